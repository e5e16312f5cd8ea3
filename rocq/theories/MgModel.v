(** Interpolation of the state vector from one radial grid to the next,
    Vmec::InterpolateToNextMultigridStep, vmec/vmec/vmec.cc:1799-2050.
    [int] products are modelled by [Z]; 32-bit overflow of
    [jNew * (ns_old - 1)] (line 1929; needs more than 46340 surfaces) is not
    modelled. *)
From Coq Require Import ZArith List Bool.
From Verif Require Import Base Num PartModel.
Import ListNotations.
Open Scope Z_scope.

(** MultigridInterpolationScheme, vmec/vmec/vmec.h:36-45. *)
Inductive scheme := kLinear | kCubic | kCubicRho.

Section Mg.
  Context {K : num} (nsqrt : K -> K).

  (** Old-grid interval around a new position, vmec.cc:1929-1930. *)
  Definition js1 (ns_old ns_new jNew : Z) : Z := Z.quot (jNew * (ns_old - 1)) (ns_new - 1).
  Definition js2 (ns_old ns_new jNew : Z) : Z := Z.min (js1 ns_old ns_new jNew + 1) (ns_old - 1).

  (** vmec.cc:1812, 1926. *)
  Definition hs_old (ns_old : Z) : K := ndiv (nZ 1) (nsub (nZ ns_old) (nZ 1)).
  Definition sj (ns_new jNew : Z) : K := ndiv (nZ jNew) (nsub (nZ ns_new) (nZ 1)).

  (** Weight of node [k] of a four-point Lagrange stencil, vmec.cc:1960-1968. *)
  Definition lagrange (node : Z -> K) (target : K) (k : Z) : K :=
    for_up 0 4 (fun l w =>
      if l =? k then w
      else nmul w (ndiv (nsub target (node l)) (nsub (node k) (node l)))) (nZ 1).

  (** Stencil and weights, vmec.cc:1933-1970. *)
  Definition stencil (sch : scheme) (ns_old ns_new jNew : Z) : list (Z * K) :=
    let j1 := js1 ns_old ns_new jNew in
    let j2 := js2 ns_old ns_new jNew in
    let linear :=
      let xint := ndiv (nsub (sj ns_new jNew) (nmul (nZ j1) (hs_old ns_old))) (hs_old ns_old) in
      let xint := nmin (nZ 1) (nmax (nZ 0) xint) in
      [(j1, nsub (nZ 1) xint); (j2, xint)] in
    let cubic (rho : bool) :=
      let base := Z.min (Z.max (j1 - 1) 0) (ns_old - 4) in
      let node k := let s := nmul (nZ (base + k)) (hs_old ns_old) in if rho then nsqrt s else s in
      let target := if rho then nsqrt (sj ns_new jNew) else sj ns_new jNew in
      map (fun k => (base + k, lagrange node target k)) [0; 1; 2; 3] in
    match sch with
    | kLinear => linear
    | kCubic => if ns_old <? 4 then linear else cubic false
    | kCubicRho => if ns_old <? 4 then linear else cubic true
    end.

  (** The last old thread that owns (advances) a surface, vmec.cc:1821-1837. *)
  Definition thread_with (T_old : Z) (r_old : Z -> rpart) (j : Z) : Z :=
    for_up 0 T_old (fun t acc =>
      if (nsMinF (r_old t) <=? j) && (j <? nsMaxFIncludingLcfs (r_old t)) then t else acc) 0.

  (** The last old thread that stores a surface, vmec.cc:1973-1982. *)
  Definition source_thread (T_old : Z) (r_old : Z -> rpart) (j : Z) : Z :=
    for_up 0 T_old (fun t acc =>
      if (nsMinF1 (r_old t) <=? j) && (j <? nsMaxF1 (r_old t)) then t else acc) 0.

  Context (mpol ntor : Z) (sets : list Z).

  (** Flat index of a coefficient; FourierGeometry starts at nsMinF1. *)
  Definition idx_fc (r : rpart) (j m n : Z) : Z := ((j - nsMinF1 r) * mpol + m) * (ntor + 1) + n.

  (** Extrapolation of odd-m coefficients to the axis, vmec.cc:1840-1898.
      The loop [for (m = 1; m < mpol; m += 2)] is written as a loop over all m
      with a parity test. *)
  Definition extrapolate_axis (T_old : Z) (r_old : Z -> rpart) (x : Z -> Z -> Z -> K)
      : Z -> Z -> Z -> K :=
    let t0 := thread_with T_old r_old 0 in
    let t1 := thread_with T_old r_old 1 in
    let t2 := thread_with T_old r_old 2 in
    for_up 0 mpol (fun m x =>
      if Z.odd m then
        for_up 0 (ntor + 1) (fun n x =>
          fold_left (fun x q =>
            upd x t0 (upd2 (x t0) q (idx_fc (r_old t0) 0 m n)
              (nsub (nmul (nZ 2) (x t1 q (idx_fc (r_old t1) 1 m n)))
                    (x t2 q (idx_fc (r_old t2) 2 m n))))) sets x) x
      else x) x.

  (** Interpolation of one coefficient, vmec.cc:1998-2007. *)
  Definition interp_value (T_old : Z) (r_old : Z -> rpart) (x_old : Z -> Z -> Z -> K)
      (st : list (Z * K)) (scal : K) (q m n : Z) : K :=
    ndiv (fold_left (fun value jw =>
            let src := source_thread T_old r_old (fst jw) in
            nadd value (nmul (snd jw) (x_old src q (idx_fc (r_old src) (fst jw) m n)))) st (nZ 0))
         scal.

  (** The new array of one thread, vmec.cc:1923-2012. [scalxc] is the array of
      RadialProfiles of this thread. *)
  Definition interp_local (sch : scheme) (ns_old ns_new T_old : Z) (r_old : Z -> rpart)
      (x_old : Z -> Z -> Z -> K) (r : rpart) (scalxc : Z -> K) (x : Z -> Z -> K) : Z -> Z -> K :=
    for_up (nsMinF1 r) (nsMaxF1 r) (fun jNew x =>
      for_up 0 mpol (fun m x =>
        for_up 0 (ntor + 1) (fun n x =>
          fold_left (fun x q =>
            upd2 x q (idx_fc r jNew m n)
              (interp_value T_old r_old x_old (stencil sch ns_old ns_new jNew)
                 (scalxc ((jNew - nsMinF1 r) * 2 + m mod 2)) q m n)) sets x) x) x) x.

  (** Zeroing of the odd-m coefficients on the axis, vmec.cc:2014-2048. The
      thread number and the offset are those of the old partition. *)
  Definition zero_axis (T_old : Z) (r_old : Z -> rpart) (x : Z -> Z -> Z -> K) : Z -> Z -> Z -> K :=
    let t0 := thread_with T_old r_old 0 in
    for_up 0 mpol (fun m x =>
      if Z.odd m then
        for_up 0 (ntor + 1) (fun n x =>
          fold_left (fun x q => upd x t0 (upd2 (x t0) q (idx_fc (r_old t0) 0 m n) (nZ 0))) sets x) x
      else x) x.

  Definition InterpolateToNextMultigridStep (sch : scheme) (ns_new ns_old T_old T_new : Z)
      (r_old r_new : Z -> rpart) (scalxc : Z -> Z -> K) (x_new x_old : Z -> Z -> Z -> K)
      : Z -> Z -> Z -> K :=
    let x_old := extrapolate_axis T_old r_old x_old in
    let x_new := for_up 0 T_new (fun t x =>
      upd x t (interp_local sch ns_old ns_new T_old r_old x_old (r_new t) (scalxc t) (x t))) x_new in
    zero_axis T_old r_old x_new.
End Mg.
