(** The serial tridiagonal solver and the R/Z preconditioner that distributes
    Fourier modes over threads.
    Paths relative to /repo/src/vmecpp/cpp/vmecpp. *)
From Coq Require Import ZArith List Bool.
From Verif Require Import Base Num PartModel.
Import ListNotations.
Open Scope Z_scope.

Section Thomas.
Context {K : num}.

(** Arrays of one system: upper diagonal, diagonal, lower diagonal, and the
    right-hand sides in flat layout c[k * stride + j]. *)
Record tri : Type := mkTri { ta : Z -> K; td : Z -> K; tb : Z -> K; tc : Z -> K }.

(** common/util/util.cc:66-73: rows above the first active one. *)
Definition tri_pad (stride jMin nRHS : Z) (q : tri) : tri :=
  for_up 0 jMin (fun j q =>
    mkTri (upd (ta q) j (nZ 0)) (upd (td q) j (nZ 1)) (upd (tb q) j (nZ 0))
          (for_up 0 nRHS (fun k c => upd c (k * stride + j) (nZ 0)) (tc q))) q.

(** util.cc:80-86: elimination of the lower diagonal. *)
Definition tri_elim (jMin jMax : Z) (a d b : Z -> K) : Z -> K :=
  let a := upd a jMin (ndiv (a jMin) (d jMin)) in
  for_up (jMin + 1) (jMax - 1) (fun j a =>
    upd a j (ndiv (a j) (nsub (d j) (nmul (a (j - 1)) (b j))))) a.

(** util.cc:88-101: forward and backward substitution for right-hand side k. *)
Definition tri_subst (stride jMin jMax k : Z) (a d b : Z -> K) (c : Z -> K) : Z -> K :=
  let o := k * stride in
  let c := upd c (o + jMin) (ndiv (c (o + jMin)) (d jMin)) in
  let c := for_up (jMin + 1) jMax (fun j c =>
    upd c (o + j)
      (ndiv (nsub (c (o + j)) (nmul (c (o + j - 1)) (b j)))
            (nsub (d j) (nmul (a (j - 1)) (b j))))) c in
  for_down (jMax - 2) jMin (fun j c =>
    upd c (o + j) (nsub (c (o + j)) (nmul (a j) (c (o + j + 1))))) c.

(** TridiagonalSolveSerial, util.cc:54-103. *)
Definition tridiagonal_solve (stride jMin jMax nRHS : Z) (q : tri) : tri :=
  let q := tri_pad stride jMin nRHS q in
  let a := tri_elim jMin jMax (ta q) (td q) (tb q) in
  mkTri a (td q) (tb q)
    (for_up 0 nRHS (fun k c => tri_subst stride jMin jMax k a (td q) (tb q) c) (tc q)).

(** ** applyRZPreconditioner, vmec/ideal_mhd_model/ideal_mhd_model.cc:3045-3155.

    Shared storage: one system per mode and per component (R: [false], Z: [true]),
    rows all_ar, all_dr, all_br, all_cr[mn] and their Z counterparts.  Thread-local
    storage: matrix ar, dr, br and force arrays, index (jF - nsMinF) * mnsize + mn;
    force arrays one per basis function k (cR[k], cZ[k]). *)
Definition shared : Type := bool -> Z -> tri.
Record local : Type := mkLocal {
  la : bool -> Z -> K; ld : bool -> Z -> K; lb : bool -> Z -> K;
  lc : bool -> Z -> Z -> K      (* component, basis, index *)
}.

Definition upd_sys (h : shared) (z : bool) (mn : Z) (q : tri) : shared :=
  fun z' mn' => if Bool.eqb z' z && (mn' =? mn) then q else h z' mn'.

(** Shape of a call: number of surfaces [ns] (= row length of the shared arrays),
    number of modes, number of basis functions, first active row per mode, last
    active row. *)
Record shape : Type := mkShape {
  p_ns : Z; p_mn : Z; p_nb : Z; p_jmin : Z -> Z; p_jmax : Z
}.
Context (p : shape).

(** Gather one (surface, mode) pair, ideal_mhd_model.cc:3085-3098. *)
Definition gather_row (nsMinF jF mn : Z) (l : local) (z : bool) (q : tri) : tri :=
  let idx := (jF - nsMinF) * p_mn p + mn in
  mkTri (upd (ta q) jF (la l z idx)) (upd (td q) jF (ld l z idx)) (upd (tb q) jF (lb l z idx))
        (for_up 0 (p_nb p) (fun k c => upd c (k * p_ns p + jF) (lc l z k idx)) (tc q)).
Definition gather_step (nsMinF jF mn : Z) (l : local) (h : shared) : shared :=
  let h := upd_sys h false mn (gather_row nsMinF jF mn l false (h false mn)) in
  upd_sys h true mn (gather_row nsMinF jF mn l true (h true mn)).

(** Solve both systems of one mode, ideal_mhd_model.cc:3124-3137. *)
Definition solve_step (mn : Z) (h : shared) : shared :=
  let f q := tridiagonal_solve (p_ns p) (p_jmin p mn) (p_jmax p) (p_nb p) q in
  let h := upd_sys h false mn (f (h false mn)) in
  upd_sys h true mn (f (h true mn)).

(** Re-distribute one (surface, mode) pair, ideal_mhd_model.cc:3143-3152. *)
Definition scatter_step (nsMinF jF mn : Z) (h : shared) (l : local) : local :=
  let idx := (jF - nsMinF) * p_mn p + mn in
  mkLocal (la l) (ld l) (lb l)
    (fun z => let c := tc (h z mn) in
       for_up 0 (p_nb p) (fun k f k' => if k' =? k then upd (f k') idx (c (k * p_ns p + jF)) else f k')
         (lc l z)).

(** Work of thread t: its own surfaces (nsMinF..nsMaxF-1) times all modes; its
    mode range for the solve. *)
Context (bnd : Z -> Z * Z) (T : Z).
Definition own_pairs (t : Z) : list (Z * Z * Z) :=
  flat_map (fun jF => map (fun mn => (t, jF, mn)) (zrange 0 (p_mn p)))
           (zrange (fst (bnd t)) (snd (bnd t))).
Definition all_pairs : list (Z * Z * Z) := flat_map own_pairs (zrange 0 T).
(** Mode split, ideal_mhd_model.cc:3104-3122. *)
Definition own_modes (t : Z) : list Z :=
  zrange (fst (mode_range (p_mn p) T t)) (snd (mode_range (p_mn p) T t)).
Definition all_modes : list Z := flat_map own_modes (zrange 0 T).

(** One call.  The three phases are separated by barriers; inside a phase the
    steps of all threads are executed in the orders [o1], [o2], [o3]. *)
Definition apply_rz (o1 : list (Z * Z * Z)) (o2 : list Z) (o3 : list (Z * Z * Z))
    (h : shared) (l : Z -> local) : shared * (Z -> local) :=
  let h := fold_left (fun h '(t, jF, mn) => gather_step (fst (bnd t)) jF mn (l t) h) o1 h in
  let h := fold_left (fun h mn => solve_step mn h) o2 h in
  (h, fold_left (fun l '(t, jF, mn) =>
        fun t' => if t' =? t then scatter_step (fst (bnd t)) jF mn h (l t') else l t') o3 l).

End Thomas.
