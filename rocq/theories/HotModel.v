(** Export of the converged Fourier coefficients to the output quantities and
    the initialisation of a new run from them (hot restart).
    Source: src/vmecpp/cpp/vmecpp/vmec/output_quantities/output_quantities.cc and
    src/vmecpp/cpp/vmecpp/vmec/fourier_geometry/fourier_geometry.cc.
    Simplifications: exact arithmetic over [R], [int] as [Z].  The twelve
    coefficient arrays of a geometry are one function from the name of the array;
    an array that is not allocated (lthreed / lasym false) is present but never
    written.  Independent assignments to several arrays at one index are one
    simultaneous update.  The three vectors filled together for one surface
    (rmnc1, zmns1, lmns1 and rmns1, zmnc1, lmnc1) are one array of triples. *)
From Coq Require Import ZArith List Bool Reals.
From Verif Require Import Base FourierModel BoundaryModel PartModel.
Import ListNotations.
Open Scope R_scope.

(** fourier_coefficients.h: the arrays rcc rss rsc rcs zsc zcs zcc zss lsc lcs lcc lss. *)
Inductive comp := Rcc | Rss | Rsc | Rcs | Zsc | Zcs | Zcc | Zss | Lsc | Lcs | Lcc | Lss.
Definition comp_eqb (a b : comp) : bool :=
  match a, b with
  | Rcc, Rcc | Rss, Rss | Rsc, Rsc | Rcs, Rcs | Zsc, Zsc | Zcs, Zcs | Zcc, Zcc | Zss, Zss
  | Lsc, Lsc | Lcs, Lcs | Lcc, Lcc | Lss, Lss => true
  | _, _ => false
  end.
Definition geo := comp -> Z -> R.
Definition gset (g : geo) (c : comp) (i : Z) (v : R) : geo :=
  fun c' => if comp_eqb c' c then upd (g c') i v else g c'.

Section Hot.
Variables (lasym lthreed : bool) (mpol ntor ns : Z).

(** Which arrays are allocated: fourier_coefficients.cc:15-50. *)
Definition has (c : comp) : bool :=
  match c with
  | Rcc | Zsc | Lsc => true
  | Rss | Zcs | Lcs => lthreed
  | Rsc | Zcc | Lcc => lasym
  | Rcs | Zss | Lss => lasym && lthreed
  end.

(** output_quantities.cc:1731-1765, the assignments for one (jF, n, m). *)
Definition gather_cell (g : geo) (source target : Z) (res : geo) : geo :=
  fun c j => if has c then (if (j =? target)%Z then g c source else res c j) else res c j.
(** output_quantities.cc:1718-1766: one thread.  Only phipF of the copied profiles
    is kept.  [res] = (state vector arrays, phipF). *)
Definition gather_thread (th : rpart * (geo * (Z -> R))) (res : geo * (Z -> R)) : geo * (Z -> R) :=
  let '(r, (g, phipF)) := th in
  for_up (nsMinF r) (nsMaxFIncludingLcfs r) (fun jF res =>
    (for_up 0 (ntor + 1) (fun n res => for_up 0 mpol (fun m res =>
       gather_cell g (((jF - nsMinF1 r) * mpol + m) * (ntor + 1) + n)%Z
                     ((jF * (ntor + 1) + n) * mpol + m)%Z res) res) (fst res),
     upd (snd res) jF (phipF (jF - nsMinF1 r)%Z))) res.
(** output_quantities.cc:1559-1767 (zeroed results, loop over the threads). *)
Definition gather (ths : list (rpart * (geo * (Z -> R)))) : geo * (Z -> R) :=
  fold_left (fun res th => gather_thread th res) ths (fun _ _ => 0, fun _ => 0).

Definition ix (jF n m : Z) : Z := ((jF * (ntor + 1) + n) * mpol + m)%Z.
(** output_quantities.cc:4575-4590 with (a, b) = (rmnss, zmncs) and 5190-5204 with
    (a, b) = (rmnsc, zmncc). *)
Definition undo_m1 (a b : comp) (g : geo) : geo :=
  for_up 0 ns (fun jF g => for_up 0 (ntor + 1) (fun n g =>
    let i := ix jF n 1 in
    let old := g a i in
    let g := gset g a i (old + g b i) in
    gset g b i (old - g b i)) g) g.

Definition triple := (R * R * R)%type.
Definition set3 (t : triple) (v : R) : triple := (fst t, v).

(** output_quantities.cc:4601-4662: the coefficients of surface jF; the result
    carries the last value of mn, which line 4661 CHECKs. *)
Definition sym_column (g : geo) (jF : Z) : Z * (Z -> triple) :=
  let s := for_up 0 (ntor + 1) (fun n s =>
    let mn := (fst s + 1)%Z in
    let i := ix jF n 0 in
    let t1 := mscale 0 * nscale n in
    (mn, upd (snd s) mn
       (t1 * g Rcc i,
        if lthreed then - t1 * g Zcs i else snd (fst (snd s mn)),
        if lthreed then - t1 * g Lcs i else snd (snd s mn)))) ((-1)%Z, fun _ => (0, 0, 0)) in
  let s := if lthreed && (jF =? 0)%Z then
      (fst s, snd (for_up 0 (ntor + 1) (fun n q =>
         let mn := (fst q + 1)%Z in
         let t1 := mscale 0 * nscale n in
         (mn, upd (snd q) mn (set3 (snd q mn) (- t1 * (2 * g Lcs (ix 1 n 0) - g Lcs (ix 2 n 0))))))
         ((-1)%Z, snd s)))
    else s in
  for_up 1 mpol (fun m s => for_up (- ntor) (ntor + 1) (fun n s =>
    let mn := (fst s + 1)%Z in
    let abs_n := Z.abs n in
    let i := ix jF abs_n m in
    let t1 := mscale m * nscale abs_n in
    (mn,
     if (n =? 0)%Z then upd (snd s) mn (t1 * g Rcc i, t1 * g Zsc i, t1 * g Lsc i)
     else if (0 <? jF)%Z then
       let sign_n := IZR (signum n) in
       upd (snd s) mn
         (if lthreed
          then (t1 * g Rcc i / 2 + t1 * sign_n * g Rss i / 2,
                t1 * g Zsc i / 2 - t1 * sign_n * g Zcs i / 2,
                t1 * g Lsc i / 2 - t1 * sign_n * g Lcs i / 2)
          else (t1 * g Rcc i / 2, t1 * g Zsc i / 2, t1 * g Lsc i / 2))
     else snd s)) s) s.

(** output_quantities.cc:5214-5266, the triple is (rmns1, zmnc1, lmnc1). *)
Definition asym_column (g : geo) (jF : Z) : Z * (Z -> triple) :=
  let s := for_up 0 (ntor + 1) (fun n s =>
    let mn := (fst s + 1)%Z in
    let i := ix jF n 0 in
    let t1 := mscale 0 * nscale n in
    (mn, upd (snd s) mn
       (if lthreed then - t1 * g Rcs i else fst (fst (snd s mn)),
        t1 * g Zcc i, t1 * g Lcc i))) ((-1)%Z, fun _ => (0, 0, 0)) in
  for_up 1 mpol (fun m s => for_up (- ntor) (ntor + 1) (fun n s =>
    let mn := (fst s + 1)%Z in
    let abs_n := Z.abs n in
    let i := ix jF abs_n m in
    let t1 := mscale m * nscale abs_n in
    (mn,
     if (n =? 0)%Z then upd (snd s) mn (t1 * g Rsc i, t1 * g Zcc i, t1 * g Lcc i)
     else if (0 <? jF)%Z then
       let sign_n := IZR (signum n) in
       upd (snd s) mn
         (if lthreed
          then (t1 * g Rsc i / 2 - t1 * sign_n * g Rcs i / 2,
                t1 * g Zcc i / 2 + t1 * sign_n * g Zss i / 2,
                t1 * g Lcc i / 2 + t1 * sign_n * g Lss i / 2)
          else (t1 * g Rsc i / 2, t1 * g Zcc i / 2, t1 * g Lcc i / 2))
     else snd s)) s) s.

(** output_quantities.cc:4594-4596 and 4664-4669 (5208-5210, 5270-5275): the
    matrices start zeroed, column jF receives the three vectors, the third one
    scaled. *)
Record wmat := mkW { w1 : Z -> Z -> R; w2 : Z -> Z -> R; w3 : Z -> Z -> R }.
Definition store_columns (lamscale : R) (phipF : Z -> R) (col : Z -> Z -> triple) : wmat :=
  for_up 0 ns (fun jF w => for_up 0 (mnMax mpol ntor) (fun mn w =>
    let '(a, b, c) := col jF mn in
    mkW (upd2 (w1 w) mn jF a) (upd2 (w2 w) mn jF b) (upd2 (w3 w) mn jF (c / phipF jF * lamscale))) w)
    (mkW (fun _ _ => 0) (fun _ _ => 0) (fun _ _ => 0)).

(** The geometry part of WOutFileContents: (rmnc, zmns, lmns_full) and
    (rmns, zmnc, lmnc_full), the latter only filled if lasym.
    output_quantities.cc:4572-4673, 5186-5277. *)
Definition export (lamscale : R) (res : geo * (Z -> R)) : wmat * option wmat :=
  let '(g, phipF) := res in
  let g := if lthreed then undo_m1 Rss Zcs g else g in
  let sym := store_columns lamscale phipF (fun jF => snd (sym_column g jF)) in
  if lasym then
    let g := undo_m1 Rsc Zcc g in
    (sym, Some (store_columns lamscale phipF (fun jF => snd (asym_column g jF))))
  else (sym, None).

(** ** Restart *)
Definition to_bdy (g : geo) : bdy :=
  mkBdy (g Rcc) (g Zsc) (g Rss) (g Zcs) (g Rsc) (g Zcc) (g Rcs) (g Zss).
Definition with_bdy (g : geo) (b : bdy) : geo := fun c =>
  match c with
  | Rcc => rbcc b | Zsc => zbsc b | Rss => rbss b | Zcs => zbcs b
  | Rsc => rbsc b | Zcc => zbcc b | Rcs => rbcs b | Zss => zbss b
  | _ => g c
  end.

Section Read.
Variables (nsMin nsMax : Z) (nsMinF1 : Z).
Definition jx (jF m n : Z) : Z := (((jF - nsMin) * mpol + m) * (ntor + 1) + n)%Z.

(** Simultaneous store of the R and Z arrays at one index; the second pair only
    if lthreed (fourier_geometry.cc:205-215). *)
Definition set_rz (i : Z) (vcc vsc vss vcs : R) (g : geo) : geo :=
  let g := gset (gset g Rcc i vcc) Zsc i vsc in
  if lthreed then gset (gset g Rss i vss) Zcs i vcs else g.

(** fourier_geometry.cc:186-217: surfaces taken from the state; the scratch
    vectors are freshly zeroed. *)
Definition read_rz (rmnc zmns : Z -> Z -> R) (jF : Z) (g : geo) : geo :=
  let '(_, (cc, ss)) := cos_to_cc_ss FastPoloidal ntor mpol (fun mn => rmnc mn jF) (fun _ => 0) (fun _ => 0) in
  let '(_, (sc, cs)) := sin_to_sc_cs FastPoloidal ntor mpol (fun mn => zmns mn jF) (fun _ => 0) (fun _ => 0) in
  for_up 0 mpol (fun m g => for_up 0 (ntor + 1) (fun n g =>
    let k := (m * (ntor + 1) + n)%Z in
    set_rz (jx jF m n) (cc k) (sc k) (ss k) (cs k) g) g) g.

(** fourier_geometry.cc:223-250 *)
Definition read_l (lamscale : R) (phipF : Z -> R) (lmns_full : Z -> Z -> R) (jF : Z) (g : geo) : geo :=
  let '(_, (sc, cs)) := sin_to_sc_cs FastPoloidal ntor mpol (fun mn => lmns_full mn jF) (fun _ => 0) (fun _ => 0) in
  for_up 0 mpol (fun m g => for_up 0 (ntor + 1) (fun n g =>
    let k := (m * (ntor + 1) + n)%Z in
    let i := jx jF m n in
    let lambda_unscaling := lamscale / phipF (jF - nsMinF1)%Z in
    let g := gset g Lsc i (sc k / lambda_unscaling) in
    if lthreed then gset g Lcs i (cs k / lambda_unscaling) else g) g) g.

(** fourier_geometry.cc:253-286: std::copy of the boundary arrays, then the
    scaling of every entry. *)
Definition read_bdy (b : bdy) (g : geo) : geo :=
  let jF := (ns - 1)%Z in
  let g := for_up 0 (mpol * (ntor + 1)) (fun k g =>
    set_rz ((jF - nsMin) * mpol * (ntor + 1) + k)%Z (rbcc b k) (zbsc b k) (rbss b k) (zbcs b k) g) g in
  for_up 0 mpol (fun m g => for_up 0 (ntor + 1) (fun n g =>
    let i := jx jF m n in
    let f := 1 / (mscale m * nscale n) in
    set_rz i (g Rcc i * f) (g Zsc i * f) (g Rss i * f) (g Zcs i * f) g) g) g.

(** fourier_geometry.cc:297-310 *)
Definition clear_axis_lambda (g : geo) : geo :=
  for_up 0 (ntor + 1) (fun n g =>
    let i := jx 0 0 n in
    let g := gset g Lsc i 0 in
    if lthreed then gset g Lcs i 0 else g) g.

(** FourierGeometry::InitFromState, fourier_geometry.cc:173-310.  [b] is None for
    the null pointer (free-boundary); [has_boundary] is
    RadialPartitioning::has_boundary(), nsMaxF1 == ns.  [g0] is the geometry
    before the call (zeroed by its constructor). *)
Definition init_from_state (lamscale : R) (phipF : Z -> R) (rmnc zmns lmns_full : Z -> Z -> R)
    (b : option bdy) (has_boundary : bool) (g0 : geo) : geo :=
  let maxj := match b with None => ns | Some _ => (ns - 1)%Z end in
  let g := for_up nsMin (Z.min nsMax maxj) (read_rz rmnc zmns) g0 in
  let g := for_up nsMin nsMax (read_l lamscale phipF lmns_full) g in
  let g := match b with Some b => if has_boundary then read_bdy b g else g | None => g end in
  let g := with_bdy g (m1Constraint lasym lthreed mpol ntor nsMin nsMax (1 / 2) (Some maxj) (to_bdy g)) in
  if (nsMin =? 0)%Z then clear_axis_lambda g else g.
End Read.
End Hot.

(** vmec.cc:59-95, CheckInitialState: the previous run and the new input must
    agree in lasym, mpol, ntor, and the last grid of the previous run must be the
    first one of the new run. *)
Record hot_in := mkHot { h_lasym : bool; h_mpol : Z; h_ntor : Z; h_ns : list Z }.
Definition CheckInitialState (old new : hot_in) : bool :=
  eqb (h_lasym old) (h_lasym new) && (h_mpol old =? h_mpol new)%Z && (h_ntor old =? h_ntor new)%Z &&
  match rev (h_ns old), h_ns new with
  | l :: _, f :: _ => (l =? f)%Z
  | _, _ => false
  end.
