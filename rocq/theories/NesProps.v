(** C90: the vacuum field on the boundary. *)
From Coq Require Import ZArith List Reals Bool Permutation.
From Coquelicot Require Import Coquelicot.
From Verif Require Import Base SumLemmas PartModel SizesModel VacTables SurfModel SurfSpec SurfFinal RegSpec LapSpec ExtModel ExtSpec NesModel NesSpec NesFinal.
Open Scope R_scope.

(** Where the boundary is regular, the field given back at a grid point is the
    vector tangent to the boundary whose tangential components are those of the
    external field plus the gradient of the potential; the pressure given back
    is half its square. Any external components, any earlier state. *)
Theorem C90_vacuum_field : forall lasym nfp mpol ntor ntheta nzeta mg ng s b0 ztMin ztMax fullUpdate X sg g bvec efU efV old w kl,
  make_sizes lasym nfp mpol ntor ntheta nzeta mg ng = Some s ->
  (0 <= ztMin <= ztMax)%Z -> (ztMax <= sz_nZnT s)%Z -> (ztMin <= kl < ztMax)%Z ->
  let mf := (mpol + 1)%Z in let nf := ntor in
  let F := boundary lasym nfp mpol ntor X in
  let t := 2 * PI * IZR (kl / sz_nZeta s) / IZR (sz_nThetaEven s) in
  let p := 2 * PI * IZR (kl mod sz_nZeta s) / (IZR nfp * IZR (sz_nZeta s)) in
  let Phi := potential nfp mf nf (fun m n => bvec (mode_at mf nf m n))
               (fun m n => if lasym then bvec ((mf + 1) * (2 * nf + 1) + mode_at mf nf m n)%Z else 0) in
  dot (normal 1 F t p) (normal 1 F t p) <> 0 ->
  let g' := update s ztMin ztMax fullUpdate (vtab s b0) X sg g in
  let w' := vacuum_field s ztMin ztMax g' (covariant s (vtab s b0) mf nf ztMin ztMax bvec efU efV old) w in
  let B := from_cylindrical p (v_r w' kl) (v_phi w' kl) (v_z w' kl) in
  dot B (d_t F t p) = efU (kl - ztMin)%Z + Derive (fun t => Phi t p) t /\
  dot B (d_p F t p) = efV (kl - ztMin)%Z + Derive (fun p => Phi t p) p /\
  dot B (normal (IZR sg) F t p) = 0 /\ v_bsq w' kl = dot B B / 2.
Proof. exact vac_sizes. Qed.
Print Assumptions C90_vacuum_field.

(** With the external field of C89: coils plus closed axis polygon. *)
Theorem C90_with_external : forall lasym nfp mpol ntor ntheta nzeta mg ng s b0 ztMin ztMax fullUpdate X sg g bvec rAxis zAxis cur br bp bz e old w kl,
  make_sizes lasym nfp mpol ntor ntheta nzeta mg ng = Some s ->
  (0 <= ztMin <= ztMax)%Z -> (ztMax <= sz_nZnT s)%Z -> (ztMin <= kl < ztMax)%Z ->
  let mf := (mpol + 1)%Z in let nf := ntor in
  let F := boundary lasym nfp mpol ntor X in
  let t := 2 * PI * IZR (kl / sz_nZeta s) / IZR (sz_nThetaEven s) in
  let p := 2 * PI * IZR (kl mod sz_nZeta s) / (IZR nfp * IZR (sz_nZeta s)) in
  let Phi := potential nfp mf nf (fun m n => bvec (mode_at mf nf m n))
               (fun m n => if lasym then bvec ((mf + 1) * (2 * nf + 1) + mode_at mf nf m n)%Z else 0) in
  dot (normal 1 F t p) (normal 1 F t p) <> 0 ->
  let g' := update s ztMin ztMax fullUpdate (vtab s b0) X sg g in
  let per := if (sz_nZeta s =? 1)%Z then 64%Z else nfp in
  let n := (sz_nZeta s * per)%Z in
  let v := axis_vertex (sz_nZeta s) per rAxis zAxis in
  (forall i, (0 <= i < n)%Z -> off_segment (v i) (v ((i + 1) mod n)%Z) (F t p)) ->
  let e' := ext_update s ztMin ztMax g' rAxis zAxis cur br bp bz e in
  let j := (kl - ztMin)%Z in
  let Be := total_field cur n v (F t p) p (br j) (bp j) (bz j) in
  let w' := vacuum_field s ztMin ztMax g' (covariant s (vtab s b0) mf nf ztMin ztMax bvec (e_bSubU e') (e_bSubV e') old) w in
  let B := from_cylindrical p (v_r w' kl) (v_phi w' kl) (v_z w' kl) in
  dot B (d_t F t p) = dot Be (d_t F t p) + Derive (fun t => Phi t p) t /\
  dot B (d_p F t p) = dot Be (d_p F t p) + Derive (fun p => Phi t p) p /\
  dot B (normal (IZR sg) F t p) = 0 /\ v_bsq w' kl = dot B B / 2.
Proof. exact vac_ext_sizes. Qed.
Print Assumptions C90_with_external.

(** The net components are the surface averages of the external field: the
    potential adds nothing, whatever the solution of the linear system, the
    number of threads and the order of their critical sections. *)
Theorem C90_net : forall lasym nfp mpol ntor ntheta nzeta mg ng s b0 T sg bvec efU efV old Eu Ev order,
  make_sizes lasym nfp mpol ntor ntheta nzeta mg ng = Some s -> (1 <= T)%Z ->
  let mf := (mpol + 1)%Z in let nf := ntor in
  let lo t := fst (tangential_range (sz_nZnT s) T t) in
  let hi t := snd (tangential_range (sz_nZnT s) T t) in
  (forall t kl, (0 <= t < T)%Z -> (lo t <= kl < hi t)%Z -> efU t (kl - lo t)%Z = Eu kl) ->
  (forall t kl, (0 <= t < T)%Z -> (lo t <= kl < hi t)%Z -> efV t (kl - lo t)%Z = Ev kl) ->
  Permutation order (zrange 0 T) ->
  net_field (map (fun t => local_net s (vtab s b0) mf nf (lo t) (hi t) sg bvec (efU t) (efV t) (old t)) order) =
  (2 * PI * IZR sg * zsum 0 (sz_nZnT s) (fun kl => sz_wInt s (kl / sz_nZeta s) * Eu kl),
   zsum 0 (sz_nZnT s) (fun kl => sz_wInt s (kl / sz_nZeta s) * Ev kl)).
Proof. exact net_sizes. Qed.
Print Assumptions C90_net.

(** A circular torus has a non-zero normal. *)
Example C90_case : exists s, make_sizes false 5 2 0 0 1 0 0 = Some s /\ sz_nZeta s = 1%Z /\
  let F := boundary false 5 2 0 torus in
  dot (normal 1 F 0 0) (normal 1 F 0 0) <> 0.
Proof. exact vac_case. Qed.
