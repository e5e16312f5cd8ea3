(** C89: the external field on the boundary. *)
From Coq Require Import ZArith Reals Bool.
From Coquelicot Require Import Coquelicot.
From Verif Require Import Base SizesModel VacTables SurfModel SurfSpec SurfFinal RegSpec ExtModel ExtSpec ExtSeg ExtFinal.
Open Scope R_scope.

(** At every grid point of a thread, whatever the object held before, the
    covariant and normal components handed to the vacuum solver are those of the
    coil field plus the Biot-Savart field of the closed axis polygon, against
    the tangent vectors and the normal of the boundary. *)
Theorem C89_external_field :
  forall lasym nfp mpol ntor ntheta nzeta mg ng s b0 ztMin ztMax fullUpdate X sg g rAxis zAxis cur br bp bz e kl,
  make_sizes lasym nfp mpol ntor ntheta nzeta mg ng = Some s ->
  (0 <= ztMin <= ztMax)%Z -> (ztMax <= sz_nZnT s)%Z -> (ztMin <= kl < ztMax)%Z ->
  let F := boundary lasym nfp mpol ntor X in
  let t := 2 * PI * IZR (kl / sz_nZeta s) / IZR (sz_nThetaEven s) in
  let p := 2 * PI * IZR (kl mod sz_nZeta s) / (IZR nfp * IZR (sz_nZeta s)) in
  let per := if (sz_nZeta s =? 1)%Z then 64%Z else nfp in
  let n := (sz_nZeta s * per)%Z in
  let v := axis_vertex (sz_nZeta s) per rAxis zAxis in
  (forall i, (0 <= i < n)%Z -> off_segment (v i) (v ((i + 1) mod n)%Z) (F t p)) ->
  let g' := update s ztMin ztMax fullUpdate (vtab s b0) X sg g in
  let e' := ext_update s ztMin ztMax g' rAxis zAxis cur br bp bz e in
  let j := (kl - ztMin)%Z in
  let B := total_field cur n v (F t p) p (br j) (bp j) (bz j) in
  e_bSubU e' j = dot B (d_t F t p) /\ e_bSubV e' j = dot B (d_p F t p) /\ e_bDotN e' j = - dot B (normal (IZR sg) F t p).
Proof. exact ext_sizes. Qed.
Print Assumptions C89_external_field.

(** Off the filament no division is by zero. *)
Theorem C89_defined : forall a b x, off_segment a b x ->
  let len v := sqrt (dot v v) in
  segment_denominator (len (vsub x a)) (len (vsub x b)) (len (vsub b a)) <> 0.
Proof. exact denominator_ok. Qed.
Print Assumptions C89_defined.

(** A circular torus of major radius 3 with the axis in its centre. *)
Example C89_case : exists s, make_sizes false 5 2 0 0 1 0 0 = Some s /\ sz_nZeta s = 1%Z /\
  let v := axis_vertex 1 64 (fun _ => 3) (fun _ => 0) in
  forall i, (0 <= i < 64)%Z -> off_segment (v i) (v ((i + 1) mod 64)%Z) (boundary false 5 2 0 torus 0 0).
Proof. exact ext_case. Qed.
