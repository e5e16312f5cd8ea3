(** C84: the boundary geometry handed to the vacuum solver. *)
From Coq Require Import ZArith Reals Bool Lia Lra.
From Coquelicot Require Import Coquelicot.
From Verif Require Import Base SumLemmas SizesModel FourierModel DftTables VacTables SingSpec SurfModel SurfSpec SurfFinal.
Open Scope R_scope.

(** At every grid point of a thread, on full and partial updates, the stored
    normal and metric elements are those of the surface with the given Fourier
    coefficients; [boundary] is that surface in Cartesian space. *)
Theorem C84_normal_and_metric :
  forall lasym nfp mpol ntor ntheta nzeta mg ng s b0 ztMin ztMax fullUpdate X sg g kl,
  make_sizes lasym nfp mpol ntor ntheta nzeta mg ng = Some s ->
  (0 <= ztMin <= ztMax)%Z -> (ztMax <= sz_nZnT s)%Z -> (ztMin <= kl < ztMax)%Z ->
  let F := boundary lasym nfp mpol ntor X in
  let t := 2 * PI * IZR (kl / sz_nZeta s) / IZR (sz_nThetaEven s) in
  let p := 2 * PI * IZR (kl mod sz_nZeta s) / (IZR nfp * IZR (sz_nZeta s)) in
  let N := normal (IZR sg) F t p in
  let q x := sf_der (update s ztMin ztMax fullUpdate (vtab s b0) X sg g) x (kl - ztMin)%Z in
  q Snr = dot N (e_R p) /\ q Snv = dot N (e_phi p) /\ q Snz = dot N e_Z /\
  q Guu = dot (d_t F t p) (d_t F t p) /\
  q Guv = 2 * dot (d_t F t p) (d_p F t p) / IZR nfp /\
  q Gvv = dot (d_p F t p) (d_p F t p) / (IZR nfp * IZR nfp).
Proof. exact first_sizes. Qed.
Print Assumptions C84_normal_and_metric.

(** On a full update: second fundamental form and distance to the origin plane. *)
Theorem C84_curvature :
  forall lasym nfp mpol ntor ntheta nzeta mg ng s b0 ztMin ztMax X sg g kl,
  make_sizes lasym nfp mpol ntor ntheta nzeta mg ng = Some s ->
  (0 <= ztMin <= ztMax)%Z -> (ztMax <= sz_nZnT s)%Z -> (ztMin <= kl < ztMax)%Z ->
  let F := boundary lasym nfp mpol ntor X in
  let t := 2 * PI * IZR (kl / sz_nZeta s) / IZR (sz_nThetaEven s) in
  let p := 2 * PI * IZR (kl mod sz_nZeta s) / (IZR nfp * IZR (sz_nZeta s)) in
  let N := normal (IZR sg) F t p in
  let q x := sf_der (update s ztMin ztMax true (vtab s b0) X sg g) x (kl - ztMin)%Z in
  q Auu = dot (d_t (d_t F) t p) N / 2 /\
  q Auv = dot (d_p (d_t F) t p) N / IZR nfp /\
  q Avv = dot (d_p (d_p F) t p) N / 2 / (IZR nfp * IZR nfp) /\
  q Drv = - dot (F t p) N.
Proof. exact second_sizes. Qed.
Print Assumptions C84_curvature.

(** On a full update every thread holds the positions of all points of the full
    poloidal range, whatever its own share of the grid. *)
Theorem C84_positions :
  forall lasym nfp mpol ntor ntheta nzeta mg ng s b0 ztMin ztMax X sg g l k,
  make_sizes lasym nfp mpol ntor ntheta nzeta mg ng = Some s ->
  (0 <= ztMin <= ztMax)%Z -> (ztMax <= sz_nZnT s)%Z -> (0 <= l < sz_nThetaEven s)%Z -> (0 <= k < sz_nZeta s)%Z ->
  let F := boundary lasym nfp mpol ntor X in
  let t := 2 * PI * IZR l / IZR (sz_nThetaEven s) in
  let p := 2 * PI * IZR k / (IZR nfp * IZR (sz_nZeta s)) in
  let r := update s ztMin ztMax true (vtab s b0) X sg g in
  let j := (l * sz_nZeta s + k)%Z in
  sf_rcosuv r j = vx (F t p) /\ sf_rsinuv r j = vy (F t p) /\ sf_sym r Z1 j = vz (F t p) /\
  sf_sym r R1 j = dot (F t p) (e_R p) /\ sf_rzb2 r j = dot (F t p) (F t p).
Proof. exact positions_sizes. Qed.
Print Assumptions C84_positions.

(** Wherever the stored normal does not vanish the stored metric satisfies the
    precondition of the singular integrals (C81, C82). *)
Theorem C84_metric_regular :
  forall lasym nfp mpol ntor ntheta nzeta mg ng s b0 ztMin ztMax fullUpdate X sg g kl,
  make_sizes lasym nfp mpol ntor ntheta nzeta mg ng = Some s ->
  (0 <= ztMin <= ztMax)%Z -> (ztMax <= sz_nZnT s)%Z -> (ztMin <= kl < ztMax)%Z -> (sg = 1 \/ sg = -1)%Z ->
  let q x := sf_der (update s ztMin ztMax fullUpdate (vtab s b0) X sg g) x (kl - ztMin)%Z in
  q Snr * q Snr + q Snv * q Snv + q Snz * q Snz <> 0 -> regular_metric (q Guu) (q Guv) (q Gvv).
Proof. exact regular_sizes. Qed.
Print Assumptions C84_metric_regular.

(** A circular torus with five field periods. *)
Example C84_case : exists s, make_sizes false 5 2 0 0 1 0 0 = Some s /\ (0 < sz_nZnT s)%Z /\
  forall b0 g, let q x := sf_der (update s 0 (sz_nZnT s) true (vtab s b0) torus 1 g) x 0%Z in
  q Snr * q Snr + q Snv * q Snv + q Snz * q Snz <> 0.
Proof. exact torus_case. Qed.
