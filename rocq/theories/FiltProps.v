(** Property theorems C95 and C96: the low-pass filter of the covariant field. *)
From Coq Require Import ZArith List Bool Reals Lia Lra.
From Verif Require Import Base SumLemmas SizesModel FourierModel DftModel DftSpec DftTables DftProofs
  FiltModel FiltSpec FiltProofs FiltFinal FiltCex.
Import ListNotations.
Open Scope R_scope.

(** C95: the field after the filter is the orthogonal projection of the field
    before it on the modes m < mpol, |n| <= ntor, at every point of every surface,
    with and without stellarator symmetry ([b0]: arbitrary old contents of the
    tables). *)
Theorem C95_projection lasym nfp mpol ntor ntheta nzeta mg ng s b0 num b j k l :
  make_sizes lasym nfp mpol ntor ntheta nzeta mg ng = Some s ->
  (0 <= j < num)%Z -> (0 <= k < sz_nZeta s)%Z -> (0 <= l < sz_nThetaEff s)%Z ->
  let t := computeFourierBasis FastPoloidal (sz_nfp s) (sz_nZeta s) (sz_nThetaEven s) (sz_nThetaReduced s) (sz_mnyq2 s) (sz_nnyq2 s) b0 in
  surface s (filterU s t num b) j k l =
  synth s (parity_kinds (sz_lasym s) true) (component s (surface s b j)) Phi (theta_pt s l) (phi_pt s k).
Proof.
  intros HS Hj Hk Hl. destruct (make_sizes_nyq _ _ _ _ _ _ _ _ _ HS) as [N1 N2].
  exact (filterU_at s (make_sizes_ok _ _ _ _ _ _ _ _ _ HS) N1 N2 b0 num b j k l Hj Hk Hl).
Qed.
Print Assumptions C95_projection.
(** So a resolved field passes unchanged ... *)
Theorem C95_exact lasym nfp mpol ntor ntheta nzeta mg ng s b0 num b x j k l :
  make_sizes lasym nfp mpol ntor ntheta nzeta mg ng = Some s ->
  (0 <= j < num)%Z -> (0 <= k < sz_nZeta s)%Z -> (0 <= l < sz_nThetaEff s)%Z ->
  (forall k l, (0 <= k < sz_nZeta s)%Z -> (0 <= l < sz_nThetaEff s)%Z ->
     surface s b j k l = synth s (parity_kinds (sz_lasym s) true) x Phi (theta_pt s l) (phi_pt s k)) ->
  let t := computeFourierBasis FastPoloidal (sz_nfp s) (sz_nZeta s) (sz_nThetaEven s) (sz_nThetaReduced s) (sz_mnyq2 s) (sz_nnyq2 s) b0 in
  surface s (filterU s t num b) j k l = surface s b j k l.
Proof.
  intros HS Hj Hk Hl Hb t. unfold t. rewrite (C95_projection _ _ _ _ _ _ _ _ s b0 num b j k l HS Hj Hk Hl), (Hb k l Hk Hl).
  apply (synth_exact s (make_sizes_ok _ _ _ _ _ _ _ _ _ HS)); [|exact Hb].
  intros. apply (dead_D Phi (sz_nfp s) (or_introl eq_refl) s eq_refl). assumption.
Qed.
Print Assumptions C95_exact.
(** ... and the average of any field over a surface is kept. *)
Theorem C95_average lasym nfp mpol ntor ntheta nzeta mg ng s b0 num b j :
  make_sizes lasym nfp mpol ntor ntheta nzeta mg ng = Some s -> (0 <= j < num)%Z ->
  let t := computeFourierBasis FastPoloidal (sz_nfp s) (sz_nZeta s) (sz_nThetaEven s) (sz_nThetaReduced s) (sz_mnyq2 s) (sz_nnyq2 s) b0 in
  grid_avg s (surface s (filterU s t num b) j) = grid_avg s (surface s b j).
Proof.
  intros HS Hj t. unfold t. rewrite <- (average_kept s (make_sizes_ok _ _ _ _ _ _ _ _ _ HS) (surface s b j) _ eq_refl).
  apply DftFold.grid_ext. intros k l Hk Hl. exact (C95_projection _ _ _ _ _ _ _ _ s b0 num b j k l HS Hj Hk Hl).
Qed.
Print Assumptions C95_average.

(** C96, as claimed: the derivatives in the angles that enter the current density
    are the derivatives of the resolved field.  [_partial]: proved for runs with
    stellarator symmetry, for the radial component also for runs without it that
    have a single toroidal plane; false for the others, see below. *)
Theorem C96_angular_partial nfp mpol ntor ntheta nzeta mg ng s b0 num b x j k l :
  make_sizes false nfp mpol ntor ntheta nzeta mg ng = Some s ->
  (0 <= j < num)%Z -> (0 <= k < sz_nZeta s)%Z -> (0 <= l < sz_nThetaEff s)%Z ->
  let F := synth s (parity_kinds (sz_lasym s) true) x Phi in
  (forall k l, (0 <= k < sz_nZeta s)%Z -> (0 <= l < sz_nThetaEff s)%Z -> surface s b j k l = F (theta_pt s l) (phi_pt s k)) ->
  let t := computeFourierBasis FastPoloidal (sz_nfp s) (sz_nZeta s) (sz_nThetaEven s) (sz_nThetaReduced s) (sz_mnyq2 s) (sz_nnyq2 s) b0 in
  derivable_pt_lim (fun y => F y (phi_pt s k)) (theta_pt s l) (surface s (deriv_theta s t num b) j k l) /\
  derivable_pt_lim (fun y => F (theta_pt s l) y) (phi_pt s k) (surface s (deriv_phi s t num b) j k l).
Proof.
  intros HS Hj Hk Hl F Hb t. destruct (make_sizes_nyq _ _ _ _ _ _ _ _ _ HS) as [N1 N2].
  assert (OK := make_sizes_ok _ _ _ _ _ _ _ _ _ HS).
  assert (LA : sz_lasym s = false) by exact (proj1 (SingSumFinal.make_sizes_fields _ _ _ _ _ _ _ _ _ HS)).
  destruct (dtheta_at s OK N1 N2 b0 num b j k l LA Hj Hk Hl) as [A B]. fold t in A, B.
  change (tab s b0) with t in A, B. rewrite A, B.
  rewrite (synth_exact s OK true x (surface s b j) Phi_theta _ _ (dead_D Phi_theta (sz_nfp s) (or_intror (or_introl eq_refl)) s eq_refl) Hb).
  rewrite (synth_exact s OK true x (surface s b j) Phi_phi _ _ (dead_D Phi_phi (sz_nfp s) (or_intror (or_intror eq_refl)) s eq_refl) Hb).
  split; [apply synth_d_theta|apply synth_d_phi].
Qed.
Print Assumptions C96_angular_partial.
Theorem C96_radial_partial lasym nfp mpol ntor ntheta nzeta mg ng s b0 num b x j k l :
  make_sizes lasym nfp mpol ntor ntheta nzeta mg ng = Some s -> sz_lasym s = false \/ sz_nZeta s = 1%Z ->
  (0 <= j < num)%Z -> (0 <= k < sz_nZeta s)%Z -> (0 <= l < sz_nThetaEff s)%Z ->
  let F := synth s (parity_kinds (sz_lasym s) false) x Phi in
  (forall k l, (0 <= k < sz_nZeta s)%Z -> (0 <= l < sz_nThetaEff s)%Z -> surface s b j k l = F (theta_pt s l) (phi_pt s k)) ->
  let t := computeFourierBasis FastPoloidal (sz_nfp s) (sz_nZeta s) (sz_nThetaEven s) (sz_nThetaReduced s) (sz_mnyq2 s) (sz_nnyq2 s) b0 in
  derivable_pt_lim (fun y => F y (phi_pt s k)) (theta_pt s l) (surface s (deriv_theta_s s t num b) j k l) /\
  derivable_pt_lim (fun y => F (theta_pt s l) y) (phi_pt s k) (surface s (deriv_phi_s s t num b) j k l).
Proof.
  intros HS SM Hj Hk Hl F Hb t. destruct (make_sizes_nyq _ _ _ _ _ _ _ _ _ HS) as [N1 N2].
  assert (OK := make_sizes_ok _ _ _ _ _ _ _ _ _ HS).
  destruct (ds_at s OK N1 N2 b0 num b j k l SM Hj Hk Hl) as [A B].
  change (tab s b0) with t in A, B. rewrite A, B.
  rewrite (synth_exact s OK false x (surface s b j) Phi_theta _ _ (dead_D Phi_theta (sz_nfp s) (or_intror (or_introl eq_refl)) s eq_refl) Hb).
  rewrite (synth_exact s OK false x (surface s b j) Phi_phi _ _ (dead_D Phi_phi (sz_nfp s) (or_intror (or_intror eq_refl)) s eq_refl) Hb).
  split; [apply synth_d_theta|apply synth_d_phi].
Qed.
Print Assumptions C96_radial_partial.

(** Without stellarator symmetry the phi derivative of the resolved angular field
    cos(phi) comes out wrong: the filter stores it in the layout of the reduced
    poloidal grid, the current density reads it in that of the full grid. *)
Theorem C96_angular_refuted : exists s x b,
  make_sizes true 1 1 1 0 8 0 0 = Some s /\
  let F := synth s (parity_kinds (sz_lasym s) true) x Phi in
  (forall k l, (0 <= k < sz_nZeta s)%Z -> (0 <= l < sz_nThetaEff s)%Z -> surface s b 0 k l = F (theta_pt s l) (phi_pt s k)) /\
  forall b0 num, (1 <= num)%Z ->
  let t := computeFourierBasis FastPoloidal (sz_nfp s) (sz_nZeta s) (sz_nThetaEven s) (sz_nThetaReduced s) (sz_mnyq2 s) (sz_nnyq2 s) b0 in
  ~ derivable_pt_lim (fun y => F (theta_pt s 0) y) (phi_pt s 2) (surface s (deriv_phi s t num b) 0 2 0).
Proof.
  exists cs, cx, cb. split; [exact cs_make|]. intros F. split; [exact (cb_resolved true)|]. intros b0 num Hn t D.
  pose proof (uniqueness_limite _ _ _ _ D (synth_d_phi cs (parity_kinds (sz_lasym cs) true) cx (theta_pt cs 0) (phi_pt cs 2))) as E.
  unfold t in E. change (computeFourierBasis _ _ _ _ _ _ _ b0) with (tab cs b0) in E.
  rewrite (angular_cex b0 num Hn), expected in E. pose proof s2pos. pose proof h_lt. nra.
Qed.
Print Assumptions C96_angular_refuted.
(** The same for the radial component: its symmetric and antisymmetric parts are
    formed from points of different layouts. *)
Theorem C96_radial_refuted : exists s x b,
  make_sizes true 1 1 1 0 8 0 0 = Some s /\
  let F := synth s (parity_kinds (sz_lasym s) false) x Phi in
  (forall k l, (0 <= k < sz_nZeta s)%Z -> (0 <= l < sz_nThetaEff s)%Z -> surface s b 0 k l = F (theta_pt s l) (phi_pt s k)) /\
  forall b0 num, (1 <= num)%Z ->
  let t := computeFourierBasis FastPoloidal (sz_nfp s) (sz_nZeta s) (sz_nThetaEven s) (sz_nThetaReduced s) (sz_mnyq2 s) (sz_nnyq2 s) b0 in
  ~ derivable_pt_lim (fun y => F (theta_pt s 0) y) (phi_pt s 2) (surface s (deriv_phi_s s t num b) 0 2 0).
Proof.
  exists cs, cx, cb. split; [exact cs_make|]. intros F. split; [exact (cb_resolved false)|]. intros b0 num Hn t D.
  pose proof (uniqueness_limite _ _ _ _ D (synth_d_phi cs (parity_kinds (sz_lasym cs) false) cx (theta_pt cs 0) (phi_pt cs 2))) as E.
  unfold t in E. change (computeFourierBasis _ _ _ _ _ _ _ b0) with (tab cs b0) in E.
  rewrite (radial_cex b0 num Hn), expected in E. pose proof s2pos. pose proof h_lt.
  assert (0 < h) by (unfold h; apply Rdiv_lt_0_compat; lra). nra.
Qed.
Print Assumptions C96_radial_refuted.

(** Sizes of a symmetric three-dimensional run, and a resolved field that varies
    in both angles. *)
Example C95_case : exists s, make_sizes false 5 4 3 0 0 0 0 = Some s /\ (0 <= 1 < sz_nZeta s)%Z /\ (0 <= 1 < sz_nThetaEff s)%Z /\
  exists x b, (forall k l, (0 <= k < sz_nZeta s)%Z -> (0 <= l < sz_nThetaEff s)%Z ->
     surface s b 0 k l = synth s (parity_kinds (sz_lasym s) true) x Phi (theta_pt s l) (phi_pt s k)) /\
   x b_ss 2%Z 1%Z = 1.
Proof.
  eexists. split; [reflexivity|]. cbn [sz_nZeta sz_nThetaEff]. split; [cbn; lia|]. split; [cbn; lia|].
  match goal with |- exists x b, (forall k l, _ -> _ -> surface ?s b 0 k l = _) /\ _ => set (q := s) end.
  exists (fun b m n => if (m =? 2)%Z && (n =? 1)%Z then 1 else 0).
  exists (fun i => synth q (parity_kinds (sz_lasym q) true) (fun b m n => if (m =? 2)%Z && (n =? 1)%Z then 1 else 0) Phi (theta_pt q (i mod sz_nThetaEff q)) (phi_pt q (i / sz_nThetaEff q))).
  split; [|reflexivity]. intros k l Hk Hl. unfold surface, at_pt.
  change (0 * sz_nZeta q + k)%Z with k. cbn [sz_nThetaEff q] in Hl. 
  rewrite Z.div_add_l, (Z.add_comm (k * _)), Z.mod_add by (cbn; lia). rewrite Z.div_small, Z.mod_small by exact Hl. rewrite Z.add_0_r. reflexivity.
Qed.
