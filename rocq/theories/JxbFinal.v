From Coq Require Import ZArith List Bool Reals Lia Lra Psatz.
From Verif Require Import Base BaseLemmas SumLemmas SizesModel FourierModel FourierSpec FourierProofs TrigSums
  PartModel DftModel DftSpec DftTables DftProofs DftGeo DftForces DftFold DftFinal LapThreads LapMain BsubModel BsubProofs
  FiltModel FiltSpec FiltProofs FiltFinal FiltCex FluxProofs SurfSpec ExtSeg JxbModel JxbSpec JxbProofs.
Import ListNotations.
Open Scope R_scope.
Local Notation surface := FiltSpec.surface.

(** ** Averages of derivatives *)
Section J.
Variable s : sizes.
Hypothesis OK : sz_ok s.
Hypothesis NY1 : (sz_mpol s <= sz_mnyq s)%Z.
Hypothesis NY2 : (0 < sz_ntor s)%Z -> (sz_ntor s < sz_nnyq s)%Z.
Variable b0 : basis_tables.
Local Notation t := (tab s b0).
Local Notation nZnT := (sz_nZnT s).
Local Notation nTE := (sz_nThetaEff s).
Local Notation nTR := (sz_nThetaReduced s).
Local Notation nT := (sz_nThetaEven s).
Local Notation nz := (sz_nZeta s).
Local Notation nfp := (sz_nfp s).
Local Notation mpol := (sz_mpol s).
Local Notation ntor := (sz_ntor s).
Local Notation rp := (FiltProofs.rp s).
Local Notation rk := (DftFold.rk s).
Local Notation rl := (DftFold.rl s).

(** The derivatives of the radial component are those of some series, in every run. *)
Lemma ds_form num b j : (0 <= j < num)%Z -> exists x, forall k l, (0 <= k < nz)%Z -> (0 <= l < nTE)%Z ->
  surface s (deriv_theta_s s t num b) j k l = synth s (parity_kinds (sz_lasym s) false) x Phi_theta (theta_pt s l) (phi_pt s k) /\
  surface s (deriv_phi_s s t num b) j k l = synth s (parity_kinds (sz_lasym s) false) x Phi_phi (theta_pt s l) (phi_pt s k).
Proof.
  intros Hj. case_eq (sz_lasym s); intros LA.
  - pose (fs := fst (decomposeS s num b)). pose (fa := snd (decomposeS s num b)).
    pose (x := fun (b : bk) m n => red_avg s (fun k l => (match b with b_sc | b_cs => fs | _ => fa end) (rp j k l) * Phi nfp b m n (theta_pt s l) (phi_pt s k))).
    exists x. intros k l Hk Hl. unfold FiltSpec.surface, deriv_theta_s, deriv_phi_s, decomposedS. rewrite LA.
    fold fs fa. rewrite !(extendS_at s OK LA) by assumption.
    pose (v := fun (D : Z -> bk -> Z -> Z -> R -> R -> R) (b : bk) (k l : Z) => zsum 0 mpol (fun m => zsum 0 (ntor + 1) (fun n => x b m n * D nfp b m n (theta_pt s l) (phi_pt s k)))).
    assert (V : forall k' l', (0 <= k' < nz)%Z -> (0 <= l' < nTR)%Z ->
      filt_su_s s t num fs (rp j k' l') = v Phi_theta b_sc k' l' + v Phi_theta b_cs k' l' /\
      filt_su_a s t num fa (rp j k' l') = v Phi_theta b_cc k' l' + v Phi_theta b_ss k' l' /\
      filt_sv_s s t num fs (rp j k' l') = v Phi_phi b_sc k' l' + v Phi_phi b_cs k' l' /\
      filt_sv_a s t num fa (rp j k' l') = v Phi_phi b_cc k' l' + v Phi_phi b_ss k' l').
    { intros k' l' Hk' Hl'.
      rewrite (filt_su_s_at s OK NY1 NY2), (filt_su_a_at s OK NY1 NY2), (filt_sv_s_at s OK NY1 NY2), (filt_sv_a_at s OK NY1 NY2) by assumption.
      repeat split; reflexivity. }
    assert (S : forall D, synth s (parity_kinds true false) x D (theta_pt s l) (phi_pt s k) = v D b_sc k l + v D b_cs k l + v D b_cc k l + v D b_ss k l).
    { intros D. unfold synth, parity_kinds, v. cbn [kinds app rsum]. ring. }
    rewrite !S. unfold ext_val. destruct (Z.ltb_spec l nTR) as [L|L].
    + destruct (V k l Hk ltac:(lia)) as (-> & -> & -> & ->). split; ring.
    + rewrite (TE_la s OK LA) in Hl. destruct (V (rk k) (rl l) (rk_range s OK k) (rl_low s OK l ltac:(lia))) as (-> & -> & -> & ->).
      assert (PR : forall asy b', In b' (pkinds asy cZ) -> v Phi_theta b' (rk k) (rl l) = sgn_q asy (c_B cZ) * v Phi_theta b' k l /\
         v Phi_phi b' (rk k) (rl l) = sgn_q asy (c_C cZ) * v Phi_phi b' k l).
      { intros asy b' Hb. split; unfold v; rewrite <- zsum_scale; apply zsum_ext; intros m _; rewrite <- zsum_scale; apply zsum_ext; intros n _;
        destruct (Phi_refl s OK asy cZ b' m n k l Hb Hk ltac:(lia)) as (_ & A & B); rewrite ?A, ?B; ring. }
      destruct (PR false b_sc ltac:(cbn; auto)) as [-> ->]. destruct (PR false b_cs ltac:(cbn; auto)) as [-> ->].
      destruct (PR true b_cc ltac:(cbn; auto)) as [-> ->]. destruct (PR true b_ss ltac:(cbn; auto)) as [-> ->].
      unfold sgn_q. cbn. split; ring.
  - exists (component s (surface s b j)). intros k l Hk Hl. pose proof (ds_at s OK NY1 NY2 b0 num b j k l (or_introl LA) Hj Hk Hl) as H.
    rewrite LA in H. exact H.
Qed.

Definition part_th (b : bk) : bk := match b with b_cc => b_sc | b_sc => b_cc | b_ss => b_cs | b_cs => b_ss end.
Definition part_ze (b : bk) : bk := match b with b_cc => b_cs | b_cs => b_cc | b_ss => b_sc | b_sc => b_ss end.
Lemma avg_Phi c b m n : c <> cL -> In b (kinds (sz_lasym s) c) -> In b_cc (kinds (sz_lasym s) c) -> (0 <= m < mpol)%Z -> (0 <= n <= ntor)%Z ->
  (m <> 0 \/ n <> 0)%Z -> grid_avg s (fun k l => Phi nfp b m n (theta_pt s l) (phi_pt s k)) = 0.
Proof.
  intros NL Hb Hc Hm Hn Ne. transitivity (grid_avg s (fun k l => Phi nfp b_cc 0 0 (theta_pt s l) (phi_pt s k) * Phi nfp b m n (theta_pt s l) (phi_pt s k))).
  - apply grid_ext. intros k l _ _. rewrite (Phi_00 s). ring.
  - rewrite (grid_orth s OK c b b_cc m 0 n 0) by (assumption || lia).
    destruct (Z.eqb_spec m 0), (Z.eqb_spec n 0); rewrite ?andb_false_r; try reflexivity. lia.
Qed.
Lemma avg_deriv even b m n : In b (parity_kinds (sz_lasym s) even) -> (0 <= m < mpol)%Z -> (0 <= n <= ntor)%Z ->
  (even = false \/ sz_lasym s = true) ->
  grid_avg s (fun k l => Phi_theta nfp b m n (theta_pt s l) (phi_pt s k)) = 0 /\
  grid_avg s (fun k l => Phi_phi nfp b m n (theta_pt s l) (phi_pt s k)) = 0.
Proof.
  intros Hb Hm Hn Hp.
  assert (HT : In (part_th b) (kinds (sz_lasym s) cR) /\ In (part_ze b) (kinds (sz_lasym s) cR)).
  { unfold parity_kinds in Hb. destruct (sz_lasym s), even; try (destruct Hp; discriminate); cbn in *; intuition (subst; cbn; auto). }
  assert (HC : In b_cc (kinds (sz_lasym s) cR)) by (cbn; auto).
  split.
  - destruct (Z.eq_dec m 0) as [->|N].
    + transitivity (grid_avg s (fun _ _ => 0)); [apply grid_ext; intros; unfold Phi_theta; ring|apply grid_const, OK].
    + transitivity (grid_avg s (fun k l => (match b with b_cc | b_cs => -1 | _ => 1 end * IZR m) * Phi nfp (part_th b) m n (theta_pt s l) (phi_pt s k))).
      * apply grid_ext. intros. unfold Phi_theta, Phi. destruct b; cbn [in_theta in_zeta d_in_theta part_th]; ring.
      * rewrite grid_scale, (avg_Phi cR) by (try discriminate; try assumption; try tauto; lia). ring.
  - destruct (Z.eq_dec n 0) as [->|N].
    + transitivity (grid_avg s (fun _ _ => 0)); [apply grid_ext; intros; unfold Phi_phi; rewrite Z.mul_0_l; ring|apply grid_const, OK].
    + transitivity (grid_avg s (fun k l => (match b with b_cc | b_sc => -1 | _ => 1 end * IZR (n * nfp)) * Phi nfp (part_ze b) m n (theta_pt s l) (phi_pt s k))).
      * apply grid_ext. intros. unfold Phi_phi, Phi. destruct b; cbn [in_theta in_zeta d_in_zeta part_ze]; ring.
      * rewrite grid_scale, (avg_Phi cR) by (try discriminate; try assumption; try tauto; lia). ring.
Qed.
Lemma avg_synth ks x D : (forall b m n, In b ks -> (0 <= m < mpol)%Z -> (0 <= n <= ntor)%Z ->
    grid_avg s (fun k l => D nfp b m n (theta_pt s l) (phi_pt s k)) = 0) ->
  grid_avg s (fun k l => synth s ks x D (theta_pt s l) (phi_pt s k)) = 0.
Proof.
  intros H. unfold synth. rewrite grid_rsum.
  assert (G : forall L, (forall b, In b L -> In b ks) -> rsum L (fun a => grid_avg s (fun k l => zsum 0 mpol (fun m => zsum 0 (ntor + 1) (fun n => x a m n * D nfp a m n (theta_pt s l) (phi_pt s k))))) = 0).
  { induction L as [|b L IH]; intros HL; cbn [rsum]; [reflexivity|]. rewrite IH by (intros; apply HL; right; assumption).
    rewrite grid_zsum. rewrite zsum_zero; [ring|]. intros m Hm. rewrite grid_zsum. apply zsum_zero. intros n Hn.
    rewrite grid_scale, H by (try (apply HL; left; reflexivity); lia). ring. }
  apply G. auto.
Qed.
Lemma avg_ds num b j : (0 <= j < num)%Z ->
  grid_avg s (surface s (deriv_theta_s s t num b) j) = 0 /\ grid_avg s (surface s (deriv_phi_s s t num b) j) = 0.
Proof.
  intros Hj. destruct (ds_form num b j Hj) as [x H]. split.
  - rewrite (grid_ext s _ (fun k l => synth s (parity_kinds (sz_lasym s) false) x Phi_theta (theta_pt s l) (phi_pt s k))) by (intros; apply H; assumption).
    apply avg_synth. intros b' m n Hb Hm Hn. apply (avg_deriv false); auto.
  - rewrite (grid_ext s _ (fun k l => synth s (parity_kinds (sz_lasym s) false) x Phi_phi (theta_pt s l) (phi_pt s k))) by (intros; apply H; assumption).
    apply avg_synth. intros b' m n Hb Hm Hn. apply (avg_deriv false); auto.
Qed.
End J.
