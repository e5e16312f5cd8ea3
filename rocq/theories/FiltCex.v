From Coq Require Import ZArith List Bool Reals Lia Lra.
From Verif Require Import Base BaseLemmas SumLemmas SizesModel FourierModel FourierSpec FourierProofs TrigSums
  PartModel DftModel DftSpec DftTables DftProofs DftGeo DftForces DftFold DftFinal LapMain FiltModel FiltSpec FiltProofs FiltFinal.
Import ListNotations.
Open Scope R_scope.

(** Derivatives of a series. *)
Lemma rsum_deriv {A} (L : list A) (f : A -> R -> R) (f' : A -> R) x :
  (forall a, derivable_pt_lim (f a) x (f' a)) -> derivable_pt_lim (fun y => rsum L (fun a => f a y)) x (rsum L f').
Proof.
  intros H. induction L as [|a L IH]; cbn [rsum].
  - apply (derivable_pt_lim_const 0).
  - apply (derivable_pt_lim_plus (f a) (fun y => rsum L (fun a => f a y))); [apply H|exact IH].
Qed.
Lemma synth_d_theta s ks x theta phi :
  derivable_pt_lim (fun y => synth s ks x Phi y phi) theta (synth s ks x Phi_theta theta phi).
Proof.
  apply (rsum_deriv ks (fun b y => _)). intros b. apply (rsum_deriv _ (fun m y => _)). intros m. apply (rsum_deriv _ (fun n y => _)). intros n.
  apply (derivable_pt_lim_scal (fun y => Phi (sz_nfp s) b m n y phi)). apply Phi_d_theta.
Qed.
Lemma synth_d_phi s ks x theta phi :
  derivable_pt_lim (fun y => synth s ks x Phi theta y) phi (synth s ks x Phi_phi theta phi).
Proof.
  apply (rsum_deriv ks (fun b y => _)). intros b. apply (rsum_deriv _ (fun m y => _)). intros m. apply (rsum_deriv _ (fun n y => _)). intros n.
  apply (derivable_pt_lim_scal (fun y => Phi (sz_nfp s) b m n theta y)). apply Phi_d_phi.
Qed.
Lemma dead_D (D : Z -> bk -> Z -> Z -> R -> R -> R) nfp : D = Phi \/ D = Phi_theta \/ D = Phi_phi ->
  forall s, sz_nfp s = nfp -> forall b m n theta phi, live b m n = false -> D nfp b m n theta phi = 0.
Proof.
  intros H s <- b m n theta phi L. destruct (dead_zero s b m n theta phi L) as (A & B & C). destruct H as [->|[->| ->]]; assumption.
Qed.

(** ** asymmetric runs *)
Definition cs : sizes := match make_sizes true 1 1 1 0 8 0 0 with Some s => s | None => mkSizes true 0 0 0 0 0 0 0 true 0 0 0 0 0 (fun _ => 0) 0 0 0 0 0 0 0 end.
Lemma cs_make : make_sizes true 1 1 1 0 8 0 0 = Some cs. Proof. reflexivity. Qed.
Lemma cs_ok : sz_ok cs. Proof. exact (make_sizes_ok _ _ _ _ _ _ _ _ _ cs_make). Qed.
Lemma cs_nyq : (sz_mpol cs <= sz_mnyq cs)%Z /\ ((0 < sz_ntor cs)%Z -> (sz_ntor cs < sz_nnyq cs)%Z).
Proof. exact (make_sizes_nyq _ _ _ _ _ _ _ _ _ cs_make). Qed.
(** the field cos(phi), everywhere *)
Definition cx (b : bk) (m n : Z) : R := match b with b_cc => if (m =? 0)%Z && (n =? 1)%Z then 1 else 0 | _ => 0 end.
Definition cb (i : Z) : R := sqrt 2 * cos (ang 8 (i / 8)).

Lemma ang8 k : ang 8 k = IZR k * (PI / 4). Proof. unfold ang. field. Qed.
Definition h : R := 1 / sqrt 2.
Lemma h2 : h * h = 1 / 2.
Proof. unfold h. transitivity (1 / (sqrt 2 * sqrt 2)); [field; apply Rgt_not_eq, sqrt_lt_R0; lra|rewrite sqrt_def by lra; reflexivity]. Qed.
Lemma cos8 : cos (ang 8 0) = 1 /\ cos (ang 8 1) = h /\ cos (ang 8 2) = 0 /\ cos (ang 8 3) = - h /\
  cos (ang 8 4) = -1 /\ cos (ang 8 5) = - h /\ cos (ang 8 6) = 0 /\ cos (ang 8 7) = h.
Proof.
  rewrite !ang8. unfold h.
  split; [replace (0 * (PI / 4)) with 0 by ring; apply cos_0|].
  split; [replace (1 * (PI / 4)) with (PI / 4) by ring; apply cos_PI4|].
  split; [replace (2 * (PI / 4)) with (PI / 2) by field; apply cos_PI2|].
  split; [replace (3 * (PI / 4)) with (- (PI / 4) + PI) by field; rewrite neg_cos, cos_neg, cos_PI4; reflexivity|].
  split; [replace (4 * (PI / 4)) with PI by field; apply cos_PI|].
  split; [replace (5 * (PI / 4)) with (PI / 4 + PI) by field; rewrite neg_cos, cos_PI4; reflexivity|].
  split; [replace (6 * (PI / 4)) with (PI / 2 + PI) by field; rewrite neg_cos, cos_PI2; ring|].
  replace (7 * (PI / 4)) with (- (PI / 4) + 2 * PI) by field.
  pose proof (cos_period (- (PI / 4)) 1) as P. cbn [INR] in P. replace (- (PI / 4) + 2 * 1 * PI) with (- (PI / 4) + 2 * PI) in P by ring.
  rewrite P, cos_neg, cos_PI4. reflexivity.
Qed.
Lemma sin8 : sin (ang 8 2) = 1 /\ sin (ang 8 3) = h.
Proof.
  rewrite !ang8. split; [replace (2 * (PI / 4)) with (PI / 2) by field; apply sin_PI2|].
  replace (3 * (PI / 4)) with (- (PI / 4) + PI) by field. rewrite neg_sin, sin_neg, sin_PI4. unfold h. ring.
Qed.

Lemma synth_cx (D : Z -> bk -> Z -> Z -> R -> R -> R) theta phi :
  synth cs (parity_kinds true true) cx D theta phi = D 1%Z b_cc 0%Z 1%Z theta phi /\
  synth cs (parity_kinds true false) cx D theta phi = D 1%Z b_cc 0%Z 1%Z theta phi.
Proof.
  unfold synth, parity_kinds. cbn [kinds app rsum].
  assert (S1 : forall b, zsum 0 (sz_mpol cs) (fun m => zsum 0 (sz_ntor cs + 1) (fun n => cx b m n * D (sz_nfp cs) b m n theta phi)) =
     cx b 0 0 * D 1%Z b 0%Z 0%Z theta phi + cx b 0 1 * D 1%Z b 0%Z 1%Z theta phi).
  { intros b. change (sz_mpol cs) with 1%Z. change (sz_ntor cs + 1)%Z with 2%Z. change (sz_nfp cs) with 1%Z.
    unfold zsum. change (zrange 0 1) with [0%Z]. change (zrange 0 2) with [0%Z; 1%Z]. cbn [rsum]. ring. }
  rewrite !S1. cbn. split; ring.
Qed.
Lemma cb_row k l : (0 <= k < 8)%Z -> (0 <= l < 8)%Z -> surface cs cb 0 k l = Phi 1 b_cc 0 1 (theta_pt cs l) (phi_pt cs k).
Proof.
  intros Hk Hl. unfold surface, cb, at_pt. change (sz_nThetaEff cs) with 8%Z. change (sz_nZeta cs) with 8%Z.
  replace (((0 * 8 + k) * 8 + l) / 8)%Z with k by (rewrite Z.div_add_l, Z.div_small by lia; lia).
  unfold Phi. cbn [in_theta in_zeta]. rewrite Rmult_0_l, cos_0.
  assert (P : 1 * (1 * phi_pt cs k) = ang 8 k) by (unfold phi_pt, ang; change (sz_nZeta cs) with 8%Z; change (sz_nfp cs) with 1%Z; field).
  rewrite P. unfold s2. cbn. ring.
Qed.
Lemma cb_resolved even k l : (0 <= k < sz_nZeta cs)%Z -> (0 <= l < sz_nThetaEff cs)%Z ->
  surface cs cb 0 k l = synth cs (parity_kinds (sz_lasym cs) even) cx Phi (theta_pt cs l) (phi_pt cs k).
Proof.
  intros Hk Hl. change (sz_lasym cs) with true. destruct (synth_cx Phi (theta_pt cs l) (phi_pt cs k)) as [A B].
  destruct even; [rewrite A|rewrite B]; apply cb_row; assumption.
Qed.
Lemma cs_phi k : 1 * (1 * phi_pt cs k) = ang 8 k.
Proof. unfold phi_pt, ang. change (sz_nZeta cs) with 8%Z. change (sz_nfp cs) with 1%Z. field. Qed.

Section C.
Variable b0 : basis_tables.
Local Notation t := (tab cs b0).

(** phi derivative of an angular component *)
Lemma dphi_red num b j k l : (0 <= j < num)%Z -> (0 <= k < sz_nZeta cs)%Z -> (0 <= l < sz_nThetaReduced cs)%Z ->
  deriv_phi cs t num b (rp cs j k l) = synth cs (parity_kinds true true) (component cs (surface cs b j)) Phi_phi (theta_pt cs l) (phi_pt cs k).
Proof.
  intros Hj Hk Hl. destruct cs_nyq as [NY1 NY2]. assert (LA : sz_lasym cs = true) by reflexivity.
  rewrite synth_psy. unfold deriv_phi, decomposedU, filt_dphi. rewrite LA.
  set (fs := fst (decomposeU cs num b)). set (fa := snd (decomposeU cs num b)).
  transitivity (filt_sv_a cs t num fs (rp cs j k l) + filt_sv_s cs t num fa (rp cs j k l)).
  { unfold filt_sv_a, filt_sv_s.
    pose (v1 := fun j m n k l : Z => bt_cosmu t (m * sz_nThetaReduced cs + l)%Z * bt_sinnvn t (k * (sz_nnyq2 cs + 1) + n)%Z * transform cs (bt_cosmui t) (bt_cosnv t) fs j m n +
      bt_sinmu t (m * sz_nThetaReduced cs + l)%Z * bt_cosnvn t (k * (sz_nnyq2 cs + 1) + n)%Z * transform cs (bt_sinmui t) (bt_sinnv t) fs j m n).
    pose (v2 := fun j m n k l : Z => bt_sinmu t (m * sz_nThetaReduced cs + l)%Z * bt_sinnvn t (k * (sz_nnyq2 cs + 1) + n)%Z * transform cs (bt_sinmui t) (bt_cosnv t) fa j m n +
      bt_cosmu t (m * sz_nThetaReduced cs + l)%Z * bt_cosnvn t (k * (sz_nnyq2 cs + 1) + n)%Z * transform cs (bt_cosmui t) (bt_sinnv t) fa j m n).
    rewrite (modes_at cs num _ (fun j m n k l => v1 j m n k l + v2 j m n k l)); [|intros j' m n a i Hj' Hm Hn; cbv zeta|assumption..].
    2:{ rewrite !(accumulate_at cs). rewrite Rplus_assoc. f_equal.
      unfold at_point. rewrite <- zsum_plus. apply zsum_ext. intros k' _. rewrite <- zsum_plus. apply zsum_ext. intros l' _.
      unfold v1, v2. destruct (i =? rp cs j' k' l')%Z; [reflexivity|ring]. }
    rewrite (modes_at cs num _ v1); [|intros j' m n a i Hj' Hm Hn; apply (accumulate_at cs)|assumption..].
    rewrite (modes_at cs num _ v2); [|intros j' m n a i Hj' Hm Hn; apply (accumulate_at cs)|assumption..].
    rewrite <- zsum_plus. apply zsum_ext. intros m _. rewrite <- zsum_plus. reflexivity. }
  rewrite (filt_sv_a_at cs cs_ok NY1 NY2), (filt_sv_s_at cs cs_ok NY1 NY2) by assumption.
  assert (C1 : forall b', In b' [b_cc; b_ss] -> forall m n,
      red_avg cs (fun k l => fs (rp cs j k l) * Phi (sz_nfp cs) b' m n (theta_pt cs l) (phi_pt cs k)) = component cs (surface cs b j) b' m n).
  { intros b' Hb m n. apply (part_component cs cs_ok LA (surface cs b j) fs j false cR); [discriminate|exact Hb|].
      intros k' l' Hk' Hl'. unfold fs. destruct (decomposeU_at cs cs_ok LA num b j k' l' Hj Hk' Hl') as [-> _]. unfold surface, sgn_q. cbn. ring. }
  assert (C2 : forall b', In b' [b_sc; b_cs] -> forall m n,
      red_avg cs (fun k l => fa (rp cs j k l) * Phi (sz_nfp cs) b' m n (theta_pt cs l) (phi_pt cs k)) = component cs (surface cs b j) b' m n).
  { intros b' Hb m n. apply (part_component cs cs_ok LA (surface cs b j) fa j true cR); [discriminate|exact Hb|].
      intros k' l' Hk' Hl'. unfold fa. destruct (decomposeU_at cs cs_ok LA num b j k' l' Hj Hk' Hl') as [_ ->]. unfold surface, sgn_q. cbn. ring. }
  rewrite !(sy_psy cs Phi_phi (surface cs b j)) by (first [apply C1; cbn; auto; fail | apply C2; cbn; auto; fail]).
  unfold parity_kinds. cbn [kinds app rsum]. ring.
Qed.
Lemma Phi_phi_val theta k : Phi_phi 1 b_cc 0 1 theta (phi_pt cs k) = - (sqrt 2 * sin (ang 8 k)).
Proof. unfold Phi_phi. cbn [in_theta d_in_zeta]. rewrite Rmult_0_l, cos_0, cs_phi. change (1 * 1)%Z with 1%Z. unfold s2. cbn. ring. Qed.
Lemma s2pos : 0 < sqrt 2. Proof. apply sqrt_lt_R0; lra. Qed.
Lemma h_lt : h < 1.
Proof. pose proof h2. pose proof s2pos. assert (0 < h) by (unfold h; apply Rdiv_lt_0_compat; lra). nra. Qed.
Lemma expected even : synth cs (parity_kinds (sz_lasym cs) even) cx Phi_phi (theta_pt cs 0) (phi_pt cs 2) = - sqrt 2.
Proof.
  change (sz_lasym cs) with true. destruct (synth_cx Phi_phi (theta_pt cs 0) (phi_pt cs 2)) as [A B].
  destruct even; [rewrite A|rewrite B]; rewrite Phi_phi_val; destruct sin8 as [-> _]; ring.
Qed.
Lemma angular_cex num : (1 <= num)%Z -> surface cs (deriv_phi cs t num cb) 0 2 0 = - (sqrt 2 * h).
Proof.
  intros Hn. unfold surface. change (at_pt cs 0 2 0) with (rp cs 0 3 1).
  rewrite dphi_red; [|lia|cbn; lia|cbn; lia].
  change true with (sz_lasym cs) at 1.
  rewrite (synth_exact cs cs_ok true cx); [|intros; apply (dead_D Phi_phi 1 ltac:(auto) cs eq_refl); assumption|apply cb_resolved].
  change (sz_lasym cs) with true. destruct (synth_cx Phi_phi (theta_pt cs 1) (phi_pt cs 3)) as [-> _].
  rewrite Phi_phi_val. destruct sin8 as [_ ->]. reflexivity.
Qed.

(** phi derivative of the radial component *)
Lemma wred_cs l : wred cs l = if (l =? 0)%Z || (l =? 4)%Z then 1 / 64 else 1 / 32.
Proof. unfold wred, half_end, norm_, intNorm. change (sz_nThetaReduced cs - 1)%Z with 4%Z. change (sz_nZeta cs * 4)%Z with 32%Z. destruct ((l =? 0)%Z || (l =? 4)%Z); field. Qed.
Lemma radial_cex num : (1 <= num)%Z -> surface cs (deriv_phi_s cs t num cb) 0 2 0 = - (sqrt 2 * (1 / 2 + (13 / 2 - h) / 32)).
Proof.
  intros Hn. destruct cs_nyq as [NY1 NY2]. assert (LA : sz_lasym cs = true) by reflexivity.
  unfold surface, deriv_phi_s, decomposedS. rewrite LA.
  rewrite (extendS_at cs cs_ok LA); [|lia|cbn; lia|cbn; lia].
  set (fs := fst (decomposeS cs num cb)). set (fa := snd (decomposeS cs num cb)).
  unfold ext_val. change ((0 <? sz_nThetaReduced cs)%Z) with true. cbv iota.
  rewrite (filt_sv_s_at cs cs_ok NY1 NY2), (filt_sv_a_at cs cs_ok NY1 NY2) by (cbn; lia).
  assert (S1 : forall b src, sy cs Phi_phi b src 0 2 0 =
     red_avg cs (fun k l => src (rp cs 0 k l) * Phi 1 b 0 0 (theta_pt cs l) (phi_pt cs k)) * Phi_phi 1 b 0 0 (theta_pt cs 0) (phi_pt cs 2) +
     red_avg cs (fun k l => src (rp cs 0 k l) * Phi 1 b 0 1 (theta_pt cs l) (phi_pt cs k)) * Phi_phi 1 b 0 1 (theta_pt cs 0) (phi_pt cs 2)).
  { intros b src. unfold sy. change (sz_mpol cs) with 1%Z. change (sz_ntor cs + 1)%Z with 2%Z. change (sz_nfp cs) with 1%Z.
    unfold zsum at 1. change (zrange 0 1) with [0%Z]. cbn [rsum]. unfold zsum at 1. change (zrange 0 2) with [0%Z; 1%Z]. cbn [rsum]. ring. }
  rewrite !S1.
  assert (Z1 : forall b n, b = b_sc \/ b = b_ss -> Phi_phi 1 b 0 n (theta_pt cs 0) (phi_pt cs 2) = 0).
  { intros b n Hb. apply (dead_D Phi_phi 1 ltac:(auto) cs eq_refl). destruct Hb as [-> | ->]; reflexivity. }
  rewrite !(Z1 b_sc), !(Z1 b_ss) by auto.
  assert (Z2 : forall b, Phi_phi 1 b 0 0 (theta_pt cs 0) (phi_pt cs 2) = 0) by (intros b; unfold Phi_phi; change (0 * 1)%Z with 0%Z; ring).
  rewrite !Z2.
  assert (Z3 : Phi_phi 1 b_cs 0 1 (theta_pt cs 0) (phi_pt cs 2) = 0).
  { unfold Phi_phi. cbn [in_theta d_in_zeta]. rewrite cs_phi. destruct cos8 as (_ & _ & -> & _). ring. }
  rewrite Z3, Phi_phi_val. destruct sin8 as [-> _].
  assert (A : red_avg cs (fun k l => fa (rp cs 0 k l) * Phi 1 b_cc 0 1 (theta_pt cs l) (phi_pt cs k)) = 1 / 2 + (13 / 2 - h) / 32).
  { transitivity (zsum 0 8 (fun k => zsum 0 5 (fun l => wred cs l * ((cos (ang 8 ((5 * k + l) / 8)) + cos (ang 8 k)) * cos (ang 8 k))))).
    - unfold red_avg. change (sz_nZeta cs) with 8%Z. change (sz_nThetaReduced cs) with 5%Z.
      apply zsum_ext. intros k Hk. apply zsum_ext. intros l Hl. f_equal. unfold fa.
      destruct (decomposeS_at cs cs_ok LA num cb 0 k l ltac:(lia) Hk Hl) as [_ ->].
      change (cb (at_pt cs 0 (rk cs k) (rl cs l))) with (surface cs cb 0 (rk cs k) (rl cs l)).
      rewrite cb_row by (try apply (rk_range cs cs_ok); apply (rl_range cs cs_ok)).
      destruct (Phi_refl cs cs_ok false cR b_cc 0 1 k l ltac:(cbn; auto) Hk ltac:(change (sz_nThetaEven cs) with 8%Z; lia)) as (P & _).
      change (sz_nfp cs) with 1%Z in P. rewrite (P ltac:(discriminate)).
      assert (PV : Phi 1 b_cc 0 1 (theta_pt cs l) (phi_pt cs k) = sqrt 2 * cos (ang 8 k)).
      { unfold Phi. cbn [in_theta in_zeta]. rewrite Rmult_0_l, cos_0, cs_phi. unfold s2. cbn. ring. }
      rewrite PV. unfold cb, sgn_q. cbn [xorb std_q c_A]. change (0 * sz_nZnT cs)%Z with 0%Z. change (sz_nThetaReduced cs) with 5%Z.
      replace (0 + (k * 5 + l))%Z with (5 * k + l)%Z by lia.
      transitivity ((sqrt 2 * sqrt 2) / 2 * ((cos (ang 8 ((5 * k + l) / 8)) + cos (ang 8 k)) * cos (ang 8 k))); [cbn; field|].
      rewrite sqrt_def by lra. field.
    - destruct cos8 as (C0 & C1 & C2 & C3 & C4 & C5 & C6 & C7). pose proof h2 as H2.
      unfold zsum. change (zrange 0 8) with [0%Z; 1%Z; 2%Z; 3%Z; 4%Z; 5%Z; 6%Z; 7%Z]. change (zrange 0 5) with [0%Z; 1%Z; 2%Z; 3%Z; 4%Z].
      cbn [rsum]. rewrite !wred_cs. cbn [Z.eqb orb Pos.eqb].
      repeat match goal with |- context [((5 * ?a + ?b) / 8)%Z] => let v := eval vm_compute in ((5 * a + b) / 8)%Z in change ((5 * a + b) / 8)%Z with v end.
      rewrite C0, C1, C2, C3, C4, C5, C6, C7. nra. }
  rewrite A. ring.
Qed.
End C.
