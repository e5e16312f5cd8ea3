From Coq Require Import ZArith List Bool Reals Lia Lra Psatz.
From Verif Require Import Base BaseLemmas SumLemmas SizesModel FourierModel TrigSums
  DftModel DftSpec DftTables DftFold DftFinal LapMain BsubProofs FiltSpec FluxProofs SurfSpec ExtSeg
  JxbModel JxbSpec JxbProofs JxbMain MercModel MercProofs.
Open Scope R_scope.

Section Rev.
Variable s : sizes.
Hypothesis OK : sz_ok s.
Variable ns : Z.
Variable deltaS : R.
Variable d : jxb_in.
Variable y : merc_in.
Variables k k' : Z -> R.
Hypothesis K : forall i, k' i = k i.
Local Notation d' := (reverse d).
Lemma opp_div a b : a / - b = - (a / b). Proof. unfold Rdiv. rewrite Rinv_opp. ring. Qed.
Lemma r_phipH j : phip_realH d' j = - phip_realH d j. Proof. unfold phip_realH. cbn [x_phipH x_sign_of_jacobian reverse]. ring. Qed.
Lemma r_phipF j : phip_realF d' j = - phip_realF d j. Proof. unfold phip_realF. rewrite !r_phipH. unfold Rdiv. ring. Qed.
Lemma r_vp j : vp_real d' j = - vp_real d j. Proof. unfold vp_real. rewrite r_phipH, opp_div. reflexivity. Qed.
Lemma r_cur j : torcur s d' j = - torcur s d j.
Proof.
  unfold torcur. rewrite !(accum_sum s OK). cbn [x_bsubu x_sign_of_jacobian reverse].
  rewrite (zsum_ext 0 _ _ (fun kl => -1 * (x_bsubu d (j * sz_nZnT s + kl)%Z * sz_wInt s (kl mod sz_nThetaEff s)))) by (intros; ring).
  rewrite zsum_scale. ring.
Qed.
Lemma r_even a j : d_dphi deltaS d' a j = - d_dphi deltaS d a j.
Proof. unfold d_dphi. rewrite r_phipF. rewrite <- opp_div. f_equal. ring. Qed.
Lemma r_odd a a' j : (forall j, a' j = - a j) -> d_dphi deltaS d' a' j = d_dphi deltaS d a j.
Proof. intros H. unfold d_dphi. rewrite r_phipF, !H. replace (- phip_realF d j * deltaS) with (- (phip_realF d j * deltaS)) by ring. rewrite opp_div. unfold Rdiv. ring. Qed.
Lemma r_gf j kl : gsqrt_full s d' j kl = - gsqrt_full s d j kl.
Proof. unfold gsqrt_full. rewrite r_phipF, opp_div. reflexivity. Qed.
Lemma r_gpp j kl : gpp s deltaS d' y j kl = gpp s deltaS d y j kl.
Proof. unfold gpp. cbv zeta. rewrite r_gf. unfold Rdiv. ring. Qed.
Lemma r_bdotj j kl : bdotj s d' k' j kl = bdotj s d k j kl.
Proof. unfold bdotj. rewrite K. reflexivity. Qed.
Lemma prof_opp f g j : (forall j, f j = - g j) -> profile ns f j = - profile ns g j.
Proof.
  intros H. destruct (Z_lt_le_dec j 1); [rewrite !profile_out by lia; ring|].
  destruct (Z_lt_le_dec j (ns - 1)); [rewrite !profile_at by lia; apply H|rewrite !profile_out by lia; ring].
Qed.
Lemma acc_opp f g c : (forall kl w, f kl w = - g kl w) -> accum s f * c = - (accum s g * c).
Proof.
  intros H. rewrite !(accum_sum s OK). rewrite (zsum_ext 0 _ _ (fun kl => -1 * g kl (sz_wInt s (kl mod sz_nThetaEff s)))) by (intros; rewrite H; ring).
  rewrite zsum_scale. ring.
Qed.
Lemma r_shear j : i_shear ns deltaS d' y j = - i_shear ns deltaS d y j. Proof. apply prof_opp. intros. apply r_even. Qed.
Lemma r_pres j : i_pres ns deltaS d' j = - i_pres ns deltaS d j. Proof. apply prof_opp. intros. apply r_even. Qed.
Lemma r_vpp j : i_vpp ns deltaS d' j = i_vpp ns deltaS d j. Proof. apply profile_ext. intros. apply r_odd. exact r_vp. Qed.
Lemma r_icur j : i_cur s ns deltaS d' j = i_cur s ns deltaS d j. Proof. apply profile_ext. intros. apply r_odd. exact r_cur. Qed.
Lemma r_tpp j : i_tpp s ns d' j = - i_tpp s ns d j.
Proof. apply prof_opp. intros. apply acc_opp. intros. rewrite r_gf. change (b2i s d' j0 kl) with (b2i s d j0 kl). unfold Rdiv. ring. Qed.
Lemma r_tbb j : i_tbb s ns deltaS d' y j = - i_tbb s ns deltaS d y j.
Proof. apply prof_opp. intros. apply acc_opp. intros. rewrite r_gf, r_gpp. change (b2i s d' j0 kl) with (b2i s d j0 kl). ring. Qed.
Lemma r_tjb j : i_tjb s ns deltaS d' y k' j = - i_tjb s ns deltaS d y k j.
Proof. apply prof_opp. intros. apply acc_opp. intros. rewrite r_gf, r_gpp, r_bdotj. ring. Qed.
Lemma r_tjj j : i_tjj s ns deltaS d' y k' j = - i_tjj s ns deltaS d y k j.
Proof. apply prof_opp. intros. apply acc_opp. intros. rewrite r_gf, r_gpp, r_bdotj. change (b2i s d' j0 kl) with (b2i s d j0 kl). unfold Rdiv. ring. Qed.
Lemma merc_reverse j :
  m_Dshear ns deltaS d' y j = m_Dshear ns deltaS d y j /\ m_Dcurr s ns deltaS d' y k' j = m_Dcurr s ns deltaS d y k j /\
  m_Dwell s ns deltaS d' y j = m_Dwell s ns deltaS d y j /\ m_Dgeod s ns deltaS d' y k' j = m_Dgeod s ns deltaS d y k j /\
  m_DMerc s ns deltaS d' y k' j = m_DMerc s ns deltaS d y k j.
Proof.
  assert (A : forall j, m_Dshear ns deltaS d' y j = m_Dshear ns deltaS d y j) by (intros; apply profile_ext; intros; rewrite r_shear; unfold Rdiv; ring).
  assert (B : forall j, m_Dcurr s ns deltaS d' y k' j = m_Dcurr s ns deltaS d y k j) by (intros; apply profile_ext; intros; rewrite r_shear, r_tjb, r_icur, r_tbb; ring).
  assert (C : forall j, m_Dwell s ns deltaS d' y j = m_Dwell s ns deltaS d y j) by (intros; apply profile_ext; intros; rewrite r_pres, r_vpp, r_tpp, r_tbb; ring).
  assert (D : forall j, m_Dgeod s ns deltaS d' y k' j = m_Dgeod s ns deltaS d y k j) by (intros; apply profile_ext; intros; rewrite r_tjb, r_tbb, r_tjj; ring).
  repeat split; try apply A; try apply B; try apply C; try apply D.
  apply profile_ext. intros. rewrite A, B, C, D. reflexivity.
Qed.

(** jxbout *)
Lemma jxb_reverse j :
  o_jdotb s ns deltaS d' j = o_jdotb s ns deltaS d j /\ o_bdotb s ns d' j = o_bdotb s ns d j /\
  o_jpar2 s ns deltaS d' j = o_jpar2 s ns deltaS d j /\ o_jperp2 s ns deltaS d' j = o_jperp2 s ns deltaS d j /\
  o_avforce s ns deltaS d' j = o_avforce s ns deltaS d j /\ o_pprim s ns deltaS d' j = o_pprim s ns deltaS d j /\
  o_bdotgradv ns d' j = - o_bdotgradv ns d j.
Proof.
  repeat split.
  - apply extrapolate_ext. intros i. apply profile_ext. intros jF _. unfold average_jdotb. rewrite (accum_ext s OK _ (fun kl w => bdotk_pt s deltaS d jF kl * w)); [reflexivity|].
    intros. rewrite rev_bdotk. reflexivity.
  - apply profile_ext. intros jF _. unfold average_jpar2. rewrite (accum_ext s OK _ (fun kl w => bdotk_pt s deltaS d jF kl * bdotk_pt s deltaS d jF kl * w / sqgb2 s d jF kl)); [reflexivity|].
    intros. rewrite rev_bdotk. reflexivity.
  - apply profile_ext. intros jF _. unfold average_jperp2. rewrite (accum_ext s OK _ (fun kl w => kp2 s deltaS d jF kl * sqrtg s d jF kl * w)); [reflexivity|].
    intros. rewrite rev_kp2. reflexivity.
  - apply profile_ext. intros jF _. unfold average_force_residual. apply (accum_ext s OK). intros. unfold force_residual. rewrite rev_jxb. reflexivity.
  - unfold o_bdotgradv. assert (P : forall i, profile ns (fun jF => dnorm1 * tjnorm d' jF * (x_phipH d' jF + x_phipH d' (jF - 1)%Z) / 2) i =
      - profile ns (fun jF => dnorm1 * tjnorm d jF * (x_phipH d jF + x_phipH d (jF - 1)%Z) / 2) i).
    { intros i. apply prof_opp. intros jF. change (tjnorm d' jF) with (tjnorm d jF). cbn [x_phipH reverse]. unfold Rdiv. ring. }
    unfold extrapolate, upd. rewrite !P. repeat match goal with |- context [if ?c then _ else _] => destruct c end; ring.
Qed.
End Rev.

(** ** The weight 1 / |grad Phi|^2 *)
Lemma gpp_grad s deltaS d y jF kl es0 :
  let f := mkFrame es0
    (mkVec (geo s deltaS (y_ru_e y) (y_ru_o y) jF kl) 0 (geo s deltaS (y_zu_e y) (y_zu_o y) jF kl))
    (mkVec (geo s deltaS (y_rv_e y) (y_rv_o y) jF kl) (geo s deltaS (y_r_e y) (y_r_o y) jF kl) (geo s deltaS (y_zv_e y) (y_zv_o y) jF kl)) in
  jac f = gsqrt_mean s d jF kl -> jac f <> 0 -> phip_realF d jF <> 0 ->
  let G := scale (phip_realF d jF) (grad_s f) in dot G G <> 0 /\ gpp s deltaS d y jF kl = / dot G G.
Proof.
  intros f HJ HN HP G.
  set (ru := geo s deltaS (y_ru_e y) (y_ru_o y) jF kl) in *. set (zu := geo s deltaS (y_zu_e y) (y_zu_o y) jF kl) in *.
  set (rv := geo s deltaS (y_rv_e y) (y_rv_o y) jF kl) in *. set (zv := geo s deltaS (y_zv_e y) (y_zv_o y) jF kl) in *.
  set (r := geo s deltaS (y_r_e y) (y_r_o y) jF kl) in *.
  assert (E : dot G G = phip_realF d jF * phip_realF d jF * (/ jac f * / jac f) * ((ru * ru + zu * zu) * r * r + (ru * zv - rv * zu) * (ru * zv - rv * zu))).
  { unfold G, grad_s. generalize (/ jac f). intros g. unfold f, scale, dot, cross. cbn [vx vy vz eu ev]. ring. }
  set (A := (ru * ru + zu * zu) * r * r + (ru * zv - rv * zu) * (ru * zv - rv * zu)) in *.
  assert (NA : A <> 0).
  { intros EA. apply HN. unfold jac.
    assert (Q1 : (zu * r) * (zu * r) + (ru * r) * (ru * r) + (ru * zv - rv * zu) * (ru * zv - rv * zu) = 0) by (rewrite <- EA; unfold A; ring).
    assert (zu * r = 0 /\ ru * r = 0 /\ ru * zv - rv * zu = 0) as (Z1 & Z2 & Z3).
    { pose proof (Rle_0_sqr (zu * r)) as S1. pose proof (Rle_0_sqr (ru * r)) as S2. pose proof (Rle_0_sqr (ru * zv - rv * zu)) as S3. unfold Rsqr in *.
      assert (K : forall x, x * x = 0 -> x = 0) by (intros x Hx; destruct (Rmult_integral _ _ Hx); assumption).
      repeat split; apply K; lra. }
    unfold f, dot, cross. cbn [vx vy vz es eu ev].
    replace (vx es0 * (0 * zv - zu * r) + vy es0 * (zu * rv - ru * zv) + vz es0 * (ru * r - 0 * rv)) with
      (- vx es0 * (zu * r) - vy es0 * (ru * zv - rv * zu) + vz es0 * (ru * r)) by ring. rewrite Z1, Z2, Z3. ring. }
  split.
  - rewrite E. clear - HP HN NA. revert HP HN NA. generalize (phip_realF d jF) (jac f) A. intros p g a Hp Hg Ha.
    assert (/ g <> 0) by (apply Rinv_neq_0_compat; exact Hg).
    repeat apply Rmult_integral_contrapositive_currified; assumption.
  - rewrite E. unfold gpp. cbv zeta. fold ru zu rv zv r. fold A. unfold gsqrt_full. rewrite <- HJ. field. repeat split; assumption.
Qed.

(** ** The toroidal flux column *)
Definition fd : jxb_in :=
  mkJxbIn (fun _ => 1) (fun _ => 0) (fun j => IZR (j + 1)) (fun j => IZR j) (fun _ => -1) (fun _ => 1)
    (fun _ => 1) (fun _ => 2) (fun _ => 0) (fun _ => 1) (fun _ => 1) (fun _ => 1) (fun _ => 2)
    (fun _ => 0) (fun _ => 0) (fun _ => 0) (fun _ => 0) (fun _ => 0) (-1).
Lemma table_at ns d f j : (1 <= j < ns - 1)%Z -> vp_full d j <> 0 -> table ns d f j = f j.
Proof.
  intros Hj HV. unfold table. apply (for_up_set (fun a : Z -> R => a j) _ 1 (ns - 1) j); [exact Hj| |].
  - intros a. destruct (Req_EM_T (vp_full d j) 0); [contradiction|]. apply upd_eq.
  - intros i a Hi Ne. destruct (Req_EM_T (vp_full d i) 0); [reflexivity|]. apply upd_neq. auto.
Qed.
Lemma flux_value ns deltaS d j : (1 <= j < ns - 1)%Z ->
  x_dVdsH d j / x_phipH d j + x_dVdsH d (j - 1)%Z / x_phipH d (j - 1)%Z <> 0 -> x_phipH d j <> 0 -> x_phipH d (j - 1)%Z <> 0 ->
  x_sign_of_jacobian d * x_sign_of_jacobian d = 1 ->
  m_toroidal_flux ns deltaS d j =
  zsum 0 j (fun i => 2 * PI * x_sign_of_jacobian d * x_phipH d i * deltaS) + PI * x_sign_of_jacobian d * (x_phipH d j - x_phipH d 0%Z) * deltaS.
Proof.
  intros Hj HV H1 H2 SG. pose proof PI_RGT_0 as PP. unfold m_toroidal_flux. rewrite table_at; [|exact Hj|].
  - assert (FU : for_up 1 (j + 1) (fun jF' acc => acc + phip_realF d jF') 0 = zsum 1 (j + 1) (fun i => phip_realF d i)).
    { pose (I := fun m acc => acc = zsum 1 m (fun i => phip_realF d i)).
      assert (P : I (j + 1)%Z (for_up 1 (j + 1) (fun jF' acc => acc + phip_realF d jF') 0)); [|exact P].
      apply (for_up_ind I); unfold I; [lia|rewrite zsum_empty by lia; reflexivity|].
      intros m acc Hm ->. rewrite zsum_snoc by lia. reflexivity. }
    rewrite FU.
    assert (G : forall m : Z, (0 <= m)%Z -> zsum 1 (m + 1) (fun i => phip_realF d i) * deltaS =
      zsum 0 m (fun i => 2 * PI * x_sign_of_jacobian d * x_phipH d i * deltaS) + PI * x_sign_of_jacobian d * (x_phipH d m - x_phipH d 0%Z) * deltaS).
    { intros m Hm. pattern m. apply natlike_ind; [| |exact Hm].
      - change (0 + 1)%Z with 1%Z. rewrite !zsum_empty by lia. ring.
      - intros x Hx IH. change (Z.succ x) with (x + 1)%Z. rewrite zsum_snoc by lia. rewrite (zsum_snoc 0 x) by lia. rewrite Rmult_plus_distr_r, IH.
        unfold phip_realF, phip_realH. replace (x + 1 - 1)%Z with x by lia. field. }
    apply G. lia.
  - unfold vp_full, vp_real, phip_realH. intros E. apply HV.
    assert (NS : x_sign_of_jacobian d <> 0) by (intros Z; rewrite Z in SG; lra).
    set (g := x_sign_of_jacobian d) in *.
    replace ((g * (4 * PI * PI) * x_dVdsH d j / (2 * PI * x_phipH d j * g) + g * (4 * PI * PI) * x_dVdsH d (j - 1)%Z / (2 * PI * x_phipH d (j - 1)%Z * g)) / 2)
      with (PI * (x_dVdsH d j / x_phipH d j + x_dVdsH d (j - 1)%Z / x_phipH d (j - 1)%Z)) in E by (field; repeat split; (assumption || lra)).
    apply Rmult_integral in E. destruct E as [E|E]; [lra|exact E].
Qed.
