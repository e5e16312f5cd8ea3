From Coq Require Import ZArith List Bool Reals Lia Lra Psatz.
From Verif Require Import Base BaseLemmas SumLemmas SizesModel FourierModel TrigSums
  DftModel DftSpec DftTables DftFold DftFinal LapMain BsubProofs FiltSpec FluxProofs SurfSpec ExtSeg
  JxbModel JxbSpec JxbProofs JxbMain MercModel.
Open Scope R_scope.

Section M.
Variable s : sizes.
Hypothesis OK : sz_ok s.
Local Notation nZnT := (sz_nZnT s).
Local Notation nTE := (sz_nThetaEff s).
Variable ns : Z.
Variable deltaS : R.
Variable d : jxb_in.
Variable y : merc_in.
Variable bdotk : Z -> R.
Variable jF : Z.
Hypothesis HjF : (1 <= jF < ns - 1)%Z.
Local Notation W kl := (sz_wInt s (kl mod nTE)).
Local Notation sgn := (x_sign_of_jacobian d).

(** area element |e_u x e_v|^2 on the surface *)
Definition area2 (kl : Z) : R :=
  let rtf := geo s deltaS (y_ru_e y) (y_ru_o y) jF kl in let ztf := geo s deltaS (y_zu_e y) (y_zu_o y) jF kl in
  let rzf := geo s deltaS (y_rv_e y) (y_rv_o y) jF kl in let zzf := geo s deltaS (y_zv_e y) (y_zv_o y) jF kl in
  let r1f := geo s deltaS (y_r_e y) (y_r_o y) jF kl in
  (rtf * rtf + ztf * ztf) * r1f * r1f + (rtf * zzf - rzf * ztf) * (rtf * zzf - rzf * ztf).
Lemma gpp_area kl : gpp s deltaS d y jF kl = gsqrt_full s d jF kl * gsqrt_full s d jF kl / area2 kl.
Proof. reflexivity. Qed.
Lemma area2_nonneg kl : 0 <= area2 kl.
Proof.
  unfold area2. cbv zeta. set (a := geo s deltaS (y_ru_e y) (y_ru_o y) jF kl). set (b := geo s deltaS (y_zu_e y) (y_zu_o y) jF kl).
  set (r := geo s deltaS (y_r_e y) (y_r_o y) jF kl).
  apply Rplus_le_le_0_compat; [|apply Rle_0_sqr].
  replace ((a * a + b * b) * r * r) with ((a * r) * (a * r) + (b * r) * (b * r)) by ring. apply Rplus_le_le_0_compat; apply Rle_0_sqr.
Qed.

Section Geod.
Hypothesis SG : forall kl, (0 <= kl < nZnT)%Z -> 0 < sgn * gsqrt_mean s d jF kl.
Hypothesis PH : phip_realF d jF <> 0.
Hypothesis B2 : forall kl, (0 <= kl < nZnT)%Z -> 0 < b2i s d jF kl.
Hypothesis AR : forall kl, (0 <= kl < nZnT)%Z -> area2 kl <> 0.
Definition tau : R := sgn * phip_realF d jF.
Lemma gf_sign kl : (0 <= kl < nZnT)%Z -> 0 < tau * gsqrt_full s d jF kl.
Proof.
  intros H. unfold tau, gsqrt_full. pose proof (SG kl H).
  replace (sgn * phip_realF d jF * (gsqrt_mean s d jF kl / phip_realF d jF)) with (sgn * gsqrt_mean s d jF kl) by (field; exact PH). assumption.
Qed.
Lemma gpp_pos kl : (0 <= kl < nZnT)%Z -> 0 < gpp s deltaS d y jF kl.
Proof.
  intros H. rewrite gpp_area. pose proof (gf_sign kl H) as G. pose proof (area2_nonneg kl). pose proof (AR kl H).
  apply Rdiv_lt_0_compat; [|lra]. assert (gsqrt_full s d jF kl <> 0) by (intros E; rewrite E, Rmult_0_r in G; lra). nra.
Qed.
Lemma tau_nz : tau <> 0.
Proof. intros E. pose proof (gf_sign 0 ltac:(pose proof (nZnT_pos s OK); lia)) as G. rewrite E, Rmult_0_l in G. lra. Qed.
Lemma geod_le : m_Dgeod s ns deltaS d y bdotk jF <= 0.
Proof.
  unfold m_Dgeod. rewrite profile_at by exact HjF. unfold i_tjb, i_tbb, i_tjj. rewrite !profile_at by exact HjF.
  rewrite !(accum_sum s OK).
  pose (q := fun kl => tau * (b2i s d jF kl * gsqrt_full s d jF kl * gpp s deltaS d y jF kl * W kl)).
  pose (a := fun kl => bdotj s d bdotk jF kl * gpp s deltaS d y jF kl * gsqrt_full s d jF kl * W kl).
  assert (Q : forall kl, (0 <= kl < nZnT)%Z -> 0 < q kl).
  { intros kl H. unfold q. replace (tau * _) with ((tau * gsqrt_full s d jF kl) * (b2i s d jF kl * gpp s deltaS d y jF kl * W kl)) by ring.
    apply Rmult_lt_0_compat; [apply gf_sign, H|]. apply Rmult_lt_0_compat; [|apply (W_pos s OK)]. apply Rmult_lt_0_compat; [apply B2, H|apply gpp_pos, H]. }
  pose proof (cauchy 0 nZnT a q Q) as C.
  assert (E1 : zsum 0 nZnT q = tau * zsum 0 nZnT (fun kl => b2i s d jF kl * gsqrt_full s d jF kl * gpp s deltaS d y jF kl * W kl)) by (rewrite <- zsum_scale; reflexivity).
  assert (E2 : zsum 0 nZnT (fun kl => a kl * a kl / q kl) = / tau * zsum 0 nZnT (fun kl =>
     bdotj s d bdotk jF kl * gpp s deltaS d y jF kl * gsqrt_full s d jF kl * bdotj s d bdotk jF kl / b2i s d jF kl * W kl)).
  { rewrite <- zsum_scale. apply zsum_ext. intros kl H. unfold a, q. pose proof (gpp_pos kl H). pose proof (B2 kl H). pose proof (W_pos s OK kl) as WP. cbv beta in WP.
    pose proof (gf_sign kl H) as G. assert (gsqrt_full s d jF kl <> 0) by (intros E; rewrite E, Rmult_0_r in G; lra).
    pose proof tau_nz. field. repeat split; try lra; try assumption. }
  rewrite E1, E2 in C. change (fun kl => bdotj s d bdotk jF kl * gpp s deltaS d y jF kl * gsqrt_full s d jF kl * W kl) with a.
  revert C. set (A := zsum 0 nZnT a).
  generalize (zsum 0 nZnT (fun kl => b2i s d jF kl * gsqrt_full s d jF kl * gpp s deltaS d y jF kl * W kl)).
  generalize (zsum 0 nZnT (fun kl => bdotj s d bdotk jF kl * gpp s deltaS d y jF kl * gsqrt_full s d jF kl * bdotj s d bdotk jF kl / b2i s d jF kl * W kl)).
  intros JJ BB C.
  replace (tau * BB * (/ tau * JJ)) with (BB * JJ) in C by (field; apply tau_nz).
  pose proof PI_RGT_0.
  replace (A * (4 * PI * PI) * (A * (4 * PI * PI)) - BB * (4 * PI * PI) * (JJ * (4 * PI * PI))) with ((4 * PI * PI) * (4 * PI * PI) * (A * A - BB * JJ)) by ring.
  assert (P2 : 0 < 4 * PI * PI) by nra. assert (P4 : 0 < (4 * PI * PI) * (4 * PI * PI)) by (apply Rmult_lt_0_compat; exact P2).
  assert (N : A * A - BB * JJ <= 0) by lra. pose proof (Rmult_le_compat_l _ _ _ (Rlt_le _ _ P4) N) as F. rewrite Rmult_0_r in F. exact F.
Qed.
End Geod.
Lemma shear_eq : phip_realF d jF <> 0 -> deltaS <> 0 ->
  m_Dshear ns deltaS d y jF = ((y_iotaH y jF - y_iotaH y (jF - 1)%Z) / (2 * (deltaS * phip_realF d jF))) ^ 2.
Proof. intros. unfold m_Dshear. rewrite profile_at by exact HjF. unfold i_shear. rewrite profile_at by exact HjF. unfold d_dphi. field. split; assumption. Qed.
Lemma merc_sum : m_DMerc s ns deltaS d y bdotk jF = m_Dshear ns deltaS d y jF + m_Dcurr s ns deltaS d y bdotk jF + m_Dwell s ns deltaS d y jF + m_Dgeod s ns deltaS d y bdotk jF.
Proof. unfold m_DMerc. rewrite profile_at by exact HjF. reflexivity. Qed.
End M.

(** ** Reversal of the field *)
Definition reverse (d : jxb_in) : jxb_in :=
  mkJxbIn (x_dVdsH d) (x_presH d) (fun j => - x_phipH d j) (fun j => - x_phiF d j) (x_gsqrt d) (x_total_pressure d)
    (fun i => - x_bsubu d i) (fun i => - x_bsubv d i) (fun i => - x_bsupu d i) (fun i => - x_bsupv d i)
    (x_guu d) (x_guv d) (x_gvv d) (fun i => - x_bsubsu d i) (fun i => - x_bsubsv d i) (fun i => - x_bsubuv d i) (fun i => - x_bsubvu d i)
    (fun i => - x_bsubs_full d i) (x_sign_of_jacobian d).
Section Rev.
Variable s : sizes.
Hypothesis OK : sz_ok s.
Variable ns : Z.
Variable deltaS : R.
Variable d : jxb_in.
Local Notation d' := (reverse d).
Lemma rev_itheta j kl : itheta_pt s deltaS d' j kl = - itheta_pt s deltaS d j kl.
Proof. unfold itheta_pt, outside, inside. cbn [x_bsubv x_bsubsv reverse]. unfold Rdiv. ring. Qed.
Lemma rev_izeta j kl : izeta_pt s deltaS d' j kl = - izeta_pt s deltaS d j kl.
Proof. unfold izeta_pt, outside, inside. cbn [x_bsubu x_bsubsu reverse]. unfold Rdiv. ring. Qed.
Lemma rev_bdotk j kl : bdotk_pt s deltaS d' j kl = bdotk_pt s deltaS d j kl.
Proof.
  unfold bdotk_pt. rewrite rev_itheta, rev_izeta. unfold bsub1, outside, inside. cbn [x_bsubu x_bsubv reverse]. unfold Rdiv. ring.
Qed.
Lemma rev_bsup b j kl : bsup1 s d' (fun i => - b i) j kl = - bsup1 s d b j kl.
Proof. unfold bsup1, sqrtg, outside, inside. cbn [x_gsqrt reverse]. unfold Rdiv. ring. Qed.
Lemma rev_jxb j kl : jxb s deltaS d' j kl = jxb s deltaS d j kl.
Proof.
  unfold jxb. rewrite rev_itheta, rev_izeta. cbn [x_bsupu x_bsupv reverse].
  rewrite (rev_bsup (x_bsupv d)), (rev_bsup (x_bsupu d)). change (ovp d' j) with (ovp d j). ring.
Qed.
Lemma rev_kp2 j kl : kp2 s deltaS d' j kl = kp2 s deltaS d j kl.
Proof.
  unfold kp2.
  assert (U : kperpu s deltaS d' j kl = - kperpu s deltaS d j kl).
  { unfold kperpu, outside, inside. change (sqgb2 s d' j kl) with (sqgb2 s d j kl). change (pprime deltaS d' j) with (pprime deltaS d j). cbn [x_bsubv reverse]. unfold Rdiv. ring. }
  assert (V : kperpv s deltaS d' j kl = - kperpv s deltaS d j kl).
  { unfold kperpv, outside, inside. change (sqgb2 s d' j kl) with (sqgb2 s d j kl). change (pprime deltaS d' j) with (pprime deltaS d j). cbn [x_bsubu reverse]. unfold Rdiv. ring. }
  rewrite U, V. cbn [x_guu x_guv x_gvv reverse]. unfold Rdiv. ring.
Qed.
Lemma accum_ext f g : (forall kl w, f kl w = g kl w) -> accum s f = accum s g.
Proof. intros H. rewrite !(accum_sum s OK). apply zsum_ext. intros. apply H. Qed.
Lemma profile_ext f g j : (forall j, (1 <= j < ns - 1)%Z -> f j = g j) -> profile ns f j = profile ns g j.
Proof.
  intros H. destruct (Z_lt_le_dec j 1); [rewrite !profile_out by lia; reflexivity|].
  destruct (Z_lt_le_dec j (ns - 1)); [rewrite !profile_at by lia; apply H; lia|rewrite !profile_out by lia; reflexivity].
Qed.
Lemma extrapolate_ext f g j : (forall j, f j = g j) -> extrapolate ns f j = extrapolate ns g j.
Proof. intros H. unfold extrapolate, upd. rewrite !H. reflexivity. Qed.
Lemma rev_bdotk_all i : o_bdotk s ns deltaS d' i = o_bdotk s ns deltaS d i.
Proof.
  unfold o_bdotk, matrix. unfold for_up.
  assert (G : forall (L : list Z) a b, (forall i, a i = b i) ->
    forall i, fold_left (fun a jF => fold_left (fun a kl => upd a (jF * sz_nZnT s + kl)%Z (bdotk_pt s deltaS d' jF kl)) (zrange 0 (sz_nZnT s)) a) L a i =
    fold_left (fun a jF => fold_left (fun a kl => upd a (jF * sz_nZnT s + kl)%Z (bdotk_pt s deltaS d jF kl)) (zrange 0 (sz_nZnT s)) a) L b i).
  { induction L as [|j L IH]; intros a b H; cbn [fold_left]; [exact H|]. apply IH. clear IH.
    revert a b H. generalize (zrange 0 (sz_nZnT s)). induction l as [|kl l IH]; intros a b H i0; cbn [fold_left]; [apply H|].
    apply IH. intros i'. unfold upd. rewrite rev_bdotk. match goal with |- (if ?c then _ else _) = _ => destruct c end; [reflexivity|apply H]. }
  apply G. reflexivity.
Qed.
End Rev.
