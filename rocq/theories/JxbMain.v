From Coq Require Import ZArith List Bool Reals Lia Lra Psatz.
From Verif Require Import Base BaseLemmas SumLemmas SizesModel FourierModel TrigSums
  DftModel DftSpec DftTables DftFold DftFinal LapMain BsubModel BsubProofs BsubSpec BsubFinal
  FiltModel FiltSpec FiltProofs FiltFinal FluxProofs SurfSpec ExtSeg JxbModel JxbSpec JxbProofs JxbFinal.
Open Scope R_scope.
Local Notation surface := FiltSpec.surface.

Lemma mu_pos : 0 < MU_0.
Proof. unfold MU_0. pose proof PI_RGT_0. apply Rmult_lt_0_compat; lra. Qed.
Lemma dnorm_pos : 0 < dnorm1.
Proof. unfold dnorm1. pose proof PI_RGT_0. nra. Qed.

Section J.
Variable s : sizes.
Hypothesis OK : sz_ok s.
Local Notation nZnT := (sz_nZnT s).
Local Notation nTE := (sz_nThetaEff s).
Local Notation nz := (sz_nZeta s).
Variable ns : Z.
Variable deltaS : R.
Variable d : jxb_in.

Lemma kl_range k l : (0 <= k < nz)%Z -> (0 <= l < nTE)%Z -> (0 <= k * nTE + l < nZnT)%Z.
Proof. intros. rewrite (so_nZnT s OK). nia. Qed.
Lemma surf_flat a j k l : surface s a j k l = a (j * nZnT + (k * nTE + l))%Z.
Proof. unfold FiltSpec.surface. rewrite (at_pt_flat s OK). reflexivity. Qed.

(** ** Currents *)
Lemma izeta_avg j : (1 <= j < ns - 1)%Z -> deltaS <> 0 -> grid_avg s (surface s (x_bsubsu d) j) = 0 ->
  grid_avg s (surface s (o_izeta s ns deltaS d) j) =
  (grid_avg s (surface s (x_bsubu d) j) - grid_avg s (surface s (x_bsubu d) (j - 1))) / (MU_0 * deltaS).
Proof.
  intros Hj HD HZ. pose proof mu_pos.
  rewrite (grid_ext s _ (fun k l => 1 / (MU_0 * deltaS) * (1 * surface s (x_bsubu d) j k l + -1 * surface s (x_bsubu d) (j - 1) k l) + - (1 / MU_0) * surface s (x_bsubsu d) j k l)).
  - rewrite grid_lin, grid_lin, HZ. field. split; (exact HD || lra).
  - intros k l Hk Hl. pose proof (kl_range k l Hk Hl). rewrite !surf_flat. unfold o_izeta.
    rewrite extrapolateRows_at by lia. rewrite extrapolate_mid by lia. rewrite matrix_at by lia.
    unfold izeta_pt, outside, inside. field. split; (exact HD || lra).
Qed.
Lemma itheta_avg j : (1 <= j < ns - 1)%Z -> deltaS <> 0 -> grid_avg s (surface s (x_bsubsv d) j) = 0 ->
  grid_avg s (surface s (o_itheta s ns deltaS d) j) =
  - (grid_avg s (surface s (x_bsubv d) j) - grid_avg s (surface s (x_bsubv d) (j - 1))) / (MU_0 * deltaS).
Proof.
  intros Hj HD HZ. pose proof mu_pos.
  rewrite (grid_ext s _ (fun k l => 1 / (MU_0 * deltaS) * (-1 * surface s (x_bsubv d) j k l + 1 * surface s (x_bsubv d) (j - 1) k l) + 1 / MU_0 * surface s (x_bsubsv d) j k l)).
  - rewrite grid_lin, grid_lin, HZ. field. split; (exact HD || lra).
  - intros k l Hk Hl. pose proof (kl_range k l Hk Hl). rewrite !surf_flat. unfold o_itheta.
    rewrite matrix_at by lia. unfold itheta_pt, outside, inside. field. split; (exact HD || lra).
Qed.
Lemma tele f : (2 <= ns)%Z -> zsum 1 (ns - 1) (fun j => f j - f (j - 1)%Z) = f (ns - 2)%Z - f 0%Z.
Proof.
  intros H. pose proof (zsum_telescope (fun j => f (j - 1)%Z) 1 (ns - 1) ltac:(lia)) as T. cbv beta in T.
  replace (ns - 1 - 1)%Z with (ns - 2)%Z in T by lia. change (1 - 1)%Z with 0%Z in T. rewrite <- T.
  apply zsum_ext. intros j _. replace (j + 1 - 1)%Z with j by lia. reflexivity.
Qed.
Lemma grid_average f : grid_avg s f = average s f.
Proof. unfold grid_avg, average. apply zsum_ext. intros. apply zsum_ext. intros. ring. Qed.

(** ** Inequalities *)
Variable jF : Z.
Hypothesis HjF : (1 <= jF < ns - 1)%Z.
Definition sgn : R := x_sign_of_jacobian d.
Local Notation W := (fun kl => sz_wInt s (kl mod nTE)).
Hypothesis SG : sgn = 1 \/ sgn = -1.
Hypothesis DV : 0 < x_dVdsH d jF + x_dVdsH d (jF - 1)%Z.
Definition c0 : R := 2 / (x_dVdsH d jF + x_dVdsH d (jF - 1)%Z).
Lemma c0_pos : 0 < c0. Proof. unfold c0. apply Rdiv_lt_0_compat; lra. Qed.
Lemma norm_eq : dnorm1 * tjnorm d jF = c0 * sgn.
Proof. unfold tjnorm, ovp, c0, sgn. pose proof dnorm_pos. field. split; lra. Qed.
Lemma jdotb_eq : o_jdotb s ns deltaS d jF = c0 * zsum 0 nZnT (fun kl => sgn * (bdotk_pt s deltaS d jF kl * W kl)).
Proof.
  unfold o_jdotb. rewrite extrapolate_mid by exact HjF. rewrite profile_at by exact HjF. rewrite norm_eq.
  unfold average_jdotb. rewrite (accum_sum s OK), zsum_scale. ring.
Qed.
Lemma bdotb_eq : o_bdotb s ns d jF = c0 * zsum 0 nZnT (fun kl => sgn * sqgb2 s d jF kl * W kl).
Proof.
  unfold o_bdotb. rewrite extrapolate_mid by exact HjF. rewrite profile_at by exact HjF. rewrite norm_eq.
  unfold average_bdotb. rewrite (accum_sum s OK). rewrite Rmult_assoc, <- zsum_scale. f_equal. apply zsum_ext. intros. ring.
Qed.
Section Sq.
Hypothesis Q : forall kl, (0 <= kl < nZnT)%Z -> 0 < sgn * sqgb2 s d jF kl.
Lemma sgn2 : sgn * sgn = 1. Proof. destruct SG as [-> | ->]; ring. Qed.
Lemma q_nz kl : (0 <= kl < nZnT)%Z -> sqgb2 s d jF kl <> 0.
Proof. intros H E. pose proof (Q kl H). rewrite E, Rmult_0_r in *. lra. Qed.
Lemma jpar2_eq : o_jpar2 s ns deltaS d jF = c0 * zsum 0 nZnT (fun kl =>
  (sgn * (bdotk_pt s deltaS d jF kl * W kl)) * (sgn * (bdotk_pt s deltaS d jF kl * W kl)) / (sgn * sqgb2 s d jF kl * W kl)).
Proof.
  unfold o_jpar2. rewrite profile_at by exact HjF. rewrite norm_eq.
  unfold average_jpar2. rewrite (accum_sum s OK). rewrite Rmult_assoc, <- zsum_scale. f_equal. apply zsum_ext. intros kl H.
  pose proof (q_nz kl H). pose proof (W_pos s OK kl). pose proof sgn2.
  assert (sgn <> 0) by (destruct SG as [-> | ->]; lra). field. repeat split; (assumption || lra).
Qed.
Lemma cs_ineq : o_jdotb s ns deltaS d jF * o_jdotb s ns deltaS d jF <= o_bdotb s ns d jF * o_jpar2 s ns deltaS d jF /\
  0 < o_bdotb s ns d jF /\ 0 <= o_jpar2 s ns deltaS d jF.
Proof.
  pose proof c0_pos as C. pose proof (nZnT_pos s OK) as N.
  assert (P : forall kl, (0 <= kl < nZnT)%Z -> 0 < sgn * sqgb2 s d jF kl * W kl).
  { intros kl H. apply Rmult_lt_0_compat; [apply Q, H|apply (W_pos s OK)]. }
  rewrite jdotb_eq, bdotb_eq, jpar2_eq. repeat split.
  - pose proof (cauchy 0 nZnT (fun kl => sgn * (bdotk_pt s deltaS d jF kl * W kl)) _ P) as H.
    set (A := zsum 0 nZnT (fun kl => sgn * (bdotk_pt s deltaS d jF kl * W kl))) in *.
    set (B := zsum 0 nZnT (fun kl => sgn * sqgb2 s d jF kl * W kl)) in *. cbv beta in H.
    set (J := zsum 0 nZnT (fun kl => _ / _)) in *.
    replace (c0 * A * (c0 * A)) with (c0 * c0 * (A * A)) by ring. replace (c0 * B * (c0 * J)) with (c0 * c0 * (B * J)) by ring.
    apply Rmult_le_compat_l; [nra|exact H].
  - apply Rmult_lt_0_compat; [exact C|]. apply zsum_pos; assumption.
  - apply Rmult_le_pos; [lra|]. apply zsum_nonneg. intros kl H. pose proof (P kl H).
    apply Rmult_le_pos; [apply Rle_0_sqr|]. apply Rlt_le, Rinv_0_lt_compat. assumption.
Qed.
End Sq.
(** the sign of the Jacobian and a positive |B|^2 on both half surfaces suffice *)
Lemma q_from : (forall j kl, (j = jF \/ j = jF - 1)%Z -> (0 <= kl < nZnT)%Z ->
    0 < sgn * x_gsqrt d (j * nZnT + kl)%Z /\ x_presH d j < x_total_pressure d (j * nZnT + kl)%Z) ->
  forall kl, (0 <= kl < nZnT)%Z -> 0 < sgn * sqgb2 s d jF kl.
Proof.
  intros H kl Hkl. destruct (H jF kl (or_introl eq_refl) Hkl) as [A B]. destruct (H (jF - 1)%Z kl (or_intror eq_refl) Hkl) as [C D].
  unfold sqgb2, outside, inside. cbv zeta.
  replace (sgn * (_ + _)) with (sgn * x_gsqrt d (jF * nZnT + kl)%Z * (x_total_pressure d (jF * nZnT + kl)%Z - x_presH d jF) +
     sgn * x_gsqrt d ((jF - 1) * nZnT + kl)%Z * (x_total_pressure d ((jF - 1) * nZnT + kl)%Z - x_presH d (jF - 1)%Z)) by ring.
  apply Rplus_lt_0_compat; apply Rmult_lt_0_compat; lra.
Qed.
(** the perpendicular current *)
Lemma quad a b c x y : 0 <= a -> 0 <= c -> b * b <= a * c -> 0 <= x * x * a + 2 * (x * y * b) + y * y * c.
Proof.
  intros Ha Hc Hb. destruct (Req_dec a 0) as [->|Na].
  - assert (b = 0) by nra. subst b. nra.
  - assert (0 < a) by lra. apply Rmult_le_reg_l with a; [assumption|]. rewrite Rmult_0_r.
    replace (a * (x * x * a + 2 * (x * y * b) + y * y * c)) with ((a * x + b * y) * (a * x + b * y) + (a * c - b * b) * (y * y)) by ring.
    apply Rplus_le_le_0_compat; [apply Rle_0_sqr|]. apply Rmult_le_pos; [lra|apply Rle_0_sqr].
Qed.
Lemma jperp2_eq : o_jperp2 s ns deltaS d jF = c0 * zsum 0 nZnT (fun kl => kp2 s deltaS d jF kl * (sgn * sqrtg s d jF kl) * W kl).
Proof.
  unfold o_jperp2. rewrite profile_at by exact HjF. rewrite norm_eq.
  unfold average_jperp2. rewrite (accum_sum s OK). rewrite Rmult_assoc, <- zsum_scale. f_equal. apply zsum_ext. intros kl H. ring.
Qed.
Lemma sum_psd a b c a' b' c' : 0 <= a -> 0 <= c -> b * b <= a * c -> 0 <= a' -> 0 <= c' -> b' * b' <= a' * c' ->
  (b + b') * (b + b') <= (a + a') * (c + c').
Proof.
  intros A C B A' C' B'.
  (* 2 b b' <= a c' + a' c *)
  assert (K : 2 * (b * b') <= a * c' + a' * c).
  { assert (S : (2 * (b * b')) * (2 * (b * b')) <= (a * c' + a' * c) * (a * c' + a' * c)).
    { assert (H1 : (b * b) * (b' * b') <= (a * c) * (a' * c')) by (apply Rmult_le_compat; try apply Rle_0_sqr; assumption).
      pose proof (Rle_0_sqr (a * c' - a' * c)) as H2. unfold Rsqr in H2. nra. }
    assert (0 <= a * c' + a' * c) by (apply Rplus_le_le_0_compat; apply Rmult_le_pos; assumption).
    destruct (Rle_lt_dec (2 * (b * b')) 0); [lra|]. apply Rsqr_incr_0; unfold Rsqr; lra. }
  nra.
Qed.
Lemma jperp2_nonneg : (forall j kl, (j = jF \/ j = jF - 1)%Z -> (0 <= kl < nZnT)%Z ->
    0 < sgn * x_gsqrt d (j * nZnT + kl)%Z /\ 0 <= x_guu d (j * nZnT + kl)%Z /\ 0 <= x_gvv d (j * nZnT + kl)%Z /\
    x_guv d (j * nZnT + kl)%Z * x_guv d (j * nZnT + kl)%Z <= x_guu d (j * nZnT + kl)%Z * x_gvv d (j * nZnT + kl)%Z) ->
  0 <= o_jperp2 s ns deltaS d jF.
Proof.
  intros H. rewrite jperp2_eq. apply Rmult_le_pos; [apply Rlt_le, c0_pos|]. apply zsum_nonneg. intros kl Hkl.
  destruct (H jF kl (or_introl eq_refl) Hkl) as (A1 & A2 & A3 & A4). destruct (H (jF - 1)%Z kl (or_intror eq_refl) Hkl) as (B1 & B2 & B3 & B4).
  apply Rmult_le_pos; [|apply Rlt_le, (W_pos s OK)]. apply Rmult_le_pos.
  - unfold kp2, outside, inside. cbv zeta.
    match goal with |- 0 <= ?x * ?x * ?a / 2 + 2 * (?x * ?y * ?b / 2) + ?y * ?y * ?c / 2 =>
      replace (x * x * a / 2 + 2 * (x * y * b / 2) + y * y * c / 2) with ((x * x * a + 2 * (x * y * b) + y * y * c) / 2) by field;
      assert (0 <= x * x * a + 2 * (x * y * b) + y * y * c); [apply quad|lra] end.
    + lra.
    + lra.
    + apply sum_psd; assumption.
  - unfold sqrtg, outside, inside. replace (sgn * ((_ + _) / 2)) with
      ((sgn * x_gsqrt d (jF * nZnT + kl)%Z + sgn * x_gsqrt d ((jF - 1) * nZnT + kl)%Z) / 2) by field. lra.
Qed.
(** |B|^2 *)
Lemma bdotb_range lo hi :
  (forall j, (j = jF \/ j = jF - 1)%Z -> x_dVdsH d j = sgn * zsum 0 nZnT (fun kl => x_gsqrt d (j * nZnT + kl)%Z * W kl)) ->
  (forall j kl, (j = jF \/ j = jF - 1)%Z -> (0 <= kl < nZnT)%Z ->
    0 < sgn * x_gsqrt d (j * nZnT + kl)%Z /\ lo <= 2 * (x_total_pressure d (j * nZnT + kl)%Z - x_presH d j) <= hi) ->
  lo <= o_bdotb s ns d jF <= hi.
Proof.
  intros HV H. rewrite bdotb_eq.
  assert (EV : x_dVdsH d jF + x_dVdsH d (jF - 1)%Z = zsum 0 nZnT (fun kl => sgn * (x_gsqrt d (jF * nZnT + kl)%Z + x_gsqrt d ((jF - 1) * nZnT + kl)%Z) * W kl)).
  { rewrite (HV jF), (HV (jF - 1)%Z) by auto. rewrite <- !zsum_scale, <- zsum_plus. apply zsum_ext. intros. ring. }
  pose proof c0_pos as C.
  assert (K : forall z, c0 * zsum 0 nZnT (fun kl => z / 2 * (sgn * (x_gsqrt d (jF * nZnT + kl)%Z + x_gsqrt d ((jF - 1) * nZnT + kl)%Z) * W kl)) = z).
  { intros z. rewrite zsum_scale, <- EV. unfold c0. field. lra. }
  split; [rewrite <- (K lo)|rewrite <- (K hi)]; (apply Rmult_le_compat_l; [lra|]); apply zsum_le; intros kl Hkl;
    destruct (H jF kl (or_introl eq_refl) Hkl) as (A1 & A2); destruct (H (jF - 1)%Z kl (or_intror eq_refl) Hkl) as (B1 & B2);
    pose proof (W_pos s OK kl) as WP; cbv beta in WP; rewrite <- Rmult_assoc; (apply Rmult_le_compat_r; [lra|]); unfold sqgb2, outside, inside; cbv zeta; nra.
Qed.
End J.
