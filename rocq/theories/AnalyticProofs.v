(** Continuity at the edge and normalisation of the analytic profiles. *)
From Coq Require Import ZArith List Bool Reals Lra Lia.
From Coquelicot Require Import Coquelicot.
From Verif Require Import Base BaseLemmas SumLemmas ProfileModel ProfileSpec PolyProofs CubicProofs.
Import ListNotations.
Open Scope R_scope.

Definition rel (f : R -> outcome) : R -> R -> Prop := fun x v => f x = Val v.

Lemma val_inj a b : Val a = Val b -> a = b.
Proof. intros H. injection H. auto. Qed.

(** near 1, from the left, and at 1 *)
Lemma edge_of_continuous (f : R -> outcome) (g : R -> R) d0 : 0 < d0 ->
  (forall x, 1 - d0 < x <= 1 -> f x = Val (g x)) -> continuity_pt g 1 -> edge_continuous (rel f).
Proof.
  intros Hd Hf Hc. exists (g 1). unfold rel. split; [apply Hf; lra|]. split.
  { intros v Hv. rewrite Hf in Hv by lra. apply val_inj in Hv. auto. }
  intros eps He. destruct (Hc eps He) as (d & D0 & D). exists (Rmin d d0).
  split; [apply Rmin_pos; lra|]. intros x Hx.
  assert (1 - d < x /\ 1 - d0 < x) by (pose proof (Rmin_l d d0); pose proof (Rmin_r d d0); lra).
  exists (g x). split; [apply Hf; lra|]. apply (D x). split.
  - split; [exact I|lra].
  - unfold dist; simpl; unfold R_dist. rewrite Rabs_left by lra. lra.
Qed.

Lemma cont_const (a : R) x : continuity_pt (fun _ => a) x.
Proof. apply continuity_pt_const. intros ? ?. reflexivity. Qed.
Lemma cont_id x : continuity_pt (fun y => y) x.
Proof. apply derivable_continuous_pt, derivable_pt_id. Qed.
Lemma cont_ext (f g : R -> R) x : (forall y, f y = g y) -> continuity_pt g x -> continuity_pt f x.
Proof. intros E. apply continuity_pt_ext. intros y. symmetry. apply E. Qed.

(** ** Polynomials *)
Lemma power_series_edge c b : edge_continuous (rel (fun x => Val (evalPowerSeries c x b))).
Proof.
  apply (edge_of_continuous _ (fun x => evalPowerSeries c x b) 1); [lra|reflexivity|].
  destruct b.
  - eapply derivable_continuity, power_series_antiderivative.
  - apply (cont_ext _ (polynomial c)); [intros; apply power_series_eval|].
    destruct (polynomial_derivable c 1) as (l & H). eapply derivable_continuity, H.
Qed.
Lemma power_series_i_edge c : edge_continuous (rel (fun x => Val (evalPowerSeriesI c x))).
Proof.
  apply (edge_of_continuous _ (fun x => x * polynomial c x) 1); [lra|intros; rewrite power_series_i_eval; reflexivity|].
  apply continuity_pt_mult; [apply cont_id|].
  destruct (polynomial_derivable c 1) as (l & H). eapply derivable_continuity, H.
Qed.
Lemma nice_quadratic_edge c : edge_continuous (rel (fun x => Val (evalNiceQuadratic c x))).
Proof.
  apply (edge_of_continuous _ (fun x => evalNiceQuadratic c x) 1); [lra|reflexivity|].
  unfold evalNiceQuadratic. reg.
Qed.

Lemma horner_continuous (a : Z -> R) l s x :
  continuity_pt (fun y => fold_left (fun t i => y * t + a i) l (s y)) x
  \/ ~ continuity_pt s x.
Proof.
  destruct (Classical_Prop.classic (continuity_pt s x)) as [H|H]; [left|right; exact H].
  revert s H. induction l as [|i l IH]; intros s H; simpl; [exact H|].
  apply (IH (fun y => y * s y + a i)). apply continuity_pt_plus; [|apply cont_const].
  apply continuity_pt_mult; [apply cont_id|exact H].
Qed.
Lemma for_down_horner_continuous (a : Z -> R) hi lo x :
  continuity_pt (fun y => for_down hi lo (fun i t => y * t + a i) 0) x.
Proof.
  unfold for_down.
  match goal with |- continuity_pt (fun y => fold_left _ ?l _) _ => destruct (horner_continuous a l (fun _ => 0) x) as [H|H] end.
  - exact H.
  - destruct (H (cont_const 0 x)).
Qed.

(** the denominator of the rational profile *)
Definition rational_denominator (c : list R) (x : R) : R :=
  for_down (vlen c - 1) 10 (fun i a => x * a + coef c i) 0.

Lemma rational_edge dm c : rational_denominator c 1 <> 0 -> edge_continuous (rel (fun x => Val (evalRational dm c x))).
Proof.
  intros H1. unfold rational_denominator in H1.
  assert (CD : continuity_pt (fun x => for_down (vlen c - 1) 10 (fun i a => x * a + coef c i) 0) 1)
    by apply for_down_horner_continuous.
  destruct (continuous_neq_0 _ _ CD H1) as (e & E).
  apply (edge_of_continuous _ (fun x => for_down 9 0 (fun i a => x * a + coef c i) 0
     / for_down (vlen c - 1) 10 (fun i a => x * a + coef c i) 0) e); [apply cond_pos| |].
  - intros x Hx. unfold evalRational. destruct (Req_EM_T _ 0) as [Z|Z]; [exfalso|reflexivity].
    apply (E (x - 1)).
    + rewrite Rabs_left1 by lra. lra.
    + replace (1 + (x - 1)) with x by lra. exact Z.
  - apply continuity_pt_div; [apply for_down_horner_continuous|exact CD|exact H1].
Qed.

(** ** Gaussian *)
Lemma exp_neg_sq_lt q : q <> 0 -> exp (- q ^ 2) < 1.
Proof. intros H. rewrite <- exp_0. apply exp_increasing. assert (0 < q ^ 2) by (apply pow2_gt_0; exact H). lra. Qed.

Definition gauss (a0 a1 x : R) : R := a0 / (1 - exp (- (1 / a1) ^ 2)) * (exp (- (x / a1) ^ 2) - exp (- (1 / a1) ^ 2)).

Lemma gauss_eval c x : (2 <= vlen c)%Z -> vat c 1 <> 0 ->
  evalGaussTrunc c x false = Val (gauss (vat c 0) (vat c 1) x).
Proof.
  intros Hl H1. unfold evalGaussTrunc. destruct (Z.ltb_spec (vlen c) 2); [lia|]. cbv zeta.
  unfold odiv at 1. destruct (Req_EM_T (vat c 1) 0); [contradiction|]. cbn [obind negb].
  unfold odiv. destruct (Req_EM_T (1 - _) 0) as [Z|Z].
  - pose proof (exp_neg_sq_lt (1 / vat c 1)). exfalso.
    assert (1 / vat c 1 <> 0) by (unfold Rdiv; rewrite Rmult_1_l; apply Rinv_neq_0_compat; exact H1).
    apply H0 in H2. lra.
  - cbn [obind]. destruct (Req_EM_T (vat c 1) 0); [contradiction|]. reflexivity.
Qed.
Lemma gauss_short c x b : (vlen c < 2)%Z -> evalGaussTrunc c x b = Val 0.
Proof. intros H. unfold evalGaussTrunc. rewrite (proj2 (Z.ltb_lt _ _) H). reflexivity. Qed.

Lemma gauss_edge c : (2 <= vlen c)%Z -> vat c 1 <> 0 -> edge_continuous (rel (fun x => evalGaussTrunc c x false)).
Proof.
  intros Hl H1. apply (edge_of_continuous _ (gauss (vat c 0) (vat c 1)) 1); [lra|intros; apply gauss_eval; assumption|].
  unfold gauss. apply continuity_pt_mult; [apply cont_const|]. apply continuity_pt_minus; [|apply cont_const].
  apply (continuity_pt_comp (fun x => - (x / vat c 1) ^ 2) exp).
  - unfold Rdiv. reg.
  - apply derivable_continuous_pt, derivable_pt_exp.
Qed.

Lemma div_sq_mono a x y : a <> 0 -> 0 <= x <= y -> (x / a) ^ 2 <= (y / a) ^ 2.
Proof.
  intros Ha H. unfold Rdiv. rewrite !Rpow_mult_distr. apply Rmult_le_compat_r; [apply pow2_ge_0|].
  apply pow_incr. lra.
Qed.

Lemma exp_le a b : a <= b -> exp a <= exp b.
Proof. intros [H|H]; [left; apply exp_increasing; exact H|right; subst; reflexivity]. Qed.

Lemma gauss_peaked c : (2 <= vlen c)%Z -> vat c 1 <> 0 -> 0 <= vat c 0 ->
  peaked (rel (fun x => evalGaussTrunc c x false)) (vat c 0).
Proof.
  intros Hl H1 H0. set (a := vat c 1) in *. set (a0 := vat c 0) in *.
  assert (E1 : exp (- (1 / a) ^ 2) < 1).
  { apply exp_neg_sq_lt. unfold Rdiv. rewrite Rmult_1_l. apply Rinv_neq_0_compat. exact H1. }
  assert (G0 : gauss a0 a 0 = a0).
  { unfold gauss. replace (0 / a) with 0 by (unfold Rdiv; ring). replace (- 0 ^ 2) with 0 by ring. rewrite exp_0. field. lra. }
  assert (G1 : gauss a0 a 1 = 0) by (unfold gauss; ring).
  assert (M : forall x y, 0 <= x <= y -> gauss a0 a y <= gauss a0 a x).
  { intros x y H. unfold gauss. apply Rmult_le_compat_l.
    - apply Rmult_le_pos; [exact H0|]. left. apply Rinv_0_lt_compat. lra.
    - pose proof (exp_le _ _ (Ropp_le_contravar _ _ (div_sq_mono a x y H1 H))). lra. }
  unfold rel. split; [rewrite gauss_eval by assumption; fold a a0; rewrite G0; reflexivity|].
  split; [rewrite gauss_eval by assumption; fold a a0; rewrite G1; reflexivity|].
  intros x y Hxy Hy. exists (gauss a0 a x), (gauss a0 a y).
  split; [apply gauss_eval; assumption|]. split; [apply gauss_eval; assumption|].
  pose proof (M x y Hxy). pose proof (M y 1 ltac:(lra)). pose proof (M 0 x ltac:(lra)). lra.
Qed.

(** ** std::pow *)
Lemma std_pow_pos x y : 0 < x -> std_pow x y = Val (Rpower x y).
Proof. intros H. unfold std_pow. destruct (total_order_T 0 x) as [[L|E]|G]; [reflexivity|lra|lra]. Qed.
Lemma std_pow_zero y : 0 < y -> std_pow 0 y = Val 0.
Proof.
  intros H. unfold std_pow. destruct (total_order_T 0 0) as [[L|E]|G]; [lra| |lra].
  destruct (total_order_T 0 y) as [[L|E2]|G]; [reflexivity|lra|lra].
Qed.
Lemma Rpower_1_l y : Rpower 1 y = 1.
Proof. unfold Rpower. rewrite ln_1, Rmult_0_r. apply exp_0. Qed.

(** the nonnegative power with a positive exponent *)
Definition ppow (x y : R) : R := if Rlt_dec 0 x then Rpower x y else 0.
Lemma std_ppow x y : 0 <= x -> 0 < y -> std_pow x y = Val (ppow x y).
Proof.
  intros Hx Hy. unfold ppow. destruct (Rlt_dec 0 x) as [L|L]; [apply std_pow_pos; exact L|].
  replace x with 0 by lra. apply std_pow_zero. exact Hy.
Qed.
Lemma Rpower_pos x y : 0 < Rpower x y.
Proof. apply exp_pos. Qed.
Lemma ppow_mono x1 x2 y : 0 < y -> 0 <= x1 <= x2 -> ppow x1 y <= ppow x2 y.
Proof.
  intros Hy H. unfold ppow. destruct (Rlt_dec 0 x1), (Rlt_dec 0 x2); try lra.
  - apply Rle_Rpower_l; lra.
  - left. apply Rpower_pos.
Qed.
Lemma ppow_0 y : ppow 0 y = 0.
Proof. unfold ppow. destruct (Rlt_dec 0 0); lra. Qed.
Lemma ppow_1 y : ppow 1 y = 1.
Proof. unfold ppow. destruct (Rlt_dec 0 1); [apply Rpower_1_l|lra]. Qed.
Lemma ppow_bounds x y : 0 < y -> 0 <= x <= 1 -> 0 <= ppow x y <= 1.
Proof. intros Hy H. pose proof (ppow_mono 0 x y Hy ltac:(lra)). pose proof (ppow_mono x 1 y Hy ltac:(lra)). rewrite ppow_0 in *. rewrite ppow_1 in *. lra. Qed.

Lemma Rpower_continuous x y : 0 < x -> continuity_pt (fun t => Rpower t y) x.
Proof.
  intros H. unfold Rpower.
  apply (continuity_pt_comp (fun t => y * ln t) exp).
  - apply continuity_pt_mult; [apply cont_const|].
    apply derivable_continuous_pt. eexists. apply derivable_pt_lim_ln. exact H.
  - apply derivable_continuous_pt, derivable_pt_exp.
Qed.
Lemma ppow_continuous_pos x y : 0 < x -> continuity_pt (fun t => ppow t y) x.
Proof.
  intros H. apply (continuity_pt_locally_ext (fun t => Rpower t y) _ x x); [exact H| |apply Rpower_continuous; exact H].
  intros t Ht. unfold R_dist in Ht. apply Rabs_def2 in Ht. unfold ppow. destruct (Rlt_dec 0 t); [reflexivity|lra].
Qed.
(** small bases *)
Lemma ppow_small y eps : 0 < y -> 0 < eps -> exists d, 0 < d /\ forall t, 0 <= t < d -> ppow t y < eps.
Proof.
  intros Hy He. exists (Rpower eps (/ y)). split; [apply Rpower_pos|]. intros t Ht. unfold ppow.
  destruct (Rlt_dec 0 t) as [L|L]; [|exact He].
  replace eps with (Rpower (Rpower eps (/ y)) y) at 1.
  - apply Rlt_Rpower_l; lra.
  - rewrite Rpower_mult, Rinv_l, Rpower_1 by lra. reflexivity.
Qed.
Lemma ppow_continuous_0 y : 0 < y -> continuity_pt (fun t => ppow t y) 0.
Proof.
  intros Hy eps He. destruct (ppow_small y eps Hy He) as (d & D0 & D). exists d. split; [exact D0|].
  intros t (_ & Ht). simpl in *. unfold R_dist in *. rewrite ppow_0, Rminus_0_r. rewrite Rminus_0_r in Ht. apply Rabs_def2 in Ht.
  destruct (Rlt_dec t 0) as [N|N].
  - unfold ppow. destruct (Rlt_dec 0 t); [lra|]. rewrite Rabs_R0. exact He.
  - pose proof (D t ltac:(lra)). pose proof (ppow_mono 0 t y Hy ltac:(lra)). rewrite ppow_0 in *. rewrite Rabs_right by lra. assumption.
Qed.

(** ** two_power *)
Lemma two_power_eval c0 c1 c2 x : 0 < c1 -> 0 < c2 -> 0 <= x <= 1 ->
  two_power_raw c0 c1 c2 x = Val (c0 * ppow (1 - ppow x c1) c2).
Proof.
  intros H1 H2 Hx. unfold two_power_raw. rewrite std_ppow by lra. cbn [obind].
  pose proof (ppow_bounds x c1 H1 Hx). rewrite std_ppow by lra. reflexivity.
Qed.
Lemma two_power_unfold c x : (3 <= vlen c)%Z -> evalTwoPower c x false = two_power_raw (vat c 0) (vat c 1) (vat c 2) x.
Proof. intros H. unfold evalTwoPower. destruct (Z.ltb_spec (vlen c) 3); [lia|]. reflexivity. Qed.

Lemma ppow_continuous x y : 0 < y -> 0 <= x -> continuity_pt (fun t => ppow t y) x.
Proof. intros Hy [H|<-]; [apply ppow_continuous_pos; exact H|apply ppow_continuous_0; exact Hy]. Qed.

Lemma two_power_continuous c0 c1 c2 x : 0 < c1 -> 0 < c2 -> 0 <= x <= 1 ->
  continuity_pt (fun x => c0 * ppow (1 - ppow x c1) c2) x.
Proof.
  intros H1 H2 Hx. apply continuity_pt_mult; [apply cont_const|].
  pose proof (ppow_bounds x c1 H1 Hx).
  apply (continuity_pt_comp (fun x => 1 - ppow x c1) (fun t => ppow t c2)).
  - apply continuity_pt_minus; [apply cont_const|apply ppow_continuous; lra].
  - apply ppow_continuous; lra.
Qed.

Lemma two_power_edge c : (3 <= vlen c)%Z -> 0 < vat c 1 -> 0 < vat c 2 -> edge_continuous (rel (fun x => evalTwoPower c x false)).
Proof.
  intros Hl H1 H2.
  apply (edge_of_continuous _ (fun x => vat c 0 * ppow (1 - ppow x (vat c 1)) (vat c 2)) 1); [lra| |].
  - intros x Hx. rewrite two_power_unfold by exact Hl. apply two_power_eval; lra.
  - apply two_power_continuous; lra.
Qed.

Lemma two_power_peaked c : (3 <= vlen c)%Z -> 0 < vat c 1 -> 0 < vat c 2 -> 0 <= vat c 0 ->
  peaked (rel (fun x => evalTwoPower c x false)) (vat c 0).
Proof.
  intros Hl H1 H2 H0. set (c0 := vat c 0) in *. set (c1 := vat c 1) in *. set (c2 := vat c 2) in *.
  set (f := fun x => c0 * ppow (1 - ppow x c1) c2).
  assert (E : forall x, 0 <= x <= 1 -> evalTwoPower c x false = Val (f x)).
  { intros x Hx. rewrite two_power_unfold by exact Hl. apply two_power_eval; assumption. }
  assert (F0 : f 0 = c0) by (unfold f; rewrite ppow_0, Rminus_0_r, ppow_1; ring).
  assert (F1 : f 1 = 0) by (unfold f; rewrite ppow_1, Rminus_eq_0, ppow_0; ring).
  assert (M : forall x y, 0 <= x <= y -> y <= 1 -> f y <= f x).
  { intros x y H Hy. unfold f. apply Rmult_le_compat_l; [exact H0|]. apply ppow_mono; [exact H2|].
    pose proof (ppow_mono x y c1 H1 H). pose proof (ppow_bounds y c1 H1 ltac:(lra)). lra. }
  unfold rel. split; [rewrite E by lra; rewrite F0; reflexivity|]. split; [rewrite E by lra; rewrite F1; reflexivity|].
  intros x y Hxy Hy. exists (f x), (f y). split; [apply E; lra|]. split; [apply E; lra|].
  pose proof (M x y Hxy Hy). pose proof (M y 1 ltac:(lra) ltac:(lra)). pose proof (M 0 x ltac:(lra) ltac:(lra)). lra.
Qed.

(** ** two_lorentz *)
Definition lor (a b d z : R) : R := / Rpower (1 + ppow (z / (a * a)) b) d.
Lemma lorentz_eval a b d z : a <> 0 -> 0 < b -> 0 <= z -> lorentz a b d z = Val (lor a b d z).
Proof.
  intros Ha Hb Hz. unfold lorentz, odiv at 1. assert (A : 0 < a * a) by (apply Rlt_0_sqr; exact Ha).
  destruct (Req_EM_T (a * a) 0); [lra|]. cbn [obind].
  assert (Hq : 0 <= z / (a * a)) by (apply Rmult_le_pos; [exact Hz|left; apply Rinv_0_lt_compat; exact A]).
  rewrite std_ppow by assumption. cbn [obind].
  pose proof (ppow_mono 0 (z / (a * a)) b Hb ltac:(lra)) as P. rewrite ppow_0 in P.
  rewrite std_pow_pos by lra. cbn [obind]. unfold odiv. destruct (Req_EM_T _ 0) as [Z|Z].
  - pose proof (Rpower_pos (1 + ppow (z / (a * a)) b) d). lra.
  - unfold lor. f_equal. field. exact Z.
Qed.
Lemma lor_0 a b d : lor a b d 0 = 1.
Proof. unfold lor. replace (0 / (a * a)) with 0 by (unfold Rdiv; ring). rewrite ppow_0, Rplus_0_r, Rpower_1_l. apply Rinv_1. Qed.
Lemma lor_arg a b z : a <> 0 -> 0 < b -> 0 <= z -> 0 <= ppow (z / (a * a)) b.
Proof.
  intros Ha Hb Hz. assert (A : 0 < a * a) by (apply Rlt_0_sqr; exact Ha).
  pose proof (ppow_mono 0 (z / (a * a)) b Hb) as P. rewrite ppow_0 in P. apply P.
  split; [lra|]. apply Rmult_le_pos; [exact Hz|left; apply Rinv_0_lt_compat; exact A].
Qed.
Lemma lor_mono a b d x y : a <> 0 -> 0 < b -> 0 < d -> 0 <= x <= y -> lor a b d y <= lor a b d x.
Proof.
  intros Ha Hb Hd H. unfold lor. apply Rinv_le_contravar; [apply Rpower_pos|].
  pose proof (lor_arg a b x Ha Hb ltac:(lra)). apply Rle_Rpower_l; [lra|]. split; [lra|].
  apply Rplus_le_compat_l. apply ppow_mono; [exact Hb|].
  assert (A : 0 < a * a) by (apply Rlt_0_sqr; exact Ha).
  split; [apply Rmult_le_pos; [lra|left; apply Rinv_0_lt_compat; exact A]|].
  apply Rmult_le_compat_r; [left; apply Rinv_0_lt_compat; exact A|lra].
Qed.
Lemma lor_1_lt a b d : a <> 0 -> 0 < b -> 0 < d -> lor a b d 1 < 1.
Proof.
  intros Ha Hb Hd. unfold lor.
  assert (A : 0 < a * a) by (apply Rlt_0_sqr; exact Ha).
  assert (0 < 1 / (a * a)) by (apply Rdiv_lt_0_compat; lra).
  assert (0 < ppow (1 / (a * a)) b) by (unfold ppow; destruct (Rlt_dec 0 _); [apply Rpower_pos|contradiction]).
  assert (L : 1 < Rpower (1 + ppow (1 / (a * a)) b) d).
  { assert (Q : Rpower 1 d < Rpower (1 + ppow (1 / (a * a)) b) d) by (apply Rlt_Rpower_l; lra). rewrite Rpower_1_l in Q. exact Q. }
  assert (Q := Rinv_lt_contravar 1 _ ltac:(rewrite Rmult_1_l; apply Rpower_pos) L). rewrite Rinv_1 in Q. exact Q.
Qed.
Lemma lor_continuous a b d x : a <> 0 -> 0 < b -> 0 <= x -> continuity_pt (lor a b d) x.
Proof.
  intros Ha Hb Hx. unfold lor. assert (A : 0 < a * a) by (apply Rlt_0_sqr; exact Ha).
  pose proof (lor_arg a b x Ha Hb Hx).
  apply continuity_pt_inv; [|apply Rgt_not_eq, Rpower_pos].
  apply (continuity_pt_comp (fun z => 1 + ppow (z / (a * a)) b) (fun t => Rpower t d)).
  - apply continuity_pt_plus; [apply cont_const|].
    apply (continuity_pt_comp (fun z => z / (a * a)) (fun t => ppow t b)).
    + unfold Rdiv. apply continuity_pt_mult; [apply cont_id|apply cont_const].
    + apply ppow_continuous; [exact Hb|]. apply Rmult_le_pos; [exact Hx|left; apply Rinv_0_lt_compat; exact A].
  - apply Rpower_continuous. lra.
Qed.

Definition lpart (amp a b d x : R) : R := amp * (lor a b d x - lor a b d 1) / (1 - lor a b d 1).
Lemma lpart_eval amp a b d x : a <> 0 -> 0 < b -> 0 < d -> 0 <= x ->
  lorentz_part amp a b d x = Val (lpart amp a b d x).
Proof.
  intros Ha Hb Hd Hx. unfold lorentz_part. rewrite !lorentz_eval by (assumption || lra). cbn [obind].
  pose proof (lor_1_lt a b d Ha Hb Hd). unfold odiv. destruct (Req_EM_T (1 - lor a b d 1) 0); [lra|]. reflexivity.
Qed.

(** admissible coefficients of two_lorentz *)
Definition lorentz_ok (c : list R) : Prop :=
  (8 <= vlen c)%Z /\ vat c 2 <> 0 /\ 0 < vat c 3 /\ 0 < vat c 4 /\ vat c 5 <> 0 /\ 0 < vat c 6 /\ 0 < vat c 7.
Definition lorentzian (c : list R) (x : R) : R :=
  vat c 0 * (lpart (vat c 1) (vat c 2) (vat c 3) (vat c 4) x + lpart (1 - vat c 1) (vat c 5) (vat c 6) (vat c 7) x).
Lemma two_lorentz_eval c x : lorentz_ok c -> 0 <= x -> evalTwoLorentz c x = Val (lorentzian c x).
Proof.
  intros (Hl & H2 & H3 & H4 & H5 & H6 & H7) Hx. unfold evalTwoLorentz. destruct (Z.ltb_spec (vlen c) 8); [lia|].
  rewrite !lpart_eval by assumption. reflexivity.
Qed.
Lemma two_lorentz_edge c : lorentz_ok c -> edge_continuous (rel (evalTwoLorentz c)).
Proof.
  intros H. apply (edge_of_continuous _ (lorentzian c) 1); [lra|intros; apply two_lorentz_eval; [exact H|lra]|].
  destruct H as (Hl & H2 & H3 & H4 & H5 & H6 & H7). unfold lorentzian, lpart, Rdiv.
  repeat (apply continuity_pt_mult || apply continuity_pt_plus || apply continuity_pt_minus || apply cont_const).
  all: apply lor_continuous; assumption || lra.
Qed.
Lemma two_lorentz_peaked c : lorentz_ok c -> 0 <= vat c 0 -> 0 <= vat c 1 <= 1 -> peaked (rel (evalTwoLorentz c)) (vat c 0).
Proof.
  intros H H0 HA. assert (E := two_lorentz_eval c). destruct H as (Hl & H2 & H3 & H4 & H5 & H6 & H7).
  pose proof (lor_1_lt (vat c 2) (vat c 3) (vat c 4) H2 H3 H4). pose proof (lor_1_lt (vat c 5) (vat c 6) (vat c 7) H5 H6 H7).
  assert (F0 : lorentzian c 0 = vat c 0) by (unfold lorentzian, lpart; rewrite !lor_0; field; lra).
  assert (F1 : lorentzian c 1 = 0) by (unfold lorentzian, lpart; field; lra).
  assert (M : forall x y, 0 <= x <= y -> lorentzian c y <= lorentzian c x).
  { intros x y Hxy. unfold lorentzian. apply Rmult_le_compat_l; [exact H0|]. unfold lpart.
    apply Rplus_le_compat; unfold Rdiv; apply Rmult_le_compat_r.
    1,3: left; apply Rinv_0_lt_compat; lra.
    - apply Rmult_le_compat_l; [lra|]. pose proof (lor_mono (vat c 2) (vat c 3) (vat c 4) x y H2 H3 H4 Hxy). lra.
    - apply Rmult_le_compat_l; [lra|]. pose proof (lor_mono (vat c 5) (vat c 6) (vat c 7) x y H5 H6 H7 Hxy). lra. }
  assert (OK : lorentz_ok c) by (repeat split; assumption).
  unfold rel. split; [rewrite E by (assumption || lra); rewrite F0; reflexivity|].
  split; [rewrite E by (assumption || lra); rewrite F1; reflexivity|].
  intros x y Hxy Hy. exists (lorentzian c x), (lorentzian c y). split; [apply E; assumption || lra|]. split; [apply E; assumption || lra|].
  pose proof (M x y Hxy). pose proof (M y 1 ltac:(lra)). pose proof (M 0 x ltac:(lra)). lra.
Qed.

(** ** two_power_gs *)
Definition gs_ok (c : list R) : Prop :=
  forall k, (0 <= k < 6)%Z -> coef c (3 + 3 * k) <> 0 -> coef c (3 + 3 * k + 2) <> 0.
Definition gs_term (c : list R) (k : Z) (s : R) : R :=
  if Req_EM_T (coef c (3 + 3 * k)) 0 then 0
  else coef c (3 + 3 * k) * exp (- ((s - coef c (3 + 3 * k + 1)) / coef c (3 + 3 * k + 2)) ^ 2).
Definition gs_fun (c : list R) (s : R) : R := 1 + zsum 0 6 (fun k => gs_term c k s).

Lemma gs_eval c s : gs_ok c -> gs_factor c s = Val (gs_fun c s).
Proof.
  intros Ok. unfold gs_factor, gs_fun.
  enough (G : forall n, (0 <= n <= 6)%Z -> for_up 0 n (fun k o =>
      obind o (fun g =>
        if Req_EM_T (coef c (3 + 3 * k)) 0 then Val g
        else obind (odiv (s - coef c (3 + 3 * k + 1)) (coef c (3 + 3 * k + 2))) (fun y =>
               Val (g + coef c (3 + 3 * k) * exp (- y ^ 2))))) (Val 1) = Val (1 + zsum 0 n (fun k => gs_term c k s))).
  { apply G. lia. }
  intros n [Hn Hn6]. revert Hn6. pattern n. revert n Hn. apply natlike_ind.
  - intros _. rewrite for_up_empty, zsum_empty by lia. f_equal. ring.
  - intros n Hn IH H. unfold Z.succ. rewrite for_up_snoc, zsum_snoc by lia. rewrite IH by lia. cbv zeta. cbn [obind].
    assert (GT : gs_term c n s = if Req_EM_T (coef c (3 + 3 * n)) 0 then 0
      else coef c (3 + 3 * n) * exp (- ((s - coef c (3 + 3 * n + 1)) / coef c (3 + 3 * n + 2)) ^ 2)) by reflexivity.
    rewrite GT. clear GT. destruct (Req_EM_T (coef c (3 + 3 * n)) 0) as [Z|Z]; [f_equal; ring|].
    unfold odiv. destruct (Req_EM_T (coef c (3 + 3 * n + 2)) 0) as [Z2|Z2]; [destruct (Ok n ltac:(lia) Z Z2)|].
    cbn [obind]. f_equal. ring.
Qed.
Lemma zsum_continuous lo hi (f : Z -> R -> R) x : (forall k, continuity_pt (f k) x) ->
  continuity_pt (fun s => zsum lo hi (fun k => f k s)) x.
Proof.
  intros H. unfold zsum. induction (zrange lo hi) as [|i l IH]; simpl.
  - apply cont_const.
  - apply (continuity_pt_plus (f i)); [apply H|exact IH].
Qed.
Lemma gs_continuous c x : continuity_pt (gs_fun c) x.
Proof.
  unfold gs_fun. apply continuity_pt_plus; [apply cont_const|]. apply zsum_continuous. intros k. unfold gs_term.
  destruct (Req_EM_T _ 0); [apply cont_const|]. apply continuity_pt_mult; [apply cont_const|].
  apply (continuity_pt_comp (fun s => - ((s - coef c (3 + 3 * k + 1)) / coef c (3 + 3 * k + 2)) ^ 2) exp).
  - unfold Rdiv. reg.
  - apply derivable_continuous_pt, derivable_pt_exp.
Qed.
Lemma coef_vat c i : (0 <= i < vlen c)%Z -> coef c i = vat c i.
Proof. intros H. unfold coef. rewrite (proj2 (Z.leb_le 0 i)), (proj2 (Z.ltb_lt i (vlen c))) by lia. reflexivity. Qed.

Lemma two_power_gs_edge c : (3 <= vlen c)%Z -> 0 < vat c 1 -> 0 < vat c 2 -> gs_ok c ->
  edge_continuous (rel (fun x => evalTwoPowerGs c x false)).
Proof.
  intros Hl H1 H2 Ok.
  apply (edge_of_continuous _ (fun x => vat c 0 * ppow (1 - ppow x (vat c 1)) (vat c 2) * gs_fun c x) 1); [lra| |].
  - intros x Hx. unfold evalTwoPowerGs. destruct (Z.ltb_spec (vlen c) 3); [lia|]. cbn [negb].
    rewrite !coef_vat by lia. rewrite two_power_eval by lra. cbn [obind]. rewrite gs_eval by exact Ok. reflexivity.
  - apply continuity_pt_mult; [apply two_power_continuous; lra|apply gs_continuous].
Qed.

(** ** pedestal *)
Lemma tanh_inj a b : tanh a = tanh b -> a = b.
Proof.
  assert (T : forall z, tanh z = 1 - 2 / (exp (2 * z) + 1)).
  { intros z. unfold tanh, sinh, cosh. replace (2 * z) with (z + z) by ring. rewrite exp_plus, exp_Ropp.
    pose proof (exp_pos z). field. split; nra. }
  intros H. rewrite !T in H. pose proof (exp_pos (2 * a)). pose proof (exp_pos (2 * b)).
  assert (E : exp (2 * a) = exp (2 * b)).
  { assert (2 / (exp (2 * a) + 1) = 2 / (exp (2 * b) + 1)) as Q by lra.
    apply (f_equal (fun q => 2 / q)) in Q. replace (2 / (2 / (exp (2 * a) + 1))) with (exp (2 * a) + 1) in Q by (field; lra).
    replace (2 / (2 / (exp (2 * b) + 1))) with (exp (2 * b) + 1) in Q by (field; lra). lra. }
  apply exp_inv in E. lra.
Qed.
Lemma tanh_continuous x : continuity_pt tanh x.
Proof. apply derivable_continuous_pt. unfold tanh. apply derivable_pt_div; [apply derivable_pt_sinh|apply derivable_pt_cosh|]. unfold cosh. pose proof (exp_pos x). pose proof (exp_pos (- x)). lra. Qed.

Lemma pedestal_norm p w : 0 < w -> tanh (2 * p / w) - tanh (2 * (p - 1) / w) <> 0.
Proof.
  intros Hw H. assert (E : tanh (2 * p / w) = tanh (2 * (p - 1) / w)) by lra. apply tanh_inj in E.
  assert (2 * p / w * w = 2 * (p - 1) / w * w) as Q by (rewrite E; reflexivity).
  replace (2 * p / w * w) with (2 * p) in Q by (field; lra). replace (2 * (p - 1) / w * w) with (2 * (p - 1)) in Q by (field; lra). lra.
Qed.

Lemma sqrt_cont_1 : continuity_pt sqrt 1.
Proof. apply continuity_pt_sqrt. lra. Qed.

Lemma pedestal_edge c : edge_continuous (rel (fun x => evalPedestal c x false)).
Proof.
  set (w := if rleb (coef c 19) 0 then 10 ^ 30 else coef c 19).
  set (nm := if rleb (coef c 19) 0 then 0 else 1 / (tanh (2 * coef c 18 / w) - tanh (2 * (coef c 18 - 1) / w))).
  apply (edge_of_continuous _ (fun x => for_down 15 0 (fun i a => x * a + coef c i) 0 + nm * coef c 17 *
           (tanh (2 * (coef c 18 - sqrt x) / w) - tanh (2 * (coef c 18 - 1) / w))) 1); [lra| |].
  - intros x _. unfold evalPedestal. cbv zeta. fold w. subst nm. destruct (rleb (coef c 19) 0) eqn:E.
    + reflexivity.
    + apply rleb_false in E. unfold odiv. destruct (Req_EM_T _ 0) as [Z|Z]; [|reflexivity].
      exfalso. revert Z. apply pedestal_norm. subst w. lra.
  - apply continuity_pt_plus; [apply for_down_horner_continuous|]. apply continuity_pt_mult; [apply cont_const|].
    apply continuity_pt_minus; [|apply cont_const].
    apply (continuity_pt_comp (fun x => 2 * (coef c 18 - sqrt x) / w) tanh); [|apply tanh_continuous].
    unfold Rdiv. apply continuity_pt_mult; [|apply cont_const]. apply continuity_pt_mult; [apply cont_const|].
    apply continuity_pt_minus; [apply cont_const|exact sqrt_cont_1].
Qed.

Lemma pedestal_int_edge c : edge_continuous (rel (fun x => evalPedestal c x true)).
Proof.
  set (w := if rleb (coef c 11) 0 then 10 ^ 30 else coef c 11).
  set (am := if rleb (coef c 11) 0 then 0 else coef c 8).
  set (nm := if rleb (coef c 11) 0 then 0 else 1 / (tanh (2 * coef c 10 / w) - tanh (2 * (coef c 10 - 1) / w))).
  set (w1 := Rmax (coef c 16) (1 / 100)). set (w2 := Rmax (coef c 20) (1 / 100)).
  apply (edge_of_continuous _ (fun x => for_down 7 0 (fun i a => x * a + coef c i / (IZR i + 1)) 0 * x +
     (nm * am * (tanh (2 * coef c 10 / w) - tanh (2 * (coef c 10 - sqrt x) / w))
      + coef c 13 * (tanh ((x - coef c 15) / w1) - tanh (- coef c 15 / w1))
      + coef c 17 * (tanh ((x - coef c 19) / w2) - tanh (- coef c 19 / w2)))) 1); [lra| |].
  - intros x _. unfold evalPedestal. cbv zeta. fold w w1 w2 am. subst nm. destruct (rleb (coef c 11) 0) eqn:E.
    + reflexivity.
    + apply rleb_false in E. unfold odiv. destruct (Req_EM_T _ 0) as [Z|Z]; [|reflexivity].
      exfalso. revert Z. apply pedestal_norm. subst w. lra.
  - apply continuity_pt_plus; [apply continuity_pt_mult; [apply for_down_horner_continuous|apply cont_id]|].
    assert (T1 : continuity_pt (fun x => tanh (2 * (coef c 10 - sqrt x) / w)) 1).
    { apply (continuity_pt_comp (fun x => 2 * (coef c 10 - sqrt x) / w) tanh); [|apply tanh_continuous].
      unfold Rdiv. apply continuity_pt_mult; [|apply cont_const]. apply continuity_pt_mult; [apply cont_const|].
      apply continuity_pt_minus; [apply cont_const|exact sqrt_cont_1]. }
    assert (T2 : forall a v, continuity_pt (fun x => tanh ((x - a) / v)) 1).
    { intros a v. apply (continuity_pt_comp (fun x => (x - a) / v) tanh); [|apply tanh_continuous]. unfold Rdiv. reg. }
    apply continuity_pt_plus; [apply continuity_pt_plus|].
    + apply continuity_pt_mult; [apply cont_const|]. apply continuity_pt_minus; [apply cont_const|exact T1].
    + apply continuity_pt_mult; [apply cont_const|]. apply continuity_pt_minus; [apply T2|apply cont_const].
    + apply continuity_pt_mult; [apply cont_const|]. apply continuity_pt_minus; [apply T2|apply cont_const].
Qed.

(** ** sum_atan jumps at the edge *)
Lemma sum_atan_inside c0 c1 c2 c3 c4 x : 0 < x < 1 ->
  evalSumAtan [c0; c1; c2; c3; c4] x = Val (c0 + c1 * atan (c2 * Rpower x c3 / Rpower (1 - x) c4)).
Proof.
  intros Hx. unfold evalSumAtan. rewrite (proj2 (rleb_false 1 x)) by lra.
  cbn -[std_pow odiv obind]. change (vlen [c0; c1; c2; c3; c4]) with 5%Z. cbn -[std_pow odiv obind].
  cbn [obind]. unfold atan_term. cbn -[std_pow odiv obind].
  change (vat [c0; c1; c2; c3; c4] 3) with c3. change (vat [c0; c1; c2; c3; c4] 5) with 0.
  rewrite !std_pow_pos by lra. cbn [obind]. unfold odiv.
  match goal with |- context [Req_EM_T ?a 0] => destruct (Req_EM_T a 0) as [Z|Z] end.
  - exfalso. pose proof (Rpower_pos (1 - x) c4). unfold vat in Z. simpl in Z. lra.
  - cbn [obind]. unfold vat. simpl. reflexivity.
Qed.
Lemma sum_atan_edge c0 c1 c2 c3 c4 x : 1 <= x -> evalSumAtan [c0; c1; c2; c3; c4] x = Val (c0 + c1).
Proof. intros H. unfold evalSumAtan. rewrite (proj2 (rleb_true 1 x)) by lra. reflexivity. Qed.

Lemma sum_atan_jump c0 c1 c2 c3 c4 : c1 <> 0 -> 0 < c2 -> 0 < c4 ->
  ~ edge_continuous (rel (evalSumAtan [c0; c1; c2; c3; c4])).
Proof.
  intros H1 H2 H4 (v1 & E1 & _ & E). unfold rel in *. rewrite sum_atan_edge in E1 by lra. apply val_inj in E1. subst v1.
  assert (P1 : 0 < Rabs c1) by (apply Rabs_pos_lt; exact H1).
  destruct (E (Rabs c1 / 4) ltac:(lra)) as (d & D0 & D).
  set (K := tan (5 / 4)).
  assert (PH : 3 / 2 < PI / 2) by (pose proof PI_4; pose proof PI2_3_2; lra).
  assert (K0 : 0 < K) by (apply tan_gt_0; lra).
  (* all y near the edge stay below K *)
  assert (B : forall x, 1 - d < x < 1 -> 0 < x -> c2 * Rpower x c3 / Rpower (1 - x) c4 < K).
  { intros x Hx Hx0. destruct (D x Hx) as (v & Ev & Hv). rewrite sum_atan_inside in Ev by lra. apply val_inj in Ev. subst v.
    set (y := c2 * Rpower x c3 / Rpower (1 - x) c4) in *.
    replace (c0 + c1 * atan y - (c0 + c1)) with (c1 * (atan y - 1)) in Hv by ring. rewrite Rabs_mult in Hv.
    assert (A : Rabs (atan y - 1) < 1 / 4).
    { apply (Rmult_lt_reg_l (Rabs c1)); [exact P1|]. lra. }
    apply Rabs_def2 in A. rewrite <- (tan_atan y). apply tan_increasing; [pose proof (atan_bound y); lra|lra|lra]. }
  (* but they are unbounded *)
  set (m := Rmin (Rpower (1 / 2) c3) 1).
  assert (M0 : 0 < m) by (apply Rmin_pos; [apply Rpower_pos|lra]).
  assert (ML : forall x, 1 / 2 <= x < 1 -> m <= Rpower x c3).
  { intros x Hx. destruct (Rle_dec 0 c3) as [P|N].
    - eapply Rle_trans; [apply Rmin_l|]. apply Rle_Rpower_l; lra.
    - eapply Rle_trans; [apply Rmin_r|]. unfold Rpower. rewrite <- exp_0. apply exp_le.
      assert (ln x < 0) by (rewrite <- ln_1; apply ln_increasing; lra). nra. }
  destruct (ppow_small c4 (c2 * m / K) H4) as (e & e0 & Ee).
  { apply Rdiv_lt_0_compat; [apply Rmult_lt_0_compat; assumption|exact K0]. }
  set (h := Rmin (Rmin d e) 1 / 2).
  assert (Hh : 0 < h /\ h < d /\ h < e /\ h <= 1 / 2).
  { unfold h. pose proof (Rmin_pos d e D0 e0). pose proof (Rmin_pos (Rmin d e) 1 H ltac:(lra)).
    pose proof (Rmin_l (Rmin d e) 1). pose proof (Rmin_r (Rmin d e) 1). pose proof (Rmin_l d e). pose proof (Rmin_r d e). lra. }
  specialize (B (1 - h) ltac:(lra) ltac:(lra)). replace (1 - (1 - h)) with h in B by ring.
  specialize (Ee h ltac:(lra)). unfold ppow in Ee. destruct (Rlt_dec 0 h); [|lra].
  specialize (ML (1 - h) ltac:(lra)). pose proof (Rpower_pos h c4) as Pw.
  apply (Rmult_lt_compat_r (Rpower h c4)) in B; [|exact Pw].
  replace (c2 * Rpower (1 - h) c3 / Rpower h c4 * Rpower h c4) with (c2 * Rpower (1 - h) c3) in B by (field; lra).
  apply (Rmult_lt_compat_l K) in Ee; [|exact K0]. replace (K * (c2 * m / K)) with (c2 * m) in Ee by (field; lra). nra.
Qed.
