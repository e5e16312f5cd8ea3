(** The Hanson-Hirshman formula: Biot-Savart integral of a straight segment. *)
From Coq Require Import ZArith Reals Bool Lia Lra Psatz.
From Coquelicot Require Import Coquelicot.
From Verif Require Import Base BaseLemmas SumLemmas SizesModel SurfModel SurfSpec RegSpec ExtModel ExtSpec.
Open Scope R_scope.

Lemma vec_eq a b : vx a = vx b -> vy a = vy b -> vz a = vz b -> a = b.
Proof. destruct a, b. cbn. intros -> -> ->. reflexivity. Qed.
Lemma dot_nn a : 0 <= dot a a.
Proof. unfold dot. nra. Qed.
Lemma dot_0 a : dot a a = 0 -> a = mkVec 0 0 0.
Proof.
  intros H. unfold dot in H. pose proof (Rle_0_sqr (vx a)). pose proof (Rle_0_sqr (vy a)). pose proof (Rle_0_sqr (vz a)).
  unfold Rsqr in *. apply vec_eq; cbn [vx vy vz]; nra.
Qed.
Lemma lagrange a b : dot (cross a b) (cross a b) = dot a a * dot b b - dot a b * dot a b.
Proof. unfold dot, cross. cbn [vx vy vz]. ring. Qed.

Section S.
Variables a b x : vec.
Hypothesis OFF : off_segment a b x.
Let d := vsub b a.
Let r := vsub x a.
Let f := vsub x b.
Definition ln (v : vec) := sqrt (dot v v).
Let L := ln d.
Let ri := ln r.
Let rf := ln f.
Lemma ln_sq v : ln v * ln v = dot v v. Proof. apply sqrt_sqrt, dot_nn. Qed.
Lemma ln_nn v : 0 <= ln v. Proof. apply sqrt_pos. Qed.

Lemma rf_sq : rf * rf = ri * ri + L * L - 2 * dot d r.
Proof. unfold rf, ri, L. rewrite !ln_sq. unfold f, r, d, dot, vsub. cbn [vx vy vz]. ring. Qed.
Lemma ri_pos : 0 < ri.
Proof.
  destruct (Rle_lt_or_eq_dec _ _ (ln_nn r)) as [H|H]; [exact H|]. exfalso.
  assert (E : dot r r = 0) by (rewrite <- ln_sq, <- H; ring). apply dot_0 in E. unfold r, vsub in E. injection E. intros.
  apply (OFF 0); [lra|]. apply vec_eq; unfold vadd, scale, vsub; cbn [vx vy vz]; lra.
Qed.
Lemma rf_pos : 0 < rf.
Proof.
  destruct (Rle_lt_or_eq_dec _ _ (ln_nn f)) as [H|H]; [exact H|]. exfalso.
  assert (E : dot f f = 0) by (rewrite <- ln_sq, <- H; ring). apply dot_0 in E. unfold f, vsub in E. injection E. intros.
  apply (OFF 1); [lra|]. apply vec_eq; unfold vadd, scale, vsub; cbn [vx vy vz]; lra.
Qed.
Lemma sum_neq : (ri + rf) * (ri + rf) - L * L <> 0.
Proof.
  intros H. pose proof ri_pos. pose proof rf_pos. pose proof (ln_nn d : 0 <= L).
  assert (E : ri + rf = L) by nra.
  assert (B : dot d r = L * ri) by (pose proof rf_sq; nra).
  assert (LP : 0 < L) by lra.
  set (u := ri / L).
  assert (U : u * L = ri) by (unfold u; field; lra).
  assert (U01 : 0 <= u <= 1). { split; [unfold u; apply Rlt_le, Rdiv_lt_0_compat; lra|]. apply Rmult_le_reg_r with L; lra. }
  apply (OFF u U01).
  assert (Z : dot (vsub r (scale u d)) (vsub r (scale u d)) = 0).
  { replace (dot (vsub r (scale u d)) (vsub r (scale u d))) with (dot r r - 2 * u * dot d r + u * u * dot d d)
      by (unfold dot, vsub, scale; cbn [vx vy vz]; ring).
    rewrite B, <- !ln_sq. fold ri L. rewrite <- U. ring. }
  apply dot_0 in Z. unfold vsub, scale in Z. injection Z. intros Z3 Z2 Z1.
  unfold r in Z1, Z2, Z3. unfold d in *. unfold vsub in *. cbn [vx vy vz] in *.
  apply vec_eq; unfold vadd, scale, vsub; cbn [vx vy vz]; lra.
Qed.
Lemma denominator_ok : segment_denominator ri rf L <> 0.
Proof.
  unfold segment_denominator. cbv zeta. pose proof ri_pos. pose proof rf_pos. pose proof sum_neq.
  repeat apply Rmult_integral_contrapositive_currified; lra.
Qed.

Let rr u := vsub x (vadd a (scale u d)).
Definition Q (u : R) := dot (rr u) (rr u).
Lemma Q_poly u : Q u = L * L * u * u + - (2 * dot d r * u) + ri * ri.
Proof. unfold Q, L, ri. rewrite !ln_sq. unfold rr, r, d, dot, vsub, vadd, scale. cbn [vx vy vz]. ring. Qed.
Lemma Q_pos u : 0 <= u <= 1 -> 0 < Q u.
Proof.
  intros Hu. destruct (Rle_lt_or_eq_dec _ _ (dot_nn (rr u))) as [H|H]; [exact H|]. exfalso. symmetry in H. apply dot_0 in H.
  apply (OFF u Hu). fold d. pose proof (f_equal vx H) as H1. pose proof (f_equal vy H) as H2. pose proof (f_equal vz H) as H3.
  unfold rr in H1, H2, H3. unfold vsub in H1 at 1. unfold vsub in H2 at 1. unfold vsub in H3 at 1. cbn [vx vy vz] in H1, H2, H3.
  apply vec_eq; lra.
Qed.
Lemma cross_const u : cross d (rr u) = cross d r.
Proof. unfold rr, r. apply vec_eq; unfold cross, vsub, vadd, scale; cbn [vx vy vz]; ring. Qed.

Let D := L * L * (ri * ri) - dot d r * dot d r.
Lemma D_cross : D = dot (cross d r) (cross d r).
Proof. unfold D, L, ri. rewrite lagrange, !ln_sq. reflexivity. Qed.
Lemma D_heron : 4 * D = ((ri + rf) * (ri + rf) - L * L) * (L * L - (ri - rf) * (ri - rf)).
Proof.
  unfold D. assert (B : dot d r = (ri * ri + L * L - rf * rf) / 2) by (pose proof rf_sq; lra). rewrite B. field.
Qed.

Lemma antiderivative u : D <> 0 -> 0 <= u <= 1 ->
  is_derive (fun u => (L * L * u - dot d r) / (D * sqrt (Q u))) u (/ (sqrt (Q u)) ^ 3).
Proof.
  intros HD Hu. pose proof (Q_pos u Hu) as HQ.
  assert (SQ : 0 < sqrt (Q u)) by (apply sqrt_lt_R0; exact HQ).
  assert (SS : sqrt (Q u) * sqrt (Q u) = Q u) by (apply sqrt_sqrt; lra).
  apply is_derive_ext with (f := fun u => (L * L * u - dot d r) / (D * sqrt (L * L * u * u + - (2 * dot d r * u) + ri * ri))).
  { intros v. rewrite Q_poly. reflexivity. }
  rewrite Q_poly in SQ, SS, HQ |- *.
  auto_derive.
  - repeat split; try assumption. apply Rmult_integral_contrapositive_currified; (assumption || (apply Rgt_not_eq; exact SQ)).
  - set (q := sqrt (L * L * u * u + - (2 * dot d r * u) + ri * ri)) in *.
    assert (q <> 0) by lra. field_simplify_eq; [|repeat split; assumption].
    assert (P : forall z, q * q = z -> q ^ 2 = z) by (intros; simpl; lra).
    replace (q ^ 3) with (q * (q * q)) by ring. replace (q^2) with (q * q) by ring.
    rewrite SS. unfold D. ring.
Qed.

Lemma inv_cont u : 0 <= u <= 1 -> continuous (fun u => / (sqrt (Q u)) ^ 3) u.
Proof.
  intros Hu. pose proof (Q_pos u Hu) as HQ.
  assert (SQ : 0 < sqrt (Q u)) by (apply sqrt_lt_R0; exact HQ).
  apply (continuous_ext (fun u => / (sqrt (L * L * u * u + - (2 * dot d r * u) + ri * ri)) ^ 3)); [intros; rewrite Q_poly; reflexivity|].
  rewrite Q_poly in SQ, HQ.
  apply (ex_derive_continuous (K := R_AbsRing) (V := R_NormedModule)). auto_derive.
  repeat split; [assumption|]. apply Rgt_not_eq. repeat apply Rmult_lt_0_compat; try assumption; lra.
Qed.

Lemma inv_integral : D <> 0 -> is_RInt (fun u => / (sqrt (Q u)) ^ 3) 0 1 (2 * (ri + rf) / segment_denominator ri rf L).
Proof.
  intros HD.
  replace (2 * (ri + rf) / segment_denominator ri rf L) with
    (minus ((L * L * 1 - dot d r) / (D * sqrt (Q 1))) ((L * L * 0 - dot d r) / (D * sqrt (Q 0)))).
  - apply (is_RInt_derive (V := R_CompleteNormedModule) (fun u => (L * L * u - dot d r) / (D * sqrt (Q u)))).
    + intros u. rewrite Rmin_left, Rmax_right by lra. apply antiderivative. exact HD.
    + intros u. rewrite Rmin_left, Rmax_right by lra. apply inv_cont.
  - assert (Q0 : sqrt (Q 0) = ri). { rewrite Q_poly. replace (L * L * 0 * 0 + - (2 * dot d r * 0) + ri * ri) with (ri * ri) by ring. apply sqrt_square, ln_nn. }
    assert (Q1 : sqrt (Q 1) = rf). { rewrite Q_poly. replace (L * L * 1 * 1 + - (2 * dot d r * 1) + ri * ri) with (rf * rf) by (rewrite rf_sq; ring). apply sqrt_square, ln_nn. }
    rewrite Q0, Q1. unfold minus, plus, opp. cbn. unfold segment_denominator. cbv zeta.
    pose proof ri_pos. pose proof rf_pos. pose proof sum_neq as S1.
    assert (S2 : L * L - (ri - rf) * (ri - rf) <> 0) by (intros E; apply HD; pose proof D_heron as H1; rewrite E in H1; lra).
    assert (ED : D = ((ri + rf) * (ri + rf) - L * L) * (L * L - (ri - rf) * (ri - rf)) / 4) by (pose proof D_heron; lra).
    rewrite ED.
    assert (B : dot d r = (ri * ri + L * L - rf * rf) / 2) by (pose proof rf_sq; lra). rewrite B.
    field. repeat split; try assumption; lra.
Qed.

Lemma comp_integral (pr : vec -> R) : (pr = vx \/ pr = vy \/ pr = vz) ->
  RInt (fun u => pr (cross d (rr u)) / (sqrt (dot (rr u) (rr u))) ^ 3) 0 1 =
  2 * (ri + rf) / segment_denominator ri rf L * pr (cross d r).
Proof.
  intros Hp. apply is_RInt_unique.
  apply (is_RInt_ext (fun u => scal (pr (cross d r)) (/ (sqrt (Q u)) ^ 3))).
  { intros u _. rewrite cross_const. unfold scal. cbn. unfold mult. cbn. unfold Rdiv, Q. reflexivity. }
  destruct (Req_dec D 0) as [E|E].
  - rewrite D_cross in E. apply dot_0 in E. rewrite E.
    assert (Z : pr (mkVec 0 0 0) = 0) by (destruct Hp as [->|[->| ->]]; reflexivity). rewrite Z, Rmult_0_r.
    apply (is_RInt_ext (fun _ => 0)). { intros u _. unfold scal. cbn. unfold mult. cbn. ring. }
    pose proof (is_RInt_const (V := R_NormedModule) 0 1 (0 : R)) as K0. unfold scal in K0. cbn in K0. unfold mult in K0. cbn in K0.
    rewrite Rmult_0_r in K0. exact K0.
  - rewrite Rmult_comm. apply (is_RInt_scal (V := R_NormedModule)). apply inv_integral. exact E.
Qed.

Lemma segment_value : segment_field a b x = scale (1 / 10 ^ 7 * 2 * (ri + rf) / segment_denominator ri rf L) (cross d r).
Proof.
  pose proof denominator_ok as DN. pose proof PI_neq0.
  pose proof (comp_integral vx (or_introl eq_refl)) as C1.
  pose proof (comp_integral vy (or_intror (or_introl eq_refl))) as C2.
  pose proof (comp_integral vz (or_intror (or_intror eq_refl))) as C3.
  unfold segment_field. cbv zeta. fold d. unfold rr in C1, C2, C3.
  rewrite C1, C2, C3. unfold mu0. apply vec_eq; unfold scale; cbn [vx vy vz]; field; (split; [exact H|exact DN] || (split; [exact DN|exact H])).
Qed.
End S.
