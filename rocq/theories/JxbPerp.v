From Coq Require Import ZArith List Bool Reals Lia Lra Psatz.
From Verif Require Import Base BaseLemmas SumLemmas SizesModel FourierModel TrigSums
  DftModel DftSpec DftTables DftFold DftFinal LapMain BsubModel BsubProofs BsubSpec BsubFinal
  FiltModel FiltSpec FiltProofs FiltFinal FluxProofs SurfSpec ExtSeg JxbModel JxbSpec JxbProofs JxbFinal JxbMain.
Open Scope R_scope.
Local Notation surface := FiltSpec.surface.

(** The data of the solver describe [L] on both sides of surface [jF]. *)
Definition describes (s : sizes) (d : jxb_in) (jF : Z) (L : local_state) : Prop :=
  forall j k l, (j = jF \/ j = jF - 1)%Z -> (0 <= k < sz_nZeta s)%Z -> (0 <= l < sz_nThetaEff s)%Z ->
  let f := ls_F L k l in let B := ls_B L k l in
  surface s (x_gsqrt d) j k l = jac f /\ surface s (x_guu d) j k l = dot (eu f) (eu f) /\
  surface s (x_guv d) j k l = dot (eu f) (ev f) /\ surface s (x_gvv d) j k l = dot (ev f) (ev f) /\
  surface s (x_bsubu d) j k l = dot B (eu f) /\ surface s (x_bsubv d) j k l = dot B (ev f) /\
  surface s (x_total_pressure d) j k l = dot B B / 2 + x_presH d j.

Lemma perp_sq f bu bv dp : jac f <> 0 -> dot (field f bu bv) (field f bu bv) <> 0 ->
  let B := field f bu bv in let J := j_perp f B dp in
  dot J J = dp * dp * (dot (eu f) (eu f) * dot (ev f) (ev f) - dot (eu f) (ev f) * dot (eu f) (ev f)) / (jac f * jac f * dot B B).
Proof.
  intros HJ HB. cbv zeta. set (B := field f bu bv) in *.
  assert (HN : dot B (cross (eu f) (ev f)) = 0).
  { unfold B, field, vplus, scale, dot, cross. cbn [vx vy vz]. ring. }
  assert (E : dot (j_perp f B dp) (j_perp f B dp) = (dp / dot B B) * (dp / dot B B) * (/ jac f * / jac f) *
     dot (cross B (cross (eu f) (ev f))) (cross B (cross (eu f) (ev f)))).
  { unfold j_perp, grad_s. set (q := dp / dot B B). set (g := / jac f). set (N := cross (eu f) (ev f)).
    unfold scale, dot, cross. cbn [vx vy vz]. ring. }
  rewrite E, lagrange, HN, lagrange. field. split; assumption.
Qed.
Lemma cov_sum f bu bv :
  let B := field f bu bv in let Bu := dot B (eu f) in let Bv := dot B (ev f) in
  let guu := dot (eu f) (eu f) in let guv := dot (eu f) (ev f) in let gvv := dot (ev f) (ev f) in
  Bv * Bv * guu - 2 * (Bv * Bu * guv) + Bu * Bu * gvv = (guu * gvv - guv * guv) * dot B B.
Proof. cbv zeta. unfold field, vplus, scale, dot. cbn [vx vy vz]. ring. Qed.

Section P.
Variable s : sizes.
Hypothesis OK : sz_ok s.
Variable ns : Z.
Variable deltaS : R.
Variable d : jxb_in.
Variable jF : Z.
Hypothesis HjF : (1 <= jF < ns - 1)%Z.
Hypothesis HD : deltaS <> 0.
Hypothesis DV : x_dVdsH d jF + x_dVdsH d (jF - 1)%Z <> 0.
Variable L : local_state.
Hypothesis DES : describes s d jF L.
Hypothesis NZ : forall k l, (0 <= k < sz_nZeta s)%Z -> (0 <= l < sz_nThetaEff s)%Z ->
  jac (ls_F L k l) <> 0 /\ dot (ls_B L k l) (ls_B L k l) <> 0.
Definition dp : R := (x_presH d jF - x_presH d (jF - 1)%Z) / (MU_0 * deltaS).
Lemma jperp2_value : o_jperp2 s ns deltaS d jF =
  fsa s (x_sign_of_jacobian d) ((x_dVdsH d jF + x_dVdsH d (jF - 1)%Z) / 2) (ls_F L) (fun k l =>
    let f := ls_F L k l in let B := ls_B L k l in let J := j_perp f B dp in
    dot J J + 4 * (dot B (eu f) * dot B (ev f) * dot (eu f) (ev f)) * (dp / (jac f * dot B B)) * (dp / (jac f * dot B B))).
Proof.
  unfold o_jperp2. rewrite profile_at by exact HjF. unfold average_jperp2, fsa.
  rewrite (accum_grid s OK (fun kl => kp2 s deltaS d jF kl * sqrtg s d jF kl)).
  assert (EN : dnorm1 * tjnorm d jF = x_sign_of_jacobian d / ((x_dVdsH d jF + x_dVdsH d (jF - 1)%Z) / 2)).
  { unfold tjnorm, ovp. pose proof dnorm_pos. field. split; lra. }
  rewrite EN. f_equal. apply grid_ext. intros k l Hk Hl.
  destruct (DES jF k l (or_introl eq_refl) Hk Hl) as (A1 & A2 & A3 & A4 & A5 & A6 & A7).
  destruct (DES (jF - 1)%Z k l (or_intror eq_refl) Hk Hl) as (B1 & B2 & B3 & B4 & B5 & B6 & B7).
  destruct (NZ k l Hk Hl) as [N1 N2]. cbv zeta.
  unfold ls_B in *. rewrite (perp_sq (ls_F L k l) (ls_bu L k l) (ls_bv L k l) dp N1 N2).
  pose proof (cov_sum (ls_F L k l) (ls_bu L k l) (ls_bv L k l)) as CS. cbv zeta in CS.
  set (f := ls_F L k l) in *. set (B := field f (ls_bu L k l) (ls_bv L k l)) in *.
  rewrite !(surf_flat s OK) in *.
  assert (SQ : sqgb2 s d jF (k * sz_nThetaEff s + l) = jac f * dot B B).
  { unfold sqgb2, outside, inside. cbv zeta. rewrite A1, B1, A7, B7. field. }
  unfold kp2, kperpu, kperpv, sqrtg. rewrite SQ. unfold outside, inside. rewrite A1, A2, A3, A4, A5, A6, B1, B2, B3, B4, B5, B6.
  assert (PP : pprime deltaS d jF = dp). { unfold pprime, dp. pose proof mu_pos. field. split; (exact HD || lra). }
  rewrite PP. cbv zeta.
  set (BB := dot B B) in *. set (Bu := dot B (eu f)) in *. set (Bv := dot B (ev f)) in *.
  set (guu := dot (eu f) (eu f)) in *. set (guv := dot (eu f) (ev f)) in *. set (gvv := dot (ev f) (ev f)) in *.
  assert (E : guu * gvv - guv * guv = (Bv * Bv * guu - 2 * (Bv * Bu * guv) + Bu * Bu * gvv) / BB) by (rewrite CS; field; exact N2).
  rewrite E. field. split; assumption.
Qed.
End P.
