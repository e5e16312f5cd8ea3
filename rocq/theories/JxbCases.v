From Coq Require Import ZArith List Bool Reals Lia Lra Psatz.
From Verif Require Import Base BaseLemmas SumLemmas SizesModel FourierModel TrigSums
  DftModel DftSpec DftTables DftFold DftFinal LapMain BsubProofs FiltSpec FluxProofs SurfSpec ExtSeg
  JxbModel JxbSpec JxbProofs JxbMain JxbPerp.
Open Scope R_scope.
Local Notation surface := FiltSpec.surface.

Lemma extrapolate_linear ns a p q : (4 <= ns)%Z -> (forall j, (1 <= j < ns - 1)%Z -> a j = p + q * IZR j) ->
  forall j, (0 <= j < ns)%Z -> extrapolate ns a j = p + q * IZR j.
Proof.
  intros Hns H j Hj. unfold extrapolate.
  destruct (Z.eq_dec j (ns - 1)) as [->|N1].
  - rewrite upd_eq. rewrite !upd_neq by lia. rewrite !H by lia. rewrite !minus_IZR. ring.
  - rewrite upd_neq by exact N1. destruct (Z.eq_dec j 0) as [->|N0].
    + rewrite upd_eq, !H by lia. ring.
    + rewrite upd_neq by exact N0. apply H. lia.
Qed.

(** A uniform state; [f] the local frame with a sheared coordinate system. *)
Definition js : sizes := match make_sizes false 1 2 0 0 0 0 0 with Some s => s | None => FiltCex.cs end.
Lemma js_make : make_sizes false 1 2 0 0 0 0 0 = Some js. Proof. reflexivity. Qed.
Lemma js_ok : sz_ok js. Proof. exact (make_sizes_ok _ _ _ _ _ _ _ _ _ js_make). Qed.
Definition jf : frame := mkFrame (mkVec 0 0 (-1)) (mkVec 1 0 0) (mkVec 1 1 0).
Definition jL : local_state := mkLocal (fun _ _ => jf) (fun _ _ => 0) (fun _ _ => 1).
Definition jp (j : Z) : R := if (j =? 0)%Z then MU_0 else 0.
Definition jd : jxb_in :=
  mkJxbIn (fun _ => 1) jp (fun _ => 1) (fun j => IZR j) (fun _ => -1) (fun i => 1 + jp (i / sz_nZnT js))
    (fun _ => 1) (fun _ => 2) (fun _ => 0) (fun _ => 1) (fun _ => 1) (fun _ => 1) (fun _ => 2)
    (fun _ => 0) (fun _ => 0) (fun _ => 0) (fun _ => 0) (fun _ => 0) (-1).
Lemma jd_row j kl : (0 <= kl < sz_nZnT js)%Z -> ((j * sz_nZnT js + kl) / sz_nZnT js = j)%Z.
Proof. intros H. rewrite Z.div_add_l, Z.div_small by lia. lia. Qed.
Lemma jd_describes : describes js jd 1 jL.
Proof.
  intros j k l Hj Hk Hl. cbv zeta. rewrite !(surf_flat js js_ok). cbn [x_gsqrt x_guu x_guv x_gvv x_bsubu x_bsubv x_total_pressure x_presH jd].
  rewrite jd_row by (apply (kl_range js js_ok); assumption).
  unfold jac, ls_B, field, jL, jf, vplus, scale, dot, cross. cbn [ls_F ls_bu ls_bv es eu ev vx vy vz]. repeat split; lra.
Qed.
Lemma jd_regular : jac jf <> 0 /\ forall k l, dot (ls_B jL k l) (ls_B jL k l) <> 0.
Proof.
  split.
  - unfold jac, jf, dot, cross. cbn [es eu ev vx vy vz]. lra.
  - intros. unfold ls_B, field, jL, jf, vplus, scale, dot. cbn [ls_F ls_bu ls_bv es eu ev vx vy vz]. lra.
Qed.
Lemma fsa_const sign dV a : fsa js sign dV (ls_F jL) (fun _ _ => a) = sign / dV * (- a).
Proof.
  unfold fsa. f_equal. rewrite (grid_ext js _ (fun _ _ => - a)); [apply (grid_const js js_ok)|].
  intros. unfold jL. cbn [ls_F]. unfold jac, jf, dot, cross. cbn [es eu ev vx vy vz]. ring.
Qed.
Lemma fsa_ext s sign dV F g h : (forall k l, g k l = h k l) -> fsa s sign dV F g = fsa s sign dV F h.
Proof. intros H. unfold fsa. f_equal. apply grid_ext. intros. cbv beta. rewrite H. reflexivity. Qed.
Lemma jd_perp : o_jperp2 js 3 (1 / 2) jd 1 <>
  fsa js (x_sign_of_jacobian jd) ((x_dVdsH jd 1 + x_dVdsH jd 0) / 2) (ls_F jL) (fun k l =>
    let J := j_perp (ls_F jL k l) (ls_B jL k l) ((x_presH jd 1 - x_presH jd 0) / (MU_0 * (1 / 2))) in dot J J).
Proof.
  destruct jd_regular as [R1 R2]. pose proof mu_pos as MP.
  rewrite (jperp2_value js js_ok 3 (1 / 2) jd 1 ltac:(lia) ltac:(lra) ltac:(cbn; lra) jL jd_describes (fun k l _ _ => conj R1 (R2 k l))).
  change (1 - 1)%Z with 0%Z. unfold dp. change (1 - 1)%Z with 0%Z.
  set (p := (x_presH jd 1 - x_presH jd 0) / (MU_0 * (1 / 2))).
  assert (EP : p = -2). { unfold p, jd, jp. cbn [x_presH Z.eqb]. field. lra. }
  clearbody p. subst p.
  set (JJ := dot (j_perp jf (field jf 0 1) (-2)) (j_perp jf (field jf 0 1) (-2))).
  match goal with |- ?A <> ?B => 
    assert (E1 : A = x_sign_of_jacobian jd / ((x_dVdsH jd 1 + x_dVdsH jd 0) / 2) * - (JJ + 8));
    [|assert (E2 : B = x_sign_of_jacobian jd / ((x_dVdsH jd 1 + x_dVdsH jd 0) / 2) * - JJ)] end.
  - rewrite <- fsa_const. apply fsa_ext. intros k l. cbv zeta.
    change (dot (j_perp (ls_F jL k l) (ls_B jL k l) (-2)) (j_perp (ls_F jL k l) (ls_B jL k l) (-2))) with JJ. f_equal.
    unfold ls_B, field, jL, jf, vplus, scale, dot, jac, cross. cbn [ls_F ls_bu ls_bv es eu ev vx vy vz]. unfold dot. cbn [vx vy vz]. field.
  - rewrite <- fsa_const. apply fsa_ext. intros k l. reflexivity.
  - rewrite E1, E2. cbn [x_sign_of_jacobian x_dVdsH jd]. lra.
Qed.

(** A state that does not depend on the radius, on three surfaces. *)
Definition ud : jxb_in :=
  mkJxbIn (fun _ => 1) (fun _ => 0) (fun _ => 1) (fun j => IZR j) (fun _ => -1) (fun _ => 1)
    (fun _ => 1) (fun _ => 2) (fun _ => 0) (fun _ => 1) (fun _ => 1) (fun _ => 1) (fun _ => 2)
    (fun _ => 0) (fun _ => 0) (fun _ => 0) (fun _ => 0) (fun _ => 0) (-1).
Lemma ud_axis : o_bdotgradv 3 ud 0 = 2 * o_bdotgradv 3 ud 1 /\ o_bdotgradv 3 ud 2 = 0 /\ o_bdotgradv 3 ud 1 = -1.
Proof.
  pose proof dnorm_pos as D.
  assert (E : o_bdotgradv 3 ud 1 = -1).
  { unfold o_bdotgradv. rewrite extrapolate_mid, profile_at by lia. unfold tjnorm, ovp. cbn [x_dVdsH x_phipH x_sign_of_jacobian ud]. field. lra. }
  rewrite E. unfold o_bdotgradv in *. rewrite extrapolate_mid in E by lia.
  pose proof (profile_out 3 (fun jF => dnorm1 * tjnorm ud jF * (x_phipH ud jF + x_phipH ud (jF - 1)%Z) / 2) 2 ltac:(lia)) as E2.
  set (a := profile _ _) in *.
  assert (X0 : extrapolate 3 a 0 = 2 * a 1%Z - a 2%Z) by reflexivity.
  assert (X2 : extrapolate 3 a 2 = 2 * a 1%Z - (2 * a 1%Z - a 2%Z)) by reflexivity.
  rewrite X0, X2, E, E2. repeat split; ring.
Qed.
