From Coq Require Import ZArith List Bool Reals Lia Lra.
From Verif Require Import Base BaseLemmas SumLemmas PartModel SizesModel FourierModel FourierSpec FourierProofs DftModel DftSpec DftTables LapMain
  ProfileModel JxbMain WoutModel WoutProofs WoutFinal.
From Verif Require JxbModel.
Open Scope R_scope.

Lemma root_full (p : rpart) ns j : (1 <= j < ns)%Z -> sqrtSF p ns j = sqrt (full_pos ns j).
Proof.
  intros Hj. assert (D : 0 < IZR ns - 1) by (rewrite <- minus_IZR; apply IZR_lt; lia).
  unfold sqrtSF. destruct (Z.eqb_spec (nsMaxF1 p) ns); cbn [andb]; [|reflexivity]. destruct (Z.eqb_spec j (ns - 1)) as [-> | ]; [|reflexivity].
  unfold full_pos. rewrite minus_IZR. replace ((IZR ns - 1) / (IZR ns - 1)) with 1 by (field; lra). symmetry. apply sqrt_1.
Qed.
Lemma full_pos_pos ns j : (1 <= j)%Z -> (2 <= ns)%Z -> 0 < full_pos ns j.
Proof. intros. unfold full_pos. apply Rdiv_lt_0_compat; [apply IZR_lt; lia|rewrite <- minus_IZR; apply IZR_lt; lia]. Qed.
Lemma half_pos_pos ns j : (0 <= j)%Z -> (2 <= ns)%Z -> 0 < half_pos ns j.
Proof. intros. unfold half_pos. apply Rdiv_lt_0_compat; [assert (0 <= IZR j) by (apply IZR_le; lia); lra|rewrite <- minus_IZR; apply IZR_lt; lia]. Qed.

Section L.
Variables (s : sizes) (ns : Z) (xm : Z -> Z) (sm sp : Z -> R).
Lemma lam_half_at full mn j : (0 <= mn < sz_mnmax s)%Z -> (0 <= j < ns - 1)%Z ->
  lam_half s ns xm sm sp full mn (j + 1)%Z =
    let outside := full mn (j + 1)%Z in
    let inside := if (j =? 0)%Z && (xm mn <=? 1)%Z then outside else full mn j in
    if (Z.rem (xm mn) 2 =? 0)%Z then (outside + inside) / 2 else (sm j * outside + sp j * inside) / 2.
Proof.
  intros Hm Hj. unfold lam_half. apply (for_up_set (fun w : Z -> Z -> R => w mn (j + 1)%Z) _ 0 (ns - 1) j); [lia| |].
  - intros w. cbv zeta. apply (for_up_set (fun w : Z -> Z -> R => w mn (j + 1)%Z) _ 0 (sz_mnmax s) mn); [lia| |].
    + intros w'. apply upd2_eq.
    + intros x w' Hx NE. apply upd2_neq. lia.
  - intros x w Hx NE. cbv zeta. apply (for_up_keep (fun w : Z -> Z -> R => w mn (j + 1)%Z)). intros y w' Hy. apply upd2_neq. lia.
Qed.
End L.

Section C.
Variables (ns mnmax : Z) (xm xn : Z -> Z).
Lemma interior_at v mn j : (0 <= mn < mnmax)%Z -> (1 <= j < ns - 1)%Z -> curr_interior ns mnmax v mn j = v mn j.
Proof.
  intros Hm Hj. unfold curr_interior. apply (for_up_set (fun w : Z -> Z -> R => w mn j) _ 1 (ns - 1) j); [lia| |].
  - intros w. apply (for_up_set (fun w : Z -> Z -> R => w mn j) _ 0 mnmax mn); [lia| |].
    + intros w'. apply upd2_eq.
    + intros x w' Hx NE. apply upd2_neq. lia.
  - intros x w Hx NE. apply (for_up_keep (fun w : Z -> Z -> R => w mn j)). intros y w' Hy. apply upd2_neq. lia.
Qed.
Lemma interior_out v mn j : ~ (1 <= j < ns - 1)%Z -> curr_interior ns mnmax v mn j = 0.
Proof.
  intros Hj. unfold curr_interior.
  apply (for_up_keep (fun w : Z -> Z -> R => w mn j) _ 1 (ns - 1)). intros x w Hx. apply (for_up_keep (fun w : Z -> Z -> R => w mn j)). intros y w' Hy. apply upd2_neq. lia.
Qed.
Lemma axis_at w mn j : (0 <= mn < mnmax)%Z ->
  curr_axis mnmax xm w mn j = if (j =? 0)%Z && (xm mn <=? 1)%Z then 2 * w mn 1%Z - w mn 2%Z else w mn j.
Proof.
  intros Hm. unfold curr_axis.
  pose (f := fun g : Z -> R => fun j => if (j =? 0)%Z && (xm mn <=? 1)%Z then 2 * g 1%Z - g 2%Z else g j).
  pose (pr := fun w : Z -> Z -> R => (w mn j, w mn 0%Z, w mn 1%Z, w mn 2%Z)).
  assert (E := for_up_touch pr (fun q => let '(a, b, c, d) := q in
      if (xm mn <=? 1)%Z then ((if (j =? 0)%Z then 2 * c - d else a), 2 * c - d, c, d) else q)
    (fun mn w => if (xm mn <=? 1)%Z then upd2 w mn 0%Z (2 * w mn 1%Z - w mn 2%Z) else w) 0 mnmax mn ltac:(lia)).
  specialize (fun H1 H2 => E H1 H2 w).
  assert (E' : pr (for_up 0 mnmax (fun mn w => if (xm mn <=? 1)%Z then upd2 w mn 0%Z (2 * w mn 1%Z - w mn 2%Z) else w) w) =
    (if (xm mn <=? 1)%Z then ((if (j =? 0)%Z then 2 * w mn 1%Z - w mn 2%Z else w mn j), 2 * w mn 1%Z - w mn 2%Z, w mn 1%Z, w mn 2%Z) else pr w)).
  { apply E.
    - intros t. unfold pr. destruct (xm mn <=? 1)%Z; [|reflexivity]. rewrite upd2_eq, !(upd2_neq _ _ _ _ _ 1%Z), !(upd2_neq _ _ _ _ _ 2%Z) by (right; lia).
      destruct (Z.eqb_spec j 0) as [-> | J0]; [rewrite upd2_eq; reflexivity|rewrite upd2_neq by lia; reflexivity].
    - intros x t Hx NE. unfold pr. destruct (xm x <=? 1)%Z; [|reflexivity]. rewrite !upd2_neq by lia. reflexivity. }
  unfold pr in E'. destruct (xm mn <=? 1)%Z; apply pair_equal_spec in E'; destruct E' as [E' _]; apply pair_equal_spec in E'; destruct E' as [E' _];
    apply pair_equal_spec in E'; destruct E' as [E' _]; rewrite E'; destruct (j =? 0)%Z; reflexivity.
Qed.
Lemma edge_at w mn j : (3 <= ns)%Z -> (0 <= mn < mnmax)%Z ->
  curr_edge ns mnmax w mn j = if (j =? ns - 1)%Z then 2 * w mn (ns - 2)%Z - w mn (ns - 3)%Z else w mn j.
Proof.
  intros Hn Hm. unfold curr_edge.
  pose (pr := fun w : Z -> Z -> R => (w mn j, w mn (ns - 2)%Z, w mn (ns - 3)%Z)).
  assert (E' : pr (for_up 0 mnmax (fun mn w => upd2 w mn (ns - 1)%Z (2 * w mn (ns - 2)%Z - w mn (ns - 3)%Z)) w) =
    ((if (j =? ns - 1)%Z then 2 * w mn (ns - 2)%Z - w mn (ns - 3)%Z else w mn j), w mn (ns - 2)%Z, w mn (ns - 3)%Z)).
  { apply (for_up_touch pr (fun q => let '(a, b, c) := q in ((if (j =? ns - 1)%Z then 2 * b - c else a), b, c)) _ 0 mnmax mn); [lia| |].
    - intros t. unfold pr. rewrite !(upd2_neq _ _ _ _ _ (ns - 2)%Z), !(upd2_neq _ _ _ _ _ (ns - 3)%Z) by (right; lia).
      destruct (Z.eqb_spec j (ns - 1)) as [-> | J0]; [rewrite upd2_eq; reflexivity|rewrite upd2_neq by lia; reflexivity].
    - intros x t Hx NE. unfold pr. rewrite !upd2_neq by lia. reflexivity. }
  unfold pr in E'. apply pair_equal_spec in E'. destruct E' as [E' _]. apply pair_equal_spec in E'. exact (proj1 E').
Qed.
Lemma curr_mid v mn j : (3 <= ns)%Z -> (0 <= mn < mnmax)%Z -> (1 <= j < ns - 1)%Z -> curr ns mnmax xm v mn j = v mn j / JxbModel.MU_0.
Proof.
  intros Hn Hm Hj. unfold curr. cbv zeta. rewrite edge_at by assumption. destruct (Z.eqb_spec j (ns - 1)); [lia|].
  rewrite axis_at by assumption. destruct (Z.eqb_spec j 0); [lia|]. cbn [andb]. rewrite interior_at by assumption. reflexivity.
Qed.
Lemma curr_ends v mn : (4 <= ns)%Z -> (0 <= mn < mnmax)%Z ->
  curr ns mnmax xm v mn (ns - 1)%Z = (2 * v mn (ns - 2)%Z - v mn (ns - 3)%Z) / JxbModel.MU_0 /\
  curr ns mnmax xm v mn 0%Z = (if (xm mn <=? 1)%Z then 2 * v mn 1%Z - v mn 2%Z else 0) / JxbModel.MU_0.
Proof.
  intros Hn Hm. unfold curr. cbv zeta. rewrite !edge_at by (assumption || lia). rewrite Z.eqb_refl. destruct (Z.eqb_spec 0 (ns - 1)); [lia|].
  rewrite !axis_at by assumption. rewrite !interior_at by lia. rewrite interior_out by lia.
  destruct (Z.eqb_spec (ns - 2) 0); [lia|]. destruct (Z.eqb_spec (ns - 3) 0); [lia|]. cbn [andb Z.eqb]. split; reflexivity.
Qed.

(** Radial average and difference of the profiles for which they are exact. *)
Variable p : rpart.
Let SH jH := sqrtSH ns jH.
Let SF jF := sqrtSF p ns jF.
Definition odd_ (mn : Z) : bool := Z.odd (xm mn).
Lemma rem_odd m : (0 <= m)%Z -> (Z.rem m 2 =? 1)%Z = Z.odd m.
Proof. intros H. rewrite Z.rem_mod_nonneg by lia. rewrite Zmod_odd. destruct (Z.odd m); reflexivity. Qed.
Lemma half_steps j : (2 <= ns)%Z -> half_pos ns j = full_pos ns j + 1 / (IZR ns - 1) / 2 /\ half_pos ns (j - 1) = full_pos ns j - 1 / (IZR ns - 1) / 2.
Proof.
  intros Hn. assert (D : IZR ns - 1 <> 0) by (rewrite <- minus_IZR; apply not_0_IZR; lia).
  unfold half_pos, full_pos. rewrite minus_IZR. split; field; exact D.
Qed.
Lemma avg_exact b mn j a0 a1 : (3 <= ns)%Z -> (0 <= xm mn)%Z -> (1 <= j < ns - 1)%Z ->
  let f x := if Z.odd (xm mn) then (a0 + a1 * x) / sqrt x else a0 + a1 * x in
  (forall jH, (0 <= jH < ns - 1)%Z -> b mn (jH + 1)%Z = f (half_pos ns jH)) ->
  reg_avg xm SH SF b mn j = f (full_pos ns j).
Proof.
  intros Hn Hx Hj f H. unfold reg_avg. rewrite rem_odd by exact Hx.
  assert (B1 := H j ltac:(lia)). assert (B0 := H (j - 1)%Z ltac:(lia)). replace (j - 1 + 1)%Z with j in B0 by lia. rewrite B1, B0.
  destruct (half_steps j ltac:(lia)) as (E1 & E0). unfold f. destruct (Z.odd (xm mn)).
  - unfold SH, SF. rewrite root_full by lia. unfold sqrtSH.
    assert (R1 := sqrt_lt_R0 _ (half_pos_pos ns j ltac:(lia) ltac:(lia))). assert (R0 := sqrt_lt_R0 _ (half_pos_pos ns (j - 1) ltac:(lia) ltac:(lia))).
    assert (RF := sqrt_lt_R0 _ (full_pos_pos ns j ltac:(lia) ltac:(lia))).
    replace (sqrt (half_pos ns j) * ((a0 + a1 * half_pos ns j) / sqrt (half_pos ns j))) with (a0 + a1 * half_pos ns j) by (field; lra).
    replace (sqrt (half_pos ns (j - 1)) * ((a0 + a1 * half_pos ns (j - 1)) / sqrt (half_pos ns (j - 1)))) with (a0 + a1 * half_pos ns (j - 1)) by (field; lra).
    rewrite E1, E0. set (q := 1 / (IZR ns - 1) / 2). field. lra.
  - rewrite E1, E0. field. rewrite <- minus_IZR. apply not_0_IZR. lia.
Qed.
Lemma diff_exact b mn j a0 a1 a2 : (3 <= ns)%Z -> (0 <= xm mn)%Z -> (1 <= j < ns - 1)%Z ->
  let f x := if Z.odd (xm mn) then sqrt x * (a0 + a1 * x) else a0 + a1 * x + a2 * x * x in
  (forall jH, (0 <= jH < ns - 1)%Z -> b mn (jH + 1)%Z = f (half_pos ns jH)) ->
  derivable_pt_lim f (full_pos ns j) (reg_diff xm (1 / (IZR ns - 1)) SH SF b mn j).
Proof.
  intros Hn Hx Hj f H. unfold reg_diff. cbv zeta. rewrite rem_odd by exact Hx.
  assert (D : 0 < IZR ns - 1) by (rewrite <- minus_IZR; apply IZR_lt; lia).
  assert (B1 := H j ltac:(lia)). assert (B0 := H (j - 1)%Z ltac:(lia)). replace (j - 1 + 1)%Z with j in B0 by lia. rewrite B1, B0.
  destruct (half_steps j ltac:(lia)) as (E1 & E0). unfold f. destruct (Z.odd (xm mn)).
  - unfold SH, SF. rewrite root_full by lia. unfold sqrtSH.
    assert (R1 := sqrt_lt_R0 _ (half_pos_pos ns j ltac:(lia) ltac:(lia))). assert (R0 := sqrt_lt_R0 _ (half_pos_pos ns (j - 1) ltac:(lia) ltac:(lia))).
    assert (PF := full_pos_pos ns j ltac:(lia) ltac:(lia)). assert (RF := sqrt_lt_R0 _ PF).
    replace (sqrt (half_pos ns j) * (a0 + a1 * half_pos ns j) / sqrt (half_pos ns j)) with (a0 + a1 * half_pos ns j) by (field; lra).
    replace (sqrt (half_pos ns (j - 1)) * (a0 + a1 * half_pos ns (j - 1)) / sqrt (half_pos ns (j - 1))) with (a0 + a1 * half_pos ns (j - 1)) by (field; lra).
    rewrite E1, E0. set (x := full_pos ns j) in *.
    assert (SQ : derivable_pt_lim sqrt x (/ (2 * sqrt x))) by (apply derivable_pt_lim_sqrt; exact PF).
    assert (LN : derivable_pt_lim (fun y => a0 + a1 * y) x a1).
    { assert (P := derivable_pt_lim_plus _ _ x _ _ (derivable_pt_lim_const a0 x) (derivable_pt_lim_scal _ a1 x 1 (derivable_pt_lim_id x))).
      rewrite Rplus_0_l, Rmult_1_r in P. exact P. }
    assert (P := derivable_pt_lim_mult _ _ x _ _ SQ LN).
    replace (1 / (1 / (IZR ns - 1)) * (a0 + a1 * (x + 1 / (IZR ns - 1) / 2) - (a0 + a1 * (x - 1 / (IZR ns - 1) / 2))) * sqrt x +
      1 / 4 * (a0 + a1 * (x - 1 / (IZR ns - 1) / 2) + (a0 + a1 * (x + 1 / (IZR ns - 1) / 2))) / sqrt x)
      with (/ (2 * sqrt x) * (a0 + a1 * x) + sqrt x * a1); [exact P|]. field. split; lra.
  - rewrite E1, E0. set (x := full_pos ns j).
    assert (P := derivable_pt_lim_plus _ _ x _ _ (derivable_pt_lim_plus _ _ x _ _ (derivable_pt_lim_const a0 x) (derivable_pt_lim_scal _ a1 x 1 (derivable_pt_lim_id x)))
      (derivable_pt_lim_scal _ a2 x _ (derivable_pt_lim_mult _ _ x _ _ (derivable_pt_lim_id x) (derivable_pt_lim_id x)))).
    assert (Q : derivable_pt_lim (fun y => a0 + a1 * y + a2 * y * y) x (0 + a1 * 1 + a2 * (1 * id x + id x * 1))).
    { eapply derivable_pt_lim_ext; [|exact P]. intros y. cbv [plus_fct mult_fct fct_cte mult_real_fct id]. ring. }
    replace (1 / (1 / (IZR ns - 1)) * (a0 + a1 * (x + 1 / (IZR ns - 1) / 2) + a2 * (x + 1 / (IZR ns - 1) / 2) * (x + 1 / (IZR ns - 1) / 2) -
       (a0 + a1 * (x - 1 / (IZR ns - 1) / 2) + a2 * (x - 1 / (IZR ns - 1) / 2) * (x - 1 / (IZR ns - 1) / 2))))
      with (0 + a1 * 1 + a2 * (1 * id x + id x * 1)); [exact Q|]. unfold id. field. lra.
Qed.
End C.
