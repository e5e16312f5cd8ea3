(** Discrete orthogonality of sines and cosines on an equidistant periodic grid. *)
From Coq Require Import ZArith List Bool Reals Lia Lra.
From Verif Require Import Base BaseLemmas SumLemmas.
Open Scope R_scope.

Lemma zsum_telescope f lo hi : (lo <= hi)%Z -> zsum lo hi (fun l => f (l + 1)%Z - f l) = f hi - f lo.
Proof.
  intros H. replace hi with (lo + (hi - lo))%Z by lia.
  assert (G : (0 <= hi - lo)%Z) by lia. revert G. generalize (hi - lo)%Z as d. clear H.
  intros d Hd. revert d Hd. apply natlike_ind.
  - rewrite zsum_empty by lia. replace (lo + 0)%Z with lo by lia. lra.
  - intros d Hd IH. replace (lo + Z.succ d)%Z with (lo + d + 1)%Z by lia.
    rewrite zsum_snoc by lia. rewrite IH. lra.
Qed.

Lemma sin_period_Z x k : sin (x + 2 * IZR k * PI) = sin x.
Proof.
  destruct (Z_le_gt_dec 0 k) as [H|H].
  - rewrite <- (Z2Nat.id k H), <- INR_IZR_INZ. apply sin_period.
  - rewrite <- (sin_period (x + 2 * IZR k * PI) (Z.to_nat (- k))), INR_IZR_INZ, Z2Nat.id by lia.
    rewrite opp_IZR. f_equal. ring.
Qed.
Lemma cos_period_Z x k : cos (x + 2 * IZR k * PI) = cos x.
Proof.
  destruct (Z_le_gt_dec 0 k) as [H|H].
  - rewrite <- (Z2Nat.id k H), <- INR_IZR_INZ. apply cos_period.
  - rewrite <- (cos_period (x + 2 * IZR k * PI) (Z.to_nat (- k))), INR_IZR_INZ, Z2Nat.id by lia.
    rewrite opp_IZR. f_equal. ring.
Qed.

Lemma sin_frac_nz q N : (0 < N)%Z -> (0 < Z.abs q < N)%Z -> sin (PI * IZR q / IZR N) <> 0.
Proof.
  intros HN Hq.
  assert (NP : 0 < IZR N) by (apply IZR_lt; lia).
  assert (P0 := PI_RGT_0).
  assert (forall r, (0 < r < N)%Z -> 0 < sin (PI * IZR r / IZR N)).
  { intros r Hr. assert (0 < IZR r < IZR N) by (split; apply IZR_lt; lia).
    apply sin_gt_0.
    - apply Rmult_lt_0_compat; [nra | apply Rinv_0_lt_compat; lra].
    - apply (Rmult_lt_reg_r (IZR N)); [lra|]. unfold Rdiv. rewrite Rmult_assoc, Rinv_l by lra. nra. }
  destruct (Z.abs_spec q) as [[Hs E]|[Hs E]]; rewrite E in Hq.
  - specialize (H q Hq). lra.
  - specialize (H (- q)%Z Hq). rewrite opp_IZR in H.
    replace (PI * - IZR q / IZR N) with (- (PI * IZR q / IZR N)) in H by (field; lra).
    rewrite sin_neg in H. lra.
Qed.

Section Sums.
Variable N : Z.
Hypothesis HN : (0 < N)%Z.
Definition ang (l : Z) : R := 2 * PI * IZR l / IZR N.
Lemma NR : IZR N <> 0. Proof. apply not_0_IZR. lia. Qed.

Lemma sum_cos q x0 : (0 < Z.abs q < N)%Z -> zsum 0 N (fun l => cos (IZR q * ang l + x0)) = 0.
Proof.
  intros Hq. assert (S := sin_frac_nz q N HN Hq). assert (NN := NR).
  set (b := PI * IZR q / IZR N) in *.
  apply (Rmult_eq_reg_l (2 * sin b)); [|lra]. rewrite <- zsum_scale, Rmult_0_r.
  transitivity (zsum 0 N (fun l => (fun l => sin (IZR q * ang l + x0 - b)) (l + 1)%Z - (fun l => sin (IZR q * ang l + x0 - b)) l)).
  - apply zsum_ext. intros l _. cbv beta.
    replace (IZR q * ang (l + 1) + x0 - b) with (IZR q * ang l + x0 + b).
    + rewrite sin_plus, sin_minus. ring.
    + unfold ang, b. rewrite plus_IZR. field. exact NN.
  - rewrite (zsum_telescope (fun l => sin (IZR q * ang l + x0 - b))) by lia. unfold ang.
    replace (IZR q * (2 * PI * IZR N / IZR N) + x0 - b) with (IZR q * (2 * PI * IZR 0 / IZR N) + x0 - b + 2 * IZR q * PI).
    + rewrite sin_period_Z. ring.
    + change (IZR 0) with 0. field. exact NN.
Qed.
Lemma sum_sin q : (Z.abs q < N)%Z -> zsum 0 N (fun l => sin (IZR q * ang l)) = 0.
Proof.
  intros Hq. destruct (Z.eq_dec q 0) as [->|Z0].
  - apply zsum_zero. intros l _. rewrite Rmult_0_l. apply sin_0.
  - rewrite (zsum_ext _ _ _ (fun l => cos (IZR q * ang l + - (PI / 2)))).
    + apply sum_cos. lia.
    + intros l _. fold (IZR q * ang l - PI / 2). rewrite cos_minus, cos_PI2, sin_PI2. ring.
Qed.
Lemma sum_cos0 q : (Z.abs q < N)%Z -> zsum 0 N (fun l => cos (IZR q * ang l)) = if (q =? 0)%Z then IZR N else 0.
Proof.
  intros Hq. destruct (Z.eqb_spec q 0) as [->|Z0].
  - rewrite (zsum_ext _ _ _ (fun _ => 1)) by (intros; rewrite Rmult_0_l; apply cos_0).
    rewrite zsum_const by lia. rewrite Z.sub_0_r. ring.
  - rewrite (zsum_ext _ _ _ (fun l => cos (IZR q * ang l + 0))) by (intros; f_equal; ring).
    apply sum_cos. lia.
Qed.

(** products of two modes *)
Lemma cos_cos_mode a b x : cos (IZR a * x) * cos (IZR b * x) = 1 / 2 * cos (IZR (a - b) * x) + 1 / 2 * cos (IZR (a + b) * x).
Proof.
  rewrite minus_IZR, plus_IZR.
  replace ((IZR a - IZR b) * x) with (IZR a * x - IZR b * x) by ring.
  replace ((IZR a + IZR b) * x) with (IZR a * x + IZR b * x) by ring.
  rewrite cos_minus, cos_plus. field.
Qed.
Lemma sin_sin_mode a b x : sin (IZR a * x) * sin (IZR b * x) = 1 / 2 * cos (IZR (a - b) * x) - 1 / 2 * cos (IZR (a + b) * x).
Proof.
  rewrite minus_IZR, plus_IZR.
  replace ((IZR a - IZR b) * x) with (IZR a * x - IZR b * x) by ring.
  replace ((IZR a + IZR b) * x) with (IZR a * x + IZR b * x) by ring.
  rewrite cos_minus, cos_plus. field.
Qed.
Lemma sin_cos_mode a b x : sin (IZR a * x) * cos (IZR b * x) = 1 / 2 * sin (IZR (a - b) * x) + 1 / 2 * sin (IZR (a + b) * x).
Proof.
  rewrite minus_IZR, plus_IZR.
  replace ((IZR a - IZR b) * x) with (IZR a * x - IZR b * x) by ring.
  replace ((IZR a + IZR b) * x) with (IZR a * x + IZR b * x) by ring.
  rewrite sin_minus, sin_plus. field.
Qed.

Variables a b : Z.
Hypothesis Ha : (0 <= a)%Z.
Hypothesis Hb : (0 <= b)%Z.
Hypothesis Hab : (a + b < N)%Z.
Lemma orth_cc : zsum 0 N (fun l => cos (IZR a * ang l) * cos (IZR b * ang l)) =
  if (a =? b)%Z then (if (a =? 0)%Z then IZR N else IZR N / 2) else 0.
Proof.
  rewrite (zsum_ext _ _ _ _ (fun l _ => cos_cos_mode a b (ang l))).
  rewrite zsum_plus, !zsum_scale, !sum_cos0 by lia.
  destruct (Z.eqb_spec a b); destruct (Z.eqb_spec a 0); destruct (Z.eqb_spec (a - b) 0);
  destruct (Z.eqb_spec (a + b) 0); try lia; lra.
Qed.
Lemma orth_ss : zsum 0 N (fun l => sin (IZR a * ang l) * sin (IZR b * ang l)) =
  if (a =? b)%Z then (if (a =? 0)%Z then 0 else IZR N / 2) else 0.
Proof.
  rewrite (zsum_ext _ _ _ _ (fun l _ => sin_sin_mode a b (ang l))).
  rewrite zsum_minus, !zsum_scale, !sum_cos0 by lia.
  destruct (Z.eqb_spec a b); destruct (Z.eqb_spec a 0); destruct (Z.eqb_spec (a - b) 0);
  destruct (Z.eqb_spec (a + b) 0); try lia; lra.
Qed.
Lemma orth_sc : zsum 0 N (fun l => sin (IZR a * ang l) * cos (IZR b * ang l)) = 0.
Proof.
  rewrite (zsum_ext _ _ _ _ (fun l _ => sin_cos_mode a b (ang l))).
  rewrite zsum_plus, !zsum_scale, !sum_sin by lia. ring.
Qed.
Lemma orth_cs : zsum 0 N (fun l => cos (IZR a * ang l) * sin (IZR b * ang l)) = 0.
Proof.
  rewrite (zsum_ext _ _ _ (fun l => sin (IZR b * ang l) * cos (IZR a * ang l))) by (intros; ring).
  rewrite (zsum_ext _ _ _ _ (fun l _ => sin_cos_mode b a (ang l))).
  rewrite zsum_plus, !zsum_scale, !sum_sin by lia. ring.
Qed.
End Sums.

(** reflected grid points *)
Lemma refl_trig N l m : (0 < N)%Z ->
  cos (IZR m * ang N (N - l)) = cos (IZR m * ang N l) /\ sin (IZR m * ang N (N - l)) = - sin (IZR m * ang N l).
Proof.
  intros HN. assert (NN : IZR N <> 0) by (apply not_0_IZR; lia).
  replace (IZR m * ang N (N - l)) with (- (IZR m * ang N l) + 2 * IZR m * PI).
  - rewrite cos_period_Z, sin_period_Z, cos_neg, sin_neg. split; reflexivity.
  - unfold ang. rewrite minus_IZR. field. exact NN.
Qed.
Lemma refl_trig_mod N l m : (0 < N)%Z -> (0 <= l < N)%Z ->
  cos (IZR m * ang N ((N - l) mod N)) = cos (IZR m * ang N l) /\ sin (IZR m * ang N ((N - l) mod N)) = - sin (IZR m * ang N l).
Proof.
  intros HN Hl. destruct (Z.eq_dec l 0) as [->|Z0].
  - rewrite Z.sub_0_r, Z.mod_same by lia. split; [reflexivity|].
    unfold ang. change (IZR 0) with 0. rewrite Rmult_0_r. unfold Rdiv. rewrite Rmult_0_l, Rmult_0_r, sin_0. ring.
  - rewrite Z.mod_small by lia. apply refl_trig; lia.
Qed.

(** Sum over a grid with the reflection k -> (N-k) mod N. *)
Lemma zsum_refl N f : (0 < N)%Z -> zsum 0 N (fun k => f ((N - k) mod N)%Z) = zsum 0 N f.
Proof.
  intros HN. rewrite (zsum_cons 0 N) by lia. rewrite (zsum_cons 0 N f) by lia.
  rewrite Z.sub_0_r, Z.mod_same by lia. apply f_equal.
  change (0 + 1)%Z with 1%Z. rewrite (zsum_rev 1 N f). apply zsum_ext. intros j Hj.
  rewrite Z.mod_small by lia. f_equal. lia.
Qed.
