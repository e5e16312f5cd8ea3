(** Interval arithmetic in fixed point (a number and an error bound, both in units
    of 2^-80), with enclosures of PI, sqrt 2 and of cos and sin of 2 PI k / N. *)
From Coq Require Import ZArith List Bool Reals Lia Lra Machin Ratan.
Import ListNotations.
Open Scope Z_scope.

Definition unit_ : Z := 2 ^ 80.
Definition ball := (Z * Z)%type.
Definition inb (b : ball) (r : R) : Prop := (Rabs (r * IZR unit_ - IZR (fst b)) <= IZR (snd b))%R.
Definition badd (a b : ball) : ball := (fst a + fst b, snd a + snd b).
Definition bneg (a : ball) : ball := (- fst a, snd a).
(** Products with an exact zero are exact. *)
Definition bzero (a : ball) : bool := (fst a =? 0) && (snd a =? 0).
Definition bmul (a b : ball) : ball :=
  if bzero a || bzero b then (0, 0) else
  (Z.shiftr (fst a * fst b) 80, Z.shiftr (Z.abs (fst a) * snd b + Z.abs (fst b) * snd a + snd a * snd b) 80 + 2).
Definition blit (n d : Z) : ball := ((n * unit_) / d, if (n * unit_) mod d =? 0 then 0 else 1).
Definition bwiden (a : ball) (e : Z) : ball := (fst a, snd a + e).
(** A ball around everything between a member of [a] and a larger member of [b]. *)
Definition bhull (a b : ball) : ball :=
  ((fst a - snd a + fst b + snd b) / 2, (fst b + snd b - fst a + snd a) / 2 + 2).

Lemma unit_pos : (0 < IZR unit_)%R. Proof. apply IZR_lt. reflexivity. Qed.
Lemma inb_e b r : inb b r -> 0 <= snd b.
Proof. intros H. apply le_IZR. eapply Rle_trans; [apply Rabs_pos|exact H]. Qed.
Lemma inb_add a b x y : inb a x -> inb b y -> inb (badd a b) (x + y).
Proof.
  unfold inb, badd. cbn [fst snd]. intros H1 H2. rewrite !plus_IZR.
  replace ((x + y) * IZR unit_ - (IZR (fst a) + IZR (fst b)))%R with ((x * IZR unit_ - IZR (fst a)) + (y * IZR unit_ - IZR (fst b)))%R by ring.
  eapply Rle_trans; [apply Rabs_triang|lra].
Qed.
Lemma inb_neg a x : inb a x -> inb (bneg a) (- x).
Proof.
  unfold inb, bneg. cbn [fst snd]. intros H1. rewrite opp_IZR.
  replace (- x * IZR unit_ - - IZR (fst a))%R with (- (x * IZR unit_ - IZR (fst a)))%R by ring. rewrite Rabs_Ropp. exact H1.
Qed.
Lemma div_bounds n d : 0 < d -> (IZR (n / d) <= IZR n / IZR d < IZR (n / d) + 1)%R.
Proof.
  intros Hd. assert (D : (0 < IZR d)%R) by (apply IZR_lt; exact Hd).
  pose proof (Z.mul_div_le n d Hd) as A. pose proof (Z.mul_succ_div_gt n d Hd) as B.
  apply IZR_le in A. apply IZR_lt in B. rewrite mult_IZR in A, B. rewrite succ_IZR in B. split.
  - apply Rmult_le_reg_r with (IZR d); [exact D|]. unfold Rdiv. rewrite Rmult_assoc, Rinv_l by lra. lra.
  - apply Rmult_lt_reg_r with (IZR d); [exact D|]. unfold Rdiv. rewrite Rmult_assoc, Rinv_l by lra. lra.
Qed.
Lemma inb_lit n d : 0 < d -> inb (blit n d) (IZR n / IZR d).
Proof.
  intros Hd. unfold inb, blit. cbn [fst snd]. pose proof (div_bounds (n * unit_) d Hd) as H. rewrite mult_IZR in H.
  assert (D : (0 < IZR d)%R) by (apply IZR_lt; exact Hd).
  replace (IZR n * IZR unit_ / IZR d)%R with (IZR n / IZR d * IZR unit_)%R in H by (field; lra).
  destruct (Z.eqb_spec ((n * unit_) mod d) 0) as [E|_]; [|apply Rabs_le; split; lra].
  pose proof (Z.div_mod (n * unit_) d ltac:(lia)) as G. rewrite E, Z.add_0_r in G. apply (f_equal IZR) in G. rewrite !mult_IZR in G.
  replace (IZR n / IZR d * IZR unit_)%R with (IZR (n * unit_ / d)); [rewrite Rminus_diag_eq by reflexivity; rewrite Rabs_R0; lra|].
  apply Rmult_eq_reg_l with (IZR d); [|lra]. rewrite <- G. field. lra.
Qed.
Lemma inb_zero a x : bzero a = true -> inb a x -> x = 0%R.
Proof.
  unfold bzero, inb. rewrite andb_true_iff, !Z.eqb_eq. intros [-> ->] H. pose proof unit_pos as U. rewrite Rminus_0_r in H.
  assert (E : (x * IZR unit_ = 0)%R). { unfold Rabs in H. destruct (Rcase_abs _) in H; lra. }
  apply Rmult_integral in E. destruct E; [assumption|lra].
Qed.
Lemma inb_mul a b x y : inb a x -> inb b y -> inb (bmul a b) (x * y).
Proof.
  intros H1 H2. unfold bmul. destruct (bzero a || bzero b) eqn:BZ.
  { assert (E : (x * y = 0)%R).
    { apply orb_true_iff in BZ. destruct BZ as [B|B]; [rewrite (inb_zero _ _ B H1)|rewrite (inb_zero _ _ B H2)]; ring. }
    rewrite E. unfold inb. cbn [fst snd]. rewrite Rmult_0_l, Rminus_0_r, Rabs_R0. lra. }
  clear BZ. rewrite !Z.shiftr_div_pow2 by lia. change (2 ^ 80) with unit_. pose proof (inb_e _ _ H1) as E1. pose proof (inb_e _ _ H2) as E2. unfold inb in *. cbn [fst snd].
  pose proof unit_pos as U.
  set (p := (x * IZR unit_ - IZR (fst a))%R) in *. set (q := (y * IZR unit_ - IZR (fst b))%R) in *.
  pose proof (div_bounds (fst a * fst b) unit_ ltac:(reflexivity)) as A. rewrite mult_IZR in A.
  pose proof (div_bounds (Z.abs (fst a) * snd b + Z.abs (fst b) * snd a + snd a * snd b) unit_ ltac:(reflexivity)) as B.
  rewrite !plus_IZR, !mult_IZR, !abs_IZR in B. rewrite plus_IZR.
  set (E := (Rabs (IZR (fst a)) * IZR (snd b) + Rabs (IZR (fst b)) * IZR (snd a) + IZR (snd a) * IZR (snd b))%R) in *.
  assert (Ex : (x * y * IZR unit_ = (IZR (fst a) * IZR (fst b)) / IZR unit_ + (IZR (fst a) * q + IZR (fst b) * p + p * q) / IZR unit_)%R)
    by (unfold p, q; field; lra).
  assert (G : (Rabs ((IZR (fst a) * q + IZR (fst b) * p + p * q) / IZR unit_) <= E / IZR unit_)%R).
  { unfold Rdiv. rewrite Rabs_mult. rewrite (Rabs_pos_eq (/ IZR unit_)) by (left; apply Rinv_0_lt_compat; exact U).
    apply Rmult_le_compat_r; [left; apply Rinv_0_lt_compat; exact U|]. unfold E.
    eapply Rle_trans; [apply Rabs_triang|]. apply Rplus_le_compat.
    - eapply Rle_trans; [apply Rabs_triang|]. rewrite !Rabs_mult.
      apply Rplus_le_compat; apply Rmult_le_compat_l; try apply Rabs_pos; assumption.
    - rewrite Rabs_mult. apply Rmult_le_compat; try apply Rabs_pos; assumption. }
  rewrite Ex. revert A B G. generalize ((IZR (fst a) * q + IZR (fst b) * p + p * q) / IZR unit_)%R.
  generalize (IZR (fst a) * IZR (fst b) / IZR unit_)%R. generalize (E / IZR unit_)%R. clear. intros r r0 r1 A B G.
  apply Rabs_le. unfold Rabs in G. destruct (Rcase_abs r1); lra.
Qed.
Lemma inb_widen a e x y : inb a x -> (Rabs (y - x) * IZR unit_ <= IZR e)%R -> inb (bwiden a e) y.
Proof.
  unfold inb, bwiden. cbn [fst snd]. intros H1 H2. rewrite plus_IZR. pose proof unit_pos as U.
  replace (y * IZR unit_ - IZR (fst a))%R with ((x * IZR unit_ - IZR (fst a)) + (y - x) * IZR unit_)%R by ring.
  eapply Rle_trans; [apply Rabs_triang|]. rewrite (Rabs_mult (y - x)), (Rabs_pos_eq (IZR unit_)) by lra. lra.
Qed.
Lemma inb_hull a b x y r : inb a x -> inb b y -> (x <= r <= y)%R -> inb (bhull a b) r.
Proof.
  unfold inb, bhull. cbn [fst snd]. intros H1 H2 H3. pose proof unit_pos as U.
  pose proof (div_bounds (fst a - snd a + fst b + snd b) 2 ltac:(reflexivity)) as A.
  pose proof (div_bounds (fst b + snd b - fst a + snd a) 2 ltac:(reflexivity)) as B.
  repeat first [rewrite plus_IZR in A | rewrite minus_IZR in A]. repeat first [rewrite plus_IZR in B | rewrite minus_IZR in B]. rewrite plus_IZR.
  assert (L : (IZR (fst a) - IZR (snd a) <= r * IZR unit_)%R).
  { assert (x * IZR unit_ <= r * IZR unit_)%R by (apply Rmult_le_compat_r; lra). unfold Rabs in H1. destruct (Rcase_abs _); lra. }
  assert (M : (r * IZR unit_ <= IZR (fst b) + IZR (snd b))%R).
  { assert (r * IZR unit_ <= y * IZR unit_)%R by (apply Rmult_le_compat_r; lra). unfold Rabs in H2. destruct (Rcase_abs (y * _ - _)); lra. }
  apply Rabs_le. split; lra.
Qed.

(** Finite sums. *)
Fixpoint bsum (f : nat -> ball) (n : nat) : ball := match n with O => f O | S m => badd (bsum f m) (f n) end.
Lemma inb_sum f g n : (forall i, inb (f i) (g i)) -> inb (bsum f n) (sum_f_R0 g n).
Proof. intros H. induction n as [|n IH]; cbn [bsum sum_f_R0]; [apply H|]. apply inb_add; [exact IH|apply H]. Qed.

(** Sign (-1)^i. *)
Definition bsgn (i : nat) (b : ball) : ball := if Nat.even i then b else bneg b.
Lemma inb_sgn i b x : inb b x -> inb (bsgn i b) ((-1) ^ i * x).
Proof.
  intros H. unfold bsgn. destruct (Nat.even i) eqn:E.
  - apply Nat.even_spec in E. destruct E as [k ->]. rewrite pow_1_even, Rmult_1_l. exact H.
  - assert (O : Nat.odd i = true) by (unfold Nat.odd; rewrite E; reflexivity). apply Nat.odd_spec in O. destruct O as [k ->].
    replace (2 * k + 1)%nat with (S (2 * k)) by lia. rewrite pow_1_odd. replace (-1 * x)%R with (- x)%R by ring. apply inb_neg. exact H.
Qed.

(** PI by Machin's formula. *)
Definition bat (q : Z) (i : nat) : ball := blit 1 (q ^ Z.of_nat (2 * i + 1) * Z.of_nat (2 * i + 1)).
Lemma inb_at q i : 0 < q -> inb (bat q i) (Ratan_seq (/ IZR q) i).
Proof.
  intros Hq. unfold bat, Ratan_seq. set (m := (2 * i + 1)%nat).
  assert (P : 0 < q ^ Z.of_nat m) by (apply Z.pow_pos_nonneg; lia).
  replace ((/ IZR q) ^ m / INR m)%R with (IZR 1 / IZR (q ^ Z.of_nat m * Z.of_nat m))%R; [apply inb_lit; unfold m in *; lia|].
  assert (Q : (0 < IZR q)%R) by (apply IZR_lt; exact Hq).
  rewrite mult_IZR, <- INR_IZR_INZ, <- pow_IZR, pow_inv. field. split; [apply pow_nonzero; lra|apply not_0_INR; unfold m; lia].
Qed.
Definition btg (i : nat) : ball := bsgn i (badd (bmul (blit 2 1) (bat 3 i)) (bat 7 i)).
Lemma inb_tg i : inb (btg i) (tg_alt PI_2_3_7_tg i).
Proof.
  unfold btg, tg_alt. apply inb_sgn. unfold PI_2_3_7_tg. apply inb_add; [|apply (inb_at 7); lia].
  apply inb_mul; [|apply (inb_at 3); lia]. replace 2%R with (IZR 2 / IZR 1)%R by field. apply inb_lit. lia.
Qed.
Definition bPI4 : ball := bhull (bsum btg 29) (bsum btg 28).
Lemma inb_PI4 : inb bPI4 (PI / 4).
Proof.
  unfold bPI4. eapply inb_hull; [apply inb_sum; exact inb_tg|apply inb_sum; exact inb_tg|]. exact (PI_2_3_7_ineq 14).
Qed.
(** [vm_compute in bPI4], written out. *)
Definition bPI4v : ball := Eval vm_compute in bPI4.
Lemma inb_PI4v : inb bPI4v (PI / 4).
Proof. replace bPI4v with bPI4 by (vm_compute; reflexivity). exact inb_PI4. Qed.
Definition bPI : ball := bmul (blit 4 1) bPI4v.
Lemma inb_PI : inb bPI PI.
Proof.
  replace PI with (IZR 4 / IZR 1 * (PI / 4))%R by field. apply inb_mul; [apply inb_lit; lia|exact inb_PI4v].
Qed.

(** Taylor sums of cos and sin. *)
Fixpoint bpow (b : ball) (n : nat) : ball := match n with O => blit 1 1 | S m => bmul b (bpow b m) end.
Lemma inb_one : inb (blit 1 1) 1. Proof. replace 1%R with (IZR 1 / IZR 1)%R by field. apply inb_lit. lia. Qed.
Lemma inb_pow b x n : inb b x -> inb (bpow b n) (x ^ n).
Proof. intros H. induction n as [|n IH]; cbn [bpow pow]; [exact inb_one|apply inb_mul; assumption]. Qed.
Fixpoint zfact (n : nat) : Z := match n with O => 1 | S m => Z.of_nat n * zfact m end.
Lemma zfact_ok n : zfact n = Z.of_nat (fact n).
Proof. induction n as [|n IH]; [reflexivity|]. cbn [zfact]. rewrite IH, <- Nat2Z.inj_mul. reflexivity. Qed.
Definition bterm (b : ball) (m i : nat) : ball := bsgn i (bmul (bpow b m) (blit 1 (zfact m))).
Lemma inb_term b x m i : inb b x -> inb (bterm b m i) ((-1) ^ i * (x ^ m / INR (fact m))).
Proof.
  intros H. apply inb_sgn. unfold Rdiv. apply inb_mul; [apply inb_pow; exact H|].
  replace (/ INR (fact m))%R with (IZR 1 / IZR (zfact m))%R by (rewrite zfact_ok, <- INR_IZR_INZ; field; apply INR_fact_neq_0).
  apply inb_lit. rewrite zfact_ok. pose proof (lt_O_fact m). lia.
Qed.
Definition bcos (b : ball) : ball := bhull (bsum (fun i => bterm b (2 * i) i) 19) (bsum (fun i => bterm b (2 * i) i) 20).
Definition bsin (b : ball) : ball := bhull (bsum (fun i => bterm b (2 * i + 1) i) 19) (bsum (fun i => bterm b (2 * i + 1) i) 20).
Lemma inb_cos b x : inb b x -> (-2 <= x <= 2)%R -> inb (bcos b) (cos x).
Proof.
  intros H X. unfold bcos. eapply inb_hull with (x := cos_approx x 19) (y := cos_approx x 20).
  - unfold cos_approx. apply inb_sum. intros i. unfold cos_term. apply inb_term. exact H.
  - unfold cos_approx. apply inb_sum. intros i. unfold cos_term. apply inb_term. exact H.
  - exact (pre_cos_bound x 9 (proj1 X) (proj2 X)).
Qed.
Lemma inb_sin b x : inb b x -> (0 <= x <= 4)%R -> inb (bsin b) (sin x).
Proof.
  intros H X. unfold bsin. eapply inb_hull with (x := sin_approx x 19) (y := sin_approx x 20).
  - unfold sin_approx. apply inb_sum. intros i. unfold sin_term. apply inb_term. exact H.
  - unfold sin_approx. apply inb_sum. intros i. unfold sin_term. apply inb_term. exact H.
  - exact (pre_sin_bound x 9 (proj1 X) (proj2 X)).
Qed.

(** cos and sin of 2 PI k / N, k = 0 .. N-1, by angle addition. *)
Definition angle (N k : Z) : R := (2 * PI * IZR k / IZR N)%R.
Fixpoint rot (c1 s1 c s : ball) (n : nat) : list (ball * ball) :=
  match n with
  | O => []
  | S m => (c, s) :: rot c1 s1 (badd (bmul c c1) (bneg (bmul s s1))) (badd (bmul s c1) (bmul c s1)) m
  end.
Definition trig_table (N : Z) : list (ball * ball) :=
  let b := bmul (blit 2 N) bPI in rot (bcos b) (bsin b) (blit 1 1) (blit 0 1) (Z.to_nat N).
Lemma rot_ok N c1 s1 : 0 < N -> inb c1 (cos (angle N 1)) -> inb s1 (sin (angle N 1)) ->
  forall n c s k0, inb c (cos (angle N k0)) -> inb s (sin (angle N k0)) ->
  forall i d, (i < n)%nat -> inb (fst (nth i (rot c1 s1 c s n) d)) (cos (angle N (k0 + Z.of_nat i))) /\
    inb (snd (nth i (rot c1 s1 c s n) d)) (sin (angle N (k0 + Z.of_nat i))).
Proof.
  intros HN H1 H2. induction n as [|n IH]; intros c s k0 Hc Hs i d Hi; [lia|]. cbn [rot]. destruct i as [|i].
  - cbn [nth fst snd]. rewrite Z.add_0_r. split; assumption.
  - cbn [nth]. replace (k0 + Z.of_nat (S i)) with ((k0 + 1) + Z.of_nat i) by lia. apply IH; [| |lia].
    + replace (angle N (k0 + 1)) with (angle N k0 + angle N 1)%R by (unfold angle; rewrite plus_IZR; field; apply not_0_IZR; lia).
      rewrite cos_plus. unfold Rminus. apply inb_add; [apply inb_mul; assumption|apply inb_neg; apply inb_mul; assumption].
    + replace (angle N (k0 + 1)) with (angle N k0 + angle N 1)%R by (unfold angle; rewrite plus_IZR; field; apply not_0_IZR; lia).
      rewrite sin_plus. apply inb_add; apply inb_mul; assumption.
Qed.
Lemma trig_ok N k d : 8 <= N -> 0 <= k < N ->
  inb (fst (nth (Z.to_nat k) (trig_table N) d)) (cos (angle N k)) /\
  inb (snd (nth (Z.to_nat k) (trig_table N) d)) (sin (angle N k)).
Proof.
  intros HN Hk. unfold trig_table. cbv zeta.
  assert (HR : (8 <= IZR N)%R) by (apply IZR_le; exact HN).
  assert (B : inb (bmul (blit 2 N) bPI) (angle N 1)).
  { unfold angle. replace (2 * PI * 1 / IZR N)%R with (IZR 2 / IZR N * PI)%R by (field; lra). apply inb_mul; [apply inb_lit; lia|exact inb_PI]. }
  assert (A : (0 <= angle N 1 <= 1)%R).
  { unfold angle. pose proof PI_RGT_0. pose proof PI_4. split.
    - unfold Rdiv. apply Rmult_le_pos; [lra|]. left. apply Rinv_0_lt_compat. lra.
    - apply Rmult_le_reg_r with (IZR N); [lra|]. unfold Rdiv. rewrite Rmult_assoc, Rinv_l by lra. lra. }
  pose proof (rot_ok N (bcos (bmul (blit 2 N) bPI)) (bsin (bmul (blit 2 N) bPI)) ltac:(lia)
    (inb_cos _ _ B ltac:(lra)) (inb_sin _ _ B ltac:(lra)) (Z.to_nat N) (blit 1 1) (blit 0 1) 0) as H.
  assert (Z0 : angle N 0 = 0%R) by (unfold angle; field; lra).
  rewrite Z0, cos_0, sin_0 in H. specialize (H inb_one). 
  assert (I0 : inb (blit 0 1) 0) by (replace 0%R with (IZR 0 / IZR 1)%R by field; apply inb_lit; lia).
  specialize (H I0 (Z.to_nat k) d ltac:(lia)). rewrite Z2Nat.id in H by lia. exact H.
Qed.

(** sqrt 2 *)
Definition bsqrt2 : ball := Eval vm_compute in (Z.sqrt (2 * unit_ * unit_), 1).
Lemma inb_sqrt2 : inb bsqrt2 (sqrt 2).
Proof.
  replace bsqrt2 with (Z.sqrt (2 * unit_ * unit_), 1) by (vm_compute; reflexivity).
  unfold inb. cbn [fst snd]. pose proof (Z.sqrt_spec (2 * unit_ * unit_) ltac:(discriminate)) as [A B].
  set (z := Z.sqrt (2 * unit_ * unit_)) in *. assert (Z0 : 0 <= z) by apply Z.sqrt_nonneg.
  apply IZR_le in A. apply IZR_lt in B. apply IZR_le in Z0. rewrite !mult_IZR in A, B. rewrite succ_IZR in B. pose proof unit_pos as U.
  pose proof (sqrt_sqrt 2 ltac:(lra)) as S2. pose proof (sqrt_pos 2) as SP.
  set (w := (sqrt 2 * IZR unit_)%R). assert (W0 : (0 <= w)%R) by (unfold w; apply Rmult_le_pos; lra).
  assert (W : (w * w = 2 * IZR unit_ * IZR unit_)%R).
  { unfold w. replace (sqrt 2 * IZR unit_ * (sqrt 2 * IZR unit_))%R with (sqrt 2 * sqrt 2 * IZR unit_ * IZR unit_)%R by ring. rewrite S2. reflexivity. }
  rewrite <- W in A, B. apply Rabs_le. split.
  - assert (IZR z <= w)%R by nra. lra.
  - assert (w < IZR z + 1)%R by nra. lra.
Qed.
