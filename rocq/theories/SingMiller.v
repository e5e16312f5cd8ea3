(** The downward branch: an admissible metric and resolution for which the
    table differs from the integral by more than one part in a million. *)
From Coq Require Import ZArith Reals Lra Lia Bool.
From Coquelicot Require Import Coquelicot.
From Verif Require Import Base BaseLemmas SingModel SingSpec SingProofs SingMain.
Open Scope R_scope.

(** ** The downward sequence *)
Section DOWN.
Variables A B d sc sa : R.
Variable tail : nat.

Definition rhs_of (l : Z) : R := sc + (if (l mod 2 =? 0)%Z then -1 else 1) * sa.

(** The pair (T_hi, T_cur) after [i] passes. *)
Fixpoint vseq (i : nat) : R * R :=
  match i with
  | O => (0, / 10 ^ 300)
  | S i => let '(hi, cur) := vseq i in
           let l := (Z.of_nat tail - Z.of_nat i)%Z in
           (cur, (rhs_of l - IZR (2 * l + 1) * d * cur - IZR (l + 1) * A * hi) / (IZR l * B))
  end.
(** The value the loop has for T_l. *)
Definition useq (l : nat) : R := snd (vseq (tail - l)).

Lemma vseq_fst i : fst (vseq (S i)) = snd (vseq i).
Proof. cbn. destruct (vseq i). reflexivity. Qed.

Lemma useq_tail : useq tail = / 10 ^ 300.
Proof. unfold useq. rewrite Nat.sub_diag. reflexivity. Qed.

Lemma useq_step l : B <> 0 -> (1 <= l < tail)%nat ->
  INR l * B * useq (pred l) =
  rhs_of (Z.of_nat l) - INR (2 * l + 1) * d * useq l - INR (S l) * A * useq (S l).
Proof.
  intros HB Hl. unfold useq.
  replace (tail - pred l)%nat with (S (tail - l)) by lia.
  assert (E : fst (vseq (tail - l)) = snd (vseq (tail - S l))).
  { replace (tail - l)%nat with (S (tail - S l)) by lia. apply vseq_fst. }
  cbn [vseq]. destruct (vseq (tail - l)) as [hi cur]. cbn [fst snd] in E |- *. subst hi.
  replace (Z.of_nat tail - Z.of_nat (tail - l))%Z with (Z.of_nat l) by lia.
  rewrite !INR_IZR_INZ. replace (Z.of_nat (2 * l + 1)) with (2 * Z.of_nat l + 1)%Z by lia.
  replace (Z.of_nat (S l)) with (Z.of_nat l + 1)%Z by lia.
  assert (IZR (Z.of_nat l) <> 0) by (apply not_0_IZR; lia).
  field. split; assumption.
Qed.

Lemma down_useq kL T : (0 <= kL < Z.of_nat tail)%Z ->
  forall l, (0 <= l <= kL)%Z -> t_down A B d sc sa kL (Z.of_nat tail) T l = useq (Z.to_nat l).
Proof.
  intros Hk. unfold t_down.
  match goal with |- context [for_down (Z.of_nat tail) 1 ?b ?s] =>
    pose proof (for_down_ind (fun j st => let '(T', hi, cur) := st in
      (forall l, (j <= l <= kL)%Z -> (0 <= l)%Z -> (l < Z.of_nat tail)%Z -> T' l = useq (Z.to_nat l)) /\
      (hi, cur) = vseq (Z.to_nat (Z.of_nat tail - j))) b (Z.of_nat tail) 1%Z s) as Hind end.
  cbv beta iota zeta in Hind |- *.
  match goal with |- context [for_down (Z.of_nat tail) 1 ?b ?s] =>
    destruct (for_down (Z.of_nat tail) 1 b s) as [[T' hi] cur] end.
  destruct Hind as (H1 & _); [lia| | |intros l Hl; apply H1; lia].
  - split; [intros; lia|]. rewrite Z.sub_diag. reflexivity.
  - intros j [[T1 hi1] cur1] Hj (K1 & K2).
    assert (Ev : vseq (Z.to_nat (Z.of_nat tail - (j - 1)))
      = (cur1, (rhs_of j - IZR (2 * j + 1) * d * cur1 - IZR (j + 1) * A * hi1) / (IZR j * B))).
    { replace (Z.to_nat (Z.of_nat tail - (j - 1))) with (S (Z.to_nat (Z.of_nat tail - j))) by lia.
      cbn [vseq]. rewrite <- K2. rewrite Z2Nat.id by lia.
      replace (Z.of_nat tail - (Z.of_nat tail - j))%Z with j by lia. reflexivity. }
    split.
    + intros l Hl H0 Ht. destruct (Z.leb_spec (j - 1) kL) as [Hle|Hgt]; [|lia].
      destruct (Z.eq_dec l (j - 1)) as [->|N].
      * rewrite upd_eq. unfold useq.
        replace (tail - Z.to_nat (j - 1))%nat with (Z.to_nat (Z.of_nat tail - (j - 1))) by lia.
        rewrite Ev. reflexivity.
      * rewrite upd_neq by assumption. apply K1; lia.
    + rewrite Ev. reflexivity.
Qed.

Lemma backward_useq T0 kL T : (0 <= kL < Z.of_nat tail)%Z ->
  forall l, (0 <= l <= kL)%Z ->
    t_backward A B d sc sa T0 kL (Z.of_nat tail) T l = useq (Z.to_nat l) * (T0 / useq 0).
Proof.
  intros Hk. unfold t_backward. rewrite (down_useq kL T Hk 0) by lia. change (Z.to_nat 0) with 0%nat.
  set (W := t_down A B d sc sa kL (Z.of_nat tail) T).
  set (sl := T0 / useq 0).
  pose proof (for_up_ind (fun j T' => (forall l, (0 <= l < j)%Z -> T' l = W l * sl) /\
     (forall l, (j <= l)%Z -> T' l = W l)) (fun l T => upd T l (T l * sl)) 0%Z (kL + 1)%Z W) as H.
  cbv beta in H. destruct H as (H & _); [lia|split; [intros; lia|reflexivity]| |].
  - intros j t Hj (K1 & K2). split.
    + intros l Hl. destruct (Z.eq_dec l j) as [->|N].
      * rewrite upd_eq. rewrite K2 by lia. reflexivity.
      * rewrite upd_neq by assumption. apply K1. lia.
    + intros l Hl. rewrite upd_neq by lia. apply K2. lia.
  - intros l Hl. rewrite H by lia. unfold W. rewrite down_useq by assumption. reflexivity.
Qed.
End DOWN.

(** ** The metric a = c = 13/4, b2 = -3/2: q(t) = 5 t^2 + 8 *)
Definition T58 : nat -> R := TI 5 8 0.

Lemma q58_pos t : 0 < 5 * t * t + 2 * 0 * t + 8.
Proof. pose proof (Rle_0_sqr t) as H. unfold Rsqr in H. lra. Qed.

Lemma even_pow_int n : is_RInt (fun t : R => t ^ (2 * n)) (-1) 1 (2 / INR (2 * n + 1)).
Proof.
  set (k := (2 * n)%nat).
  assert (Hk : 0 < INR (k + 1)) by (apply lt_0_INR; lia).
  assert (I1 : is_RInt (fun t : R => t ^ k) (-1) 1
     (minus (1 ^ S k / INR (k + 1)) ((-1) ^ S k / INR (k + 1)))).
  { apply (is_RInt_derive (fun t => t ^ S k / INR (k + 1)) (fun t => t ^ k)).
    - intros t _. auto_derive; [exact I|]. replace (k + 1)%nat with (S k) in * by lia.
      change (match k with 0%nat => 1 | S _ => INR k + 1 end) with (INR (S k)). field. lra.
    - intros t _. apply (ex_derive_continuous (V := R_NormedModule)). auto_derive. exact I. }
  replace (2 / INR (k + 1)) with (minus (1 ^ S k / INR (k + 1)) ((-1) ^ S k / INR (k + 1))); [exact I1|].
  rewrite pow1. unfold k. cbn [pow]. rewrite pow_mult. replace ((-1) ^ 2) with 1 by ring. rewrite pow1.
  unfold minus, plus, opp; cbn -[INR Nat.mul Nat.add]. field. unfold k in Hk. lra.
Qed.

Lemma T58_bounds n : 2 / INR (2 * n + 1) / (361 / 100) <= T58 (2 * n) <= 2 / INR (2 * n + 1) / (28 / 10).
Proof.
  pose proof (TI_is 5 8 0 q58_pos (2 * n)) as HT. unfold is_T in HT. fold T58 in HT.
  pose proof (even_pow_int n) as HP.
  assert (Hp : forall t : R, 0 <= t ^ (2 * n)).
  { intros t. rewrite pow_mult. apply pow_le. pose proof (Rle_0_sqr t) as H. unfold Rsqr in H.
    replace (t ^ 2) with (t * t) by ring. exact H. }
  split.
  - pose proof (is_RInt_scal (V := R_NormedModule) _ _ _ (/ (361 / 100)) _ HP) as HS.
    replace (2 / INR (2 * n + 1) / (361 / 100)) with (scal (/ (361 / 100)) (2 / INR (2 * n + 1)))
      by (unfold scal; cbn -[INR Nat.mul Nat.add]; unfold mult; cbn -[INR Nat.mul Nat.add]; unfold Rdiv; ring).
    eapply (is_RInt_le _ _ (-1) 1); [lra|exact HS|exact HT|].
    intros t Ht. unfold scal; cbn -[INR Nat.mul Nat.add pow]; unfold mult; cbn -[INR Nat.mul Nat.add pow].
    unfold Rdiv at 2. rewrite Rmult_comm. apply Rmult_le_compat_l; [apply Hp|].
    apply Rinv_le_contravar; [apply sqrt_lt_R0, q58_pos|].
    rewrite <- (sqrt_square (361 / 100)) by lra. apply sqrt_le_1_alt. nra.
  - pose proof (is_RInt_scal (V := R_NormedModule) _ _ _ (/ (28 / 10)) _ HP) as HS.
    replace (2 / INR (2 * n + 1) / (28 / 10)) with (scal (/ (28 / 10)) (2 / INR (2 * n + 1)))
      by (unfold scal; cbn -[INR Nat.mul Nat.add]; unfold mult; cbn -[INR Nat.mul Nat.add]; unfold Rdiv; ring).
    eapply (is_RInt_le _ _ (-1) 1); [lra|exact HT|exact HS|].
    intros t Ht. unfold scal; cbn -[INR Nat.mul Nat.add pow]; unfold mult; cbn -[INR Nat.mul Nat.add pow].
    unfold Rdiv at 1. rewrite (Rmult_comm (/ (28 / 10))). apply Rmult_le_compat_l; [apply Hp|].
    apply Rinv_le_contravar; [lra|].
    rewrite <- (sqrt_square (28 / 10)) by lra. apply sqrt_le_1_alt. nra.
Qed.

(** The error of the downward sequence. *)
Definition U58 : nat -> R := useq 5 8 0 (2 * sqrt (13 / 4)) (2 * sqrt (13 / 4)) 100.
Definition E58 (l : nat) : R := U58 l - T58 l.

Lemma reg58 : regular_metric (13 / 4) (- (3 / 2)) (13 / 4).
Proof. unfold regular_metric. lra. Qed.

Lemma E58_step j : (2 * j + 2 <= 100)%nat ->
  E58 (2 * j) = - (INR (2 * j + 2) / INR (2 * j + 1) * (5 / 8)) * E58 (2 * j + 2).
Proof.
  intros Hj. set (l := (2 * j + 1)%nat).
  assert (Hl : 0 < INR l) by (apply lt_0_INR; unfold l; lia).
  pose proof (useq_step 5 8 0 (2 * sqrt (13 / 4)) (2 * sqrt (13 / 4)) 100 l ltac:(lra) ltac:(unfold l; lia)) as H1.
  pose proof (TI_rec 5 8 0 q58_pos l ltac:(unfold l; lia)) as H2.
  fold U58 in H1. fold T58 in H2.
  replace (pred l) with (2 * j)%nat in * by (unfold l; lia).
  assert (Er : rhs_of (2 * sqrt (13 / 4)) (2 * sqrt (13 / 4)) (Z.of_nat l)
     = sqrt (5 * 1 * 1 + 2 * 0 * 1 + 8) - (-1) ^ l * sqrt (5 * -1 * -1 + 2 * 0 * -1 + 8)).
  { unfold rhs_of. replace (Z.of_nat l mod 2)%Z with 1%Z.
    2:{ unfold l. replace (Z.of_nat (2 * j + 1)) with (1 + Z.of_nat j * 2)%Z by lia.
        rewrite Z.mod_add by lia. reflexivity. }
    cbn [Z.eqb]. replace ((-1) ^ l) with (-1).
    2:{ unfold l. rewrite pow_add, pow_mult. replace ((-1) ^ 2) with 1 by ring. rewrite pow1. ring. }
    rewrite !sqrt_four by lra.
    replace (5 * 1 * 1 + 2 * 0 * 1 + 8) with (4 * (13 / 4)) by lra.
    replace (5 * -1 * -1 + 2 * 0 * -1 + 8) with (4 * (13 / 4)) by lra. ring. }
  rewrite Er, <- H2 in H1. unfold E58.
  replace (2 * j + 2)%nat with (S l) by (unfold l; lia).
  assert (H3 : INR l * 8 * (U58 (2 * j) - T58 (2 * j)) = - (INR (S l) * 5 * (U58 (S l) - T58 (S l)))) by lra.
  apply (Rmult_eq_reg_l (INR l * 8)); [|lra].
  rewrite H3. field. lra.
Qed.

Lemma ratio_bounds j : 1 <= INR (2 * j + 2) / INR (2 * j + 1) /\
  ((1 <= j)%nat -> INR (2 * j + 2) / INR (2 * j + 1) <= 4 / 3) /\ INR (2 * j + 2) / INR (2 * j + 1) <= 2.
Proof.
  assert (Hp : 0 < INR (2 * j + 1)) by (apply lt_0_INR; lia).
  assert (E : INR (2 * j + 2) = INR (2 * j + 1) + 1).
  { replace (2 * j + 2)%nat with (S (2 * j + 1)) by lia. apply S_INR. }
  rewrite E. replace ((INR (2 * j + 1) + 1) / INR (2 * j + 1)) with (1 + / INR (2 * j + 1)) by (field; lra).
  assert (0 < / INR (2 * j + 1)) by (apply Rinv_0_lt_compat; assumption).
  assert (1 <= INR (2 * j + 1)) by (change 1 with (INR 1); apply le_INR; lia).
  split; [lra|split].
  - intros Hj. assert (3 <= INR (2 * j + 1)) by (replace 3 with (INR 3) by (cbn; ring); apply le_INR; lia).
    assert (/ INR (2 * j + 1) <= / 3) by (apply Rinv_le_contravar; lra). lra.
  - assert (/ INR (2 * j + 1) <= / 1) by (apply Rinv_le_contravar; lra). lra.
Qed.

Lemma E58_abs j : (2 * j + 2 <= 100)%nat ->
  Rabs (E58 (2 * j)) = INR (2 * j + 2) / INR (2 * j + 1) * (5 / 8) * Rabs (E58 (2 * j + 2)).
Proof.
  intros Hj. rewrite E58_step by assumption. rewrite Rabs_mult, Rabs_Ropp. f_equal.
  apply Rabs_right. destruct (ratio_bounds j). nra.
Qed.

(** From 100 down to 100 - 2 i. *)
Lemma E58_lower i : (i <= 50)%nat -> (5 / 8) ^ i * Rabs (E58 100) <= Rabs (E58 (100 - 2 * i)).
Proof.
  induction i as [|i IH]; intros Hi; [rewrite Nat.mul_0_r, Nat.sub_0_r; cbn [pow]; lra|].
  specialize (IH ltac:(lia)).
  replace (100 - 2 * S i)%nat with (2 * (49 - i))%nat by lia. rewrite E58_abs by lia.
  replace (2 * (49 - i) + 2)%nat with (100 - 2 * i)%nat at 2 by lia.
  destruct (ratio_bounds (49 - i)) as (H1 & _).
  pose proof (Rabs_pos (E58 (100 - 2 * i))) as Hp. cbn [pow].
  set (x := INR (2 * (49 - i) + 2) / INR (2 * (49 - i) + 1)) in *. 
  set (z := Rabs (E58 (100 - 2 * i))) in *. assert (z <= x * z) by nra. nra.
Qed.
Lemma E58_upper i : (i <= 49)%nat -> Rabs (E58 (100 - 2 * i)) <= (5 / 6) ^ i * Rabs (E58 100).
Proof.
  induction i as [|i IH]; intros Hi; [rewrite Nat.mul_0_r, Nat.sub_0_r; cbn [pow]; lra|].
  specialize (IH ltac:(lia)).
  replace (100 - 2 * S i)%nat with (2 * (49 - i))%nat by lia. rewrite E58_abs by lia.
  replace (2 * (49 - i) + 2)%nat with (100 - 2 * i)%nat at 2 by lia.
  destruct (ratio_bounds (49 - i)) as (H1 & H2 & _). specialize (H2 ltac:(lia)).
  pose proof (Rabs_pos (E58 (100 - 2 * i))) as Hp. cbn [pow].
  set (x := INR (2 * (49 - i) + 2) / INR (2 * (49 - i) + 1)) in *. 
  set (z := Rabs (E58 (100 - 2 * i))) in *. assert (x * z <= 4 / 3 * z) by nra. nra.
Qed.
Lemma E58_upper50 i : (i <= 24)%nat -> Rabs (E58 (50 - 2 * i)) <= (5 / 6) ^ i * Rabs (E58 50).
Proof.
  induction i as [|i IH]; intros Hi; [rewrite Nat.mul_0_r, Nat.sub_0_r; cbn [pow]; lra|].
  specialize (IH ltac:(lia)).
  replace (50 - 2 * S i)%nat with (2 * (24 - i))%nat by lia. rewrite E58_abs by lia.
  replace (2 * (24 - i) + 2)%nat with (50 - 2 * i)%nat at 2 by lia.
  destruct (ratio_bounds (24 - i)) as (H1 & H2 & _). specialize (H2 ltac:(lia)).
  pose proof (Rabs_pos (E58 (50 - 2 * i))) as Hp. cbn [pow].
  set (x := INR (2 * (24 - i) + 2) / INR (2 * (24 - i) + 1)) in *.
  set (z := Rabs (E58 (50 - 2 * i))) in *. assert (x * z <= 4 / 3 * z) by nra. nra.
Qed.

Lemma small300 : 0 < / 10 ^ 300 <= 1 / 100000.
Proof.
  assert (H : 10 ^ 5 <= 10 ^ 300) by (apply Rle_pow; [lra|lia]).
  assert (0 < 10 ^ 5) by lra. split; [apply Rinv_0_lt_compat; lra|].
  replace (1 / 100000) with (/ 10 ^ 5) by (cbn; field). apply Rinv_le_contravar; lra.
Qed.

Lemma bounds58 :
  554 / 1000 <= T58 0 <= 1 /\ 0 < T58 50 <= 15 / 1000 /\ 5 / 1000 <= Rabs (E58 100) <= 1 / 100.
Proof.
  pose proof (T58_bounds 0) as B0. pose proof (T58_bounds 25) as B1. pose proof (T58_bounds 50) as B2.
  cbn [Nat.mul Nat.add] in B0, B1, B2. rewrite !INR_IZR_INZ in B0, B1, B2. cbn [Z.of_nat Pos.of_succ_nat Pos.succ] in B0, B1, B2.
  unfold E58, U58. rewrite useq_tail. pose proof small300 as Hs. set (eps := / 10 ^ 300) in *. clearbody eps.
  split; [lra|]. split; [lra|].
  rewrite Rabs_left by lra. lra.
Qed.

Lemma E58_0 : Rabs (E58 0) <= 2 / 100 * Rabs (E58 50) /\ 39 / 1000000000 <= Rabs (E58 50) <= 1 / 100.
Proof.
  destruct bounds58 as (_ & _ & H100).
  pose proof (E58_lower 25 ltac:(lia)) as L. pose proof (E58_upper 25 ltac:(lia)) as Up.
  pose proof (E58_upper50 24 ltac:(lia)) as V.
  pose proof (E58_abs 0 ltac:(lia)) as W. cbn [Nat.mul Nat.add] in W.
  change (100 - 2 * 25)%nat with 50%nat in *. change (50 - 2 * 24)%nat with 2%nat in V.
  rewrite !INR_IZR_INZ in W. cbn [Z.of_nat Pos.of_succ_nat Pos.succ] in W.
  assert (P1 : 78 / 10000000 <= (5 / 8) ^ 25) by (cbn [pow]; lra).
  assert (P2 : (5 / 6) ^ 25 <= 1) by (cbn [pow]; lra).
  assert (P3 : (5 / 6) ^ 24 <= 1 / 70) by (cbn [pow]; lra).
  pose proof (Rabs_pos (E58 50)) as Q1.
  set (x := Rabs (E58 50)) in *. set (y := Rabs (E58 100)) in *. set (z := Rabs (E58 2)) in *.
  set (p1 := (5 / 8) ^ 25) in *. set (p2 := (5 / 6) ^ 25) in *. set (p3 := (5 / 6) ^ 24) in *.
  clearbody x y z p1 p2 p3.
  split; [rewrite W; nra|nra].
Qed.

(** ** The logarithm threshold *)
Lemma ln_85 : 4608 / 10000 <= ln (8 / 5).
Proof.
  assert (H : exp (4608 / 10000) <= 8 / 5).
  { assert (E1 : exp (- (72 / 10000)) >= 9928 / 10000).
    { pose proof (exp_ineq1_le (- (72 / 10000))). lra. }
    assert (E2 : exp (- (4608 / 10000)) = exp (- (72 / 10000)) ^ 64).
    { replace (- (4608 / 10000)) with (INR 64 * - (72 / 10000)) by (rewrite INR_IZR_INZ; cbn [Z.of_nat Pos.of_succ_nat Pos.succ]; lra).
      generalize 64%nat. intros n. induction n as [|n IH]; [cbn [INR pow]; rewrite Rmult_0_l; apply exp_0|].
      rewrite S_INR, Rmult_plus_distr_r, Rmult_1_l, exp_plus, IH. cbn [pow]. ring. }
    assert (E3 : 5 / 8 <= exp (- (72 / 10000)) ^ 64).
    { apply Rle_trans with ((9928 / 10000) ^ 64).
      - cbn [pow]; lra.
      - apply pow_incr. lra. }
    rewrite <- E2, exp_Ropp in E3.
    pose proof (exp_pos (4608 / 10000)) as Hp.
    apply Rmult_le_reg_r with (/ exp (4608 / 10000)); [apply Rinv_0_lt_compat; assumption|].
    rewrite Rinv_r by lra. lra. }
  rewrite <- (ln_exp (4608 / 10000)). destruct H as [H|H].
  - left. apply ln_increasing; [apply exp_pos|assumption].
  - rewrite H. right. reflexivity.
Qed.

Lemma back58 : backward_p (13 / 4) (- (3 / 2)) (13 / 4) 25 25 = true.
Proof.
  unfold backward_p, use_backward.
  replace (13 / 4 + - (3 / 2) + 13 / 4) with 5 by lra.
  replace (13 / 4 - - (3 / 2) + 13 / 4) with 8 by lra.
  unfold Rgtb. destruct (Rlt_dec 5 8); [|lra]. destruct (Rlt_dec 0 5); [|lra]. cbn [andb].
  unfold log_growth_threshold. pose proof ln_85.
  match goal with |- context [Rlt_dec ?x ?y] => destruct (Rlt_dec x y) as [|N] end; [reflexivity|].
  exfalso. apply N. change (25 + 25)%Z with 50%Z. lra.
Qed.

Lemma U58_useq l : useq 5 8 0 (2 * sqrt (13 / 4)) (2 * sqrt (13 / 4)) 100 l = U58 l.
Proof. reflexivity. Qed.

Lemma bwd58 T0 T :
  t_backward 5 8 0 (2 * sqrt (13 / 4)) (2 * sqrt (13 / 4)) T0 50 (Z.of_nat 100) T (Z.of_nat 50)
  = U58 50 * (T0 / U58 0).
Proof. rewrite backward_useq by lia. rewrite Nat2Z.id, (U58_useq 50), (U58_useq 0). reflexivity. Qed.

Lemma table58 T : tlp (13 / 4) (- (3 / 2)) (13 / 4) 25 25 T (Z.of_nat 50) = U58 50 * (T58 0 / U58 0).
Proof.
  unfold tlp, t_table. pose proof back58 as Hb. unfold backward_p in Hb. rewrite Hb.
  pose proof (one_zero _ _ _ reg58) as Z0.
  replace (13 / 4 + - (3 / 2) + 13 / 4) with 5 in * by lra.
  replace (13 / 4 - - (3 / 2) + 13 / 4) with 8 in * by lra.
  replace (13 / 4 - 13 / 4) with 0 in * by lra.
  rewrite Z0. replace (25 + 25 + 50)%Z with (Z.of_nat 100) by lia.
  replace (25 + 25)%Z with 50%Z by lia. rewrite bwd58. reflexivity.
Qed.

Lemma value58 v : is_T (form_plus (13 / 4) (- (3 / 2)) (13 / 4)) 50 v -> v = T58 50.
Proof.
  intros Hv. eapply is_T_ext in Hv; [|intros t; apply form_quad].
  replace (13 / 4 + - (3 / 2) + 13 / 4) with 5 in Hv by lra.
  replace (13 / 4 - - (3 / 2) + 13 / 4) with 8 in Hv by lra.
  replace (13 / 4 - 13 / 4) with 0 in Hv by lra.
  unfold T58, TI. symmetry. apply (is_RInt_unique _ _ _ _ Hv).
Qed.

Lemma arith58 u0 u50 t0 t50 :
  554 / 1000 <= t0 <= 1 -> 0 < t50 <= 15 / 1000 ->
  Rabs (u0 - t0) <= 2 / 100 * Rabs (u50 - t50) ->
  39 / 1000000000 <= Rabs (u50 - t50) <= 1 / 100 ->
  / 10 ^ 6 * t50 < Rabs (u50 * (t0 / u0) - t50).
Proof.
  intros B0 B50 K0 K50.
  assert (Hu0 : 0 < u0 <= 2 * t0).
  { assert (H0 : Rabs (u0 - t0) <= 1 / 100) by lra. apply Rabs_le_between in H0. lra. }
  replace (u50 * (t0 / u0) - t50) with ((t0 * (u50 - t50) - t50 * (u0 - t0)) / u0) by (field; lra).
  unfold Rdiv. rewrite Rabs_mult, (Rabs_right (/ u0)) by (apply Rle_ge, Rlt_le, Rinv_0_lt_compat; lra).
  assert (L : t0 * Rabs (u50 - t50) - t50 * Rabs (u0 - t0) <= Rabs (t0 * (u50 - t50) - t50 * (u0 - t0))).
  { pose proof (Rabs_triang_inv (t0 * (u50 - t50)) (t50 * (u0 - t0))) as Q.
    rewrite !Rabs_mult in Q. rewrite (Rabs_right t0), (Rabs_right t50) in Q by lra. exact Q. }
  apply Rmult_lt_reg_r with u0; [lra|]. rewrite (Rmult_assoc (Rabs _)), Rinv_l, Rmult_1_r by lra.
  set (x := Rabs (u50 - t50)) in *. set (y := Rabs (u0 - t0)) in *.
  assert (/ 10 ^ 6 = 1 / 1000000) by (cbn; field). rewrite H.
  assert (t50 * y <= 15 / 1000 * (2 / 100 * x)).
  { apply Rle_trans with (15 / 1000 * y); [|lra]. apply Rmult_le_compat_r; [apply Rabs_pos|lra]. }
  assert (t50 * u0 <= 15 / 1000 * (2 * t0)) by (apply Rmult_le_compat; lra).
  assert (554 / 1000 * x <= t0 * x) by (apply Rmult_le_compat_r; lra).
  assert (1 / 1000000 * (t50 * u0) <= 3 / 100000000 * t0) by lra.
  assert (t0 * (39 / 1000000000) <= t0 * x) by (apply Rmult_le_compat_l; lra).
  lra.
Qed.

Lemma backward_error : exists a b2 c mf nf l,
  regular_metric a b2 c /\ (0 <= mf)%Z /\ (0 <= nf)%Z /\ (Z.of_nat l <= mf + nf)%Z /\
  forall T v, is_T (form_plus a b2 c) l v ->
    0 < v /\ / 10 ^ 6 * v < Rabs (tlp a b2 c mf nf T (Z.of_nat l) - v).
Proof.
  exists (13 / 4), (- (3 / 2)), (13 / 4), 25%Z, 25%Z, 50%nat.
  split; [apply reg58|]. split; [lia|]. split; [lia|]. split; [lia|].
  intros T v Hv. rewrite (value58 v Hv), table58.
  destruct bounds58 as (B0 & B50 & _). destruct E58_0 as (K0 & K50).
  split; [apply B50|]. apply arith58; assumption.
Qed.
