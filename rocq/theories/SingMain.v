(** The tables of the code are the integrals of the specification when the
    upward recurrence is used. *)
From Coq Require Import ZArith Reals Lra Lia Bool.
From Coquelicot Require Import Coquelicot.
From Verif Require Import Base BaseLemmas SingModel SingSpec SingProofs.
Open Scope R_scope.

Lemma form_quad a b2 c t :
  form_plus a b2 c t = (a + b2 + c) * t * t + 2 * (c - a) * t + (a - b2 + c).
Proof. unfold form_plus. ring. Qed.
Lemma form_quad_m a b2 c t :
  form_minus a b2 c t = (a - b2 + c) * t * t + 2 * (c - a) * t + (a + b2 + c).
Proof. unfold form_minus, form_plus. ring. Qed.

Lemma is_T_ext q q' l v : (forall t, q t = q' t) -> is_T q l v -> is_T q' l v.
Proof. intros H. apply is_RInt_ext. intros t _. rewrite H. reflexivity. Qed.
Lemma is_S_ext q q' r r' l v : (forall t, q t = q' t) -> (forall t, r t = r' t) ->
  is_S q r l v -> is_S q' r' l v.
Proof. intros H H'. apply is_RInt_ext. intros t _. rewrite H, H'. reflexivity. Qed.

Lemma sqrt_four x : 0 <= x -> 2 * sqrt x = sqrt (4 * x).
Proof. intros. rewrite sqrt_mult by lra. replace 4 with (2 * 2) by ring. rewrite sqrt_square by lra. reflexivity. Qed.

Section ONE.
Variables a b2 c : R.
Hypothesis Hreg : regular_metric a b2 c.
Let A := a + b2 + c.
Let B := a - b2 + c.
Let d := c - a.

Lemma one_q t : 0 < A * t * t + 2 * d * t + B.
Proof. unfold A, B, d. rewrite <- form_quad. apply form_plus_pos. exact Hreg. Qed.
Lemma one_A : 0 < A.
Proof. apply regular_ap, Hreg. Qed.
Lemma one_D : 0 < A * B - d * d.
Proof. destruct Hreg as (Ha & Hc & Hb). unfold A, B, d.
  replace ((a + b2 + c) * (a - b2 + c) - (c - a) * (c - a)) with (4 * a * c - b2 * b2) by ring. lra. Qed.
Lemma one_sc : 2 * sqrt c = sqrt (A * 1 * 1 + 2 * d * 1 + B).
Proof. destruct Hreg as (Ha & Hc & Hb). rewrite sqrt_four by lra. f_equal. unfold A, B, d. ring. Qed.
Lemma one_sa : 2 * sqrt a = sqrt (A * (-1) * (-1) + 2 * d * (-1) + B).
Proof. destruct Hreg as (Ha & Hc & Hb). rewrite sqrt_four by lra. f_equal. unfold A, B, d. ring. Qed.
Lemma one_zero : t_zero A d (2 * sqrt c) (2 * sqrt a) = TI A B d 0.
Proof. unfold t_zero. rewrite (TI_zero A B d one_q one_A one_D). rewrite one_sc, one_sa. reflexivity. Qed.

Lemma one_forward kL T : (0 <= kL)%Z -> use_backward A B kL = false ->
  forall l, (0 <= l <= kL)%Z -> t_table A B d (2 * sqrt c) (2 * sqrt a) kL T l = TI A B d (Z.to_nat l).
Proof.
  intros Hk Hb l Hl. unfold t_table. rewrite Hb.
  apply (forward_TI A B d one_q one_A); [apply one_sc|apply one_sa|assumption| |assumption].
  rewrite upd_eq. apply one_zero.
Qed.

Lemma one_T kL T : (0 <= kL)%Z -> use_backward A B kL = false ->
  forall l, (0 <= l <= kL)%Z ->
    is_T (form_plus a b2 c) (Z.to_nat l) (t_table A B d (2 * sqrt c) (2 * sqrt a) kL T l).
Proof.
  intros Hk Hb l Hl. rewrite one_forward by assumption.
  eapply is_T_ext; [|apply (TI_is A B d one_q)]. intros t. symmetry. apply form_quad.
Qed.

Lemma one_S A' B' C' T kL Sl : (0 <= kL)%Z ->
  (forall l, (0 <= l <= kL)%Z -> is_T (form_plus a b2 c) (Z.to_nat l) (T l)) ->
  forall l, (0 <= l <= kL)%Z ->
    is_S (form_plus a b2 c) (form_plus A' B' C') (Z.to_nat l)
      (s_table (r1_of A B d (A' + B' + C') (A' - B' + C') (C' - A'))
               (r0_of A B d (A' + B' + C') (A' - B' + C') (C' - A'))
               (ra1_of A (A' + B' + C')) (2 * sqrt c) (2 * sqrt a) T kL Sl l).
Proof.
  intros Hk HT l Hl.
  eapply is_S_ext; [| |apply (s_table_S A B d one_q _ _ one_sc one_sa)].
  - intros t. symmetry. apply form_quad.
  - intros t. symmetry. apply form_quad.
  - assumption.
  - intros t. cbv beta. pose proof one_A as HA. pose proof one_D as HD.
    unfold r1_of, r0_of, ra1_of. field. lra.
  - intros i Hi. pose proof (HT i Hi) as Hi'. pose proof (TI_is A B d one_q (Z.to_nat i)) as Ht.
    eapply is_T_ext in Ht; [|intros t; symmetry; apply form_quad].
    rewrite <- (is_RInt_unique _ _ _ _ Hi'). exact (is_RInt_unique _ _ _ _ Ht).
  - assumption.
Qed.
End ONE.

Definition integrals_forward_stmt : Prop := forall a b2 c mf nf T,
  regular_metric a b2 c -> (0 <= mf)%Z -> (0 <= nf)%Z ->
  (backward_p a b2 c mf nf = false -> forall l, (Z.of_nat l <= mf + nf)%Z ->
     is_T (form_plus a b2 c) l (tlp a b2 c mf nf T (Z.of_nat l))) /\
  (backward_m a b2 c mf nf = false -> forall l, (Z.of_nat l <= mf + nf)%Z ->
     is_T (form_minus a b2 c) l (tlm a b2 c mf nf T (Z.of_nat l))).

Lemma integrals_forward : integrals_forward_stmt.
Proof.
  intros a b2 c mf nf T Hreg Hm Hn. split; intros Hb l Hl.
  - pose proof (one_T a b2 c Hreg (mf + nf) T ltac:(lia) Hb (Z.of_nat l) ltac:(lia)) as H.
    rewrite Nat2Z.id in H. exact H.
  - pose proof (regular_opp _ _ _ Hreg) as Hr'.
    pose proof (one_T a (- b2) c Hr' (mf + nf) T ltac:(lia)) as H.
    unfold tlm, backward_m in *.
    replace (a + - b2 + c) with (a - b2 + c) in H by ring.
    replace (a - - b2 + c) with (a + b2 + c) in H by ring.
    specialize (H Hb (Z.of_nat l) ltac:(lia)). rewrite Nat2Z.id in H. exact H.
Qed.

Definition integrals_S_stmt : Prop := forall a b2 c A B2 C mf nf T Sl,
  regular_metric a b2 c -> (0 <= mf)%Z -> (0 <= nf)%Z ->
  ((forall l, (Z.of_nat l <= mf + nf)%Z -> is_T (form_plus a b2 c) l (T (Z.of_nat l))) ->
   forall l, (Z.of_nat l <= mf + nf)%Z ->
     is_S (form_plus a b2 c) (form_plus A B2 C) l (slp a b2 c A B2 C T mf nf Sl (Z.of_nat l))) /\
  ((forall l, (Z.of_nat l <= mf + nf)%Z -> is_T (form_minus a b2 c) l (T (Z.of_nat l))) ->
   forall l, (Z.of_nat l <= mf + nf)%Z ->
     is_S (form_minus a b2 c) (form_minus A B2 C) l (slm a b2 c A B2 C T mf nf Sl (Z.of_nat l))).

Lemma integrals_S : integrals_S_stmt.
Proof.
  intros a b2 c A B2 C mf nf T Sl Hreg Hm Hn. split; intros HT l Hl.
  - pose proof (one_S a b2 c Hreg A B2 C T (mf + nf) Sl ltac:(lia)) as H.
    assert (HT' : forall l, (0 <= l <= mf + nf)%Z -> is_T (form_plus a b2 c) (Z.to_nat l) (T l)).
    { intros i Hi. specialize (HT (Z.to_nat i) ltac:(lia)). rewrite Z2Nat.id in HT by lia. exact HT. }
    specialize (H HT' (Z.of_nat l) ltac:(lia)). rewrite Nat2Z.id in H. exact H.
  - pose proof (regular_opp _ _ _ Hreg) as Hr'.
    pose proof (one_S a (- b2) c Hr' A (- B2) C T (mf + nf) Sl ltac:(lia)) as H.
    assert (HT' : forall l, (0 <= l <= mf + nf)%Z -> is_T (form_plus a (- b2) c) (Z.to_nat l) (T l)).
    { intros i Hi. specialize (HT (Z.to_nat i) ltac:(lia)). rewrite Z2Nat.id in HT by lia. exact HT. }
    specialize (H HT' (Z.of_nat l) ltac:(lia)). rewrite Nat2Z.id in H.
    unfold slm. 
    replace (a + - b2 + c) with (a - b2 + c) in H by ring.
    replace (a - - b2 + c) with (a + b2 + c) in H by ring.
    replace (A + - B2 + C) with (A - B2 + C) in H by ring.
    replace (A - - B2 + C) with (A + B2 + C) in H by ring.
    exact H.
Qed.

Lemma forward_case : regular_metric 1 (1 / 2) (3 / 2) /\
  backward_p 1 (1 / 2) (3 / 2) 5 4 = false /\ backward_m 1 (1 / 2) (3 / 2) 5 4 = false.
Proof.
  split; [unfold regular_metric; lra|].
  assert (L : ln 2 <= 1).
  { pose proof (exp_ineq1_le 1) as E. rewrite <- (ln_exp 1). destruct (Req_dec 2 (exp 1)) as [<-|N]; [lra|].
    left. apply ln_increasing; lra. }
  split; unfold backward_p, backward_m, use_backward, Rgtb.
  - destruct (Rlt_dec (1 + 1 / 2 + 3 / 2) (1 - 1 / 2 + 3 / 2)); [lra|]. cbn [andb].
    unfold log_growth_threshold. match goal with |- context [Rlt_dec ?x ?y] => destruct (Rlt_dec x y) end; [lra|reflexivity].
  - destruct (Rlt_dec (1 - 1 / 2 + 3 / 2) (1 + 1 / 2 + 3 / 2)); [|lra].
    destruct (Rlt_dec 0 (1 - 1 / 2 + 3 / 2)); [|lra]. cbn [andb].
    assert (ln ((1 + 1 / 2 + 3 / 2) / (1 - 1 / 2 + 3 / 2)) <= ln 2) by (left; apply ln_increasing; lra).
    unfold log_growth_threshold. match goal with |- context [Rlt_dec ?x ?y] => destruct (Rlt_dec x y) end; [|reflexivity].
    change (IZR (5 + 4)) with 9 in *. lra.
Qed.
