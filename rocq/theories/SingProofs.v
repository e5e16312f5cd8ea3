(** The integrals satisfy the recurrences of the code. *)
From Coq Require Import ZArith Reals Lra Lia Bool.
From Coquelicot Require Import Coquelicot.
From Verif Require Import Base BaseLemmas SingModel SingSpec.
Open Scope R_scope.

(** ** The quadratic form *)
Lemma form_plus_pos a b2 c t : regular_metric a b2 c -> 0 < form_plus a b2 c t.
Proof.
  intros (Ha & Hc & Hb). unfold form_plus.
  set (u := 1 - t). set (v := 1 + t).
  assert (Huv : u + v = 2) by (unfold u, v; ring).
  (* 4a q = (2a u - b2 v)^2 + (4ac - b2^2) v^2 *)
  assert (E : 4 * a * (a * u * u - b2 * u * v + c * v * v)
              = (2 * a * u - b2 * v) * (2 * a * u - b2 * v) + (4 * a * c - b2 * b2) * (v * v)) by ring.
  assert (0 < (2 * a * u - b2 * v) * (2 * a * u - b2 * v) + (4 * a * c - b2 * b2) * (v * v)).
  { destruct (Req_dec v 0) as [E0|N0].
    - rewrite E0 in *. assert (u = 2) by lra. subst u. rewrite H. nra.
    - assert (0 < v * v) by nra. pose proof (Rle_0_sqr (2 * a * u - b2 * v)) as Q. unfold Rsqr in Q.
      assert (0 < (4 * a * c - b2 * b2) * (v * v)) by (apply Rmult_lt_0_compat; lra). lra. }
  rewrite <- E in H. nra.
Qed.

Lemma regular_opp a b2 c : regular_metric a b2 c -> regular_metric a (- b2) c.
Proof. intros (Ha & Hc & Hb). repeat split; try assumption. nra. Qed.

Lemma regular_ap a b2 c : regular_metric a b2 c -> 0 < a + b2 + c.
Proof. intros (Ha & Hc & Hb). pose proof (Rle_0_sqr (a - c)) as Q. unfold Rsqr in Q.
  destruct (Rlt_le_dec 0 (a + b2 + c)) as [?|H]; [assumption|].
  assert (0 <= - b2 - (a + c)) by lra. nra. Qed.

Section QUAD.
Variables A B d : R.
Let q (t : R) := A * t * t + 2 * d * t + B.
Hypothesis Hq : forall t, 0 < q t.
Hypothesis HA : 0 < A.

Lemma q_sqrt t : sqrt (q t) * sqrt (q t) = q t.
Proof. apply sqrt_sqrt. left. apply Hq. Qed.
Lemma q_sqrt_pos t : 0 < sqrt (q t).
Proof. apply sqrt_lt_R0, Hq. Qed.

Lemma q_cont t : continuous q t.
Proof. apply (ex_derive_continuous (V := R_NormedModule)). unfold q. auto_derive. exact I. Qed.
Lemma sqrt_q_cont t : continuous (fun t => sqrt (q t)) t.
Proof. apply continuous_comp; [apply q_cont|]. apply continuous_sqrt. Qed.
Lemma pow_cont (l : nat) t : continuous (fun t => t ^ l) t.
Proof. apply (ex_derive_continuous (V := R_NormedModule)). auto_derive. exact I. Qed.

Lemma T_ex l : ex_RInt (fun t => t ^ l / sqrt (q t)) (-1) 1.
Proof.
  apply (ex_RInt_continuous (V := R_CompleteNormedModule)). intros t _. unfold Rdiv.
  apply (continuous_mult (K := R_AbsRing)); [apply pow_cont|].
  apply continuous_comp; [apply sqrt_q_cont|]. apply continuous_Rinv. pose proof (q_sqrt_pos t); lra.
Qed.

Definition TI (l : nat) : R := RInt (fun t => t ^ l / sqrt (q t)) (-1) 1.
Lemma TI_is l : is_T q l (TI l).
Proof. unfold is_T, TI. apply (RInt_correct (V := R_CompleteNormedModule)). apply T_ex. Qed.

(** d/dt (t^l sqrt q) *)
Lemma deriv_pow_sqrt l t :
  is_derive (fun t => t ^ l * sqrt (q t)) t
    (INR l * t ^ pred l * sqrt (q t) + t ^ l * (A * t + d) / sqrt (q t)).
Proof.
  unfold q. auto_derive.
  - apply Hq.
  - fold (q t). pose proof (q_sqrt_pos t). unfold q in *. field. lra.
Qed.

Lemma sqrt_as_div t : sqrt (q t) = q t / sqrt (q t).
Proof. pose proof (q_sqrt_pos t). rewrite <- (q_sqrt t) at 2. field. lra. Qed.

(** The recurrence for l >= 1. *)
Lemma TI_rec l : (1 <= l)%nat ->
  INR (S l) * A * TI (S l) + INR (2 * l + 1) * d * TI l + INR l * B * TI (pred l)
  = sqrt (q 1) - (-1) ^ l * sqrt (q (-1)).
Proof.
  intros Hl. destruct l as [|l]; [lia|]. cbn [pred].
  set (k := S l).
  assert (I1 : is_RInt (fun t => INR k * t ^ l * sqrt (q t) + t ^ k * (A * t + d) / sqrt (q t)) (-1) 1
                 (minus (1 ^ k * sqrt (q 1)) ((-1) ^ k * sqrt (q (-1))))).
  { apply (is_RInt_derive (fun t => t ^ k * sqrt (q t))
      (fun t => INR k * t ^ l * sqrt (q t) + t ^ k * (A * t + d) / sqrt (q t))).
    - intros t _. apply (deriv_pow_sqrt k t).
    - intros t _. apply (continuous_plus (V := R_NormedModule)).
      + apply (continuous_mult (K := R_AbsRing)); [|apply sqrt_q_cont].
        apply (continuous_mult (K := R_AbsRing)); [apply continuous_const|apply pow_cont].
      + unfold Rdiv. apply (continuous_mult (K := R_AbsRing)).
        * apply (continuous_mult (K := R_AbsRing)); [apply pow_cont|].
          apply (ex_derive_continuous (V := R_NormedModule)). auto_derive. exact I.
        * apply continuous_comp; [apply sqrt_q_cont|]. apply continuous_Rinv.
          pose proof (q_sqrt_pos t); lra. }
  assert (I2 : is_RInt (fun t => INR k * t ^ l * sqrt (q t) + t ^ k * (A * t + d) / sqrt (q t)) (-1) 1
                 (INR (S k) * A * TI (S k) + INR (2 * k + 1) * d * TI k + INR k * B * TI l)).
  { eapply is_RInt_ext; [|apply (is_RInt_plus (V := R_NormedModule));
      [apply (is_RInt_plus (V := R_NormedModule));
       [apply (is_RInt_scal (V := R_NormedModule)); apply (TI_is (S k))
       |apply (is_RInt_scal (V := R_NormedModule)); apply (TI_is k)]
      |apply (is_RInt_scal (V := R_NormedModule)); apply (TI_is l)]].
    intros t _. cbn -[INR Nat.mul pow].
    unfold plus, scal; cbn -[INR Nat.mul pow]; unfold mult; cbn -[INR Nat.mul pow].
    pose proof (q_sqrt_pos t) as Hs. pose proof (q_sqrt t) as Hs2.
    replace (t ^ S k) with (t * t * t ^ l) by (unfold k; cbn [pow]; ring).
    replace (t ^ k) with (t * t ^ l) by (unfold k; cbn [pow]; ring).
    replace (INR (S k)) with (INR k + 1) by (rewrite S_INR; reflexivity).
    replace (INR (2 * k + 1)) with (2 * INR k + 1) by (rewrite plus_INR, mult_INR; cbn [INR]; ring).
    set (s := sqrt (q t)) in *. apply (Rmult_eq_reg_r s); [|lra].
    transitivity (t ^ l * (INR k * (s * s) + t * (A * t + d))); [|field; lra].
    rewrite Hs2. unfold q. field. lra. }
  rewrite <- (is_RInt_unique _ _ _ _ I2). rewrite (is_RInt_unique _ _ _ _ I1).
  unfold minus, plus, opp; cbn -[pow]. rewrite pow1. ring.
Qed.

Lemma TI_rec0 : A * TI 1 + d * TI 0 = sqrt (q 1) - sqrt (q (-1)).
Proof.
  assert (I1 : is_RInt (fun t => (A * t + d) / sqrt (q t)) (-1) 1
                 (minus (sqrt (q 1)) (sqrt (q (-1))))).
  { apply (is_RInt_derive (fun t => sqrt (q t)) (fun t => (A * t + d) / sqrt (q t))).
    - intros t _. unfold q. auto_derive.
      + apply Hq.
      + fold (q t). pose proof (q_sqrt_pos t). unfold q in *. field. lra.
    - intros t _. unfold Rdiv. apply (continuous_mult (K := R_AbsRing)).
      + apply (ex_derive_continuous (V := R_NormedModule)). auto_derive. exact I.
      + apply continuous_comp; [apply sqrt_q_cont|]. apply continuous_Rinv.
          pose proof (q_sqrt_pos t); lra. }
  assert (I2 : is_RInt (fun t => (A * t + d) / sqrt (q t)) (-1) 1 (A * TI 1 + d * TI 0)).
  { eapply is_RInt_ext; [|apply (is_RInt_plus (V := R_NormedModule));
       [apply (is_RInt_scal (V := R_NormedModule)); apply (TI_is 1)
       |apply (is_RInt_scal (V := R_NormedModule)); apply (TI_is 0)]].
    intros t _. unfold plus, scal; cbn; unfold mult; cbn.
    pose proof (q_sqrt_pos t) as Hs. field. lra. }
  rewrite <- (is_RInt_unique _ _ _ _ I2). rewrite (is_RInt_unique _ _ _ _ I1). reflexivity.
Qed.

(** Both at once, in the code's shape: [T_prev] does not matter at l = 0. *)
Lemma TI_step l tprev : (l <> 0%nat -> tprev = TI (pred l)) ->
  TI (S l) = (sqrt (q 1) - (-1) ^ l * sqrt (q (-1))
              - INR (2 * l + 1) * d * TI l - INR l * B * tprev) / (A * INR (S l)).
Proof.
  intros Hp. destruct l as [|l].
  - pose proof TI_rec0 as E. cbn [INR Nat.mul Nat.add pow]. rewrite Rmult_1_l.
    rewrite <- E. field. lra.
  - rewrite Hp by discriminate. pose proof (TI_rec (S l) ltac:(lia)) as E.
    rewrite <- E. assert (INR (S (S l)) <> 0) by (apply not_0_INR; discriminate).
    field. split; [assumption|lra].
Qed.

(** T_0 in closed form. *)
Lemma TI_zero : 0 < A * B - d * d ->
  TI 0 = ln ((sqrt A * sqrt (q 1) + A + d) / (sqrt A * sqrt (q (-1)) - A + d)) / sqrt A.
Proof.
  intros HD.
  assert (HsA : 0 < sqrt A) by (apply sqrt_lt_R0; assumption).
  assert (HsA2 : sqrt A * sqrt A = A) by (apply sqrt_sqrt; lra).
  assert (Hpos : forall t, 0 < sqrt A * sqrt (q t) + A * t + d).
  { intros t. pose proof (q_sqrt_pos t) as Hs. pose proof (q_sqrt t) as Hs2.
    assert (0 < sqrt A * sqrt (q t)) by (apply Rmult_lt_0_compat; assumption).
    assert (E : (sqrt A * sqrt (q t)) * (sqrt A * sqrt (q t)) = A * q t).
    { transitivity ((sqrt A * sqrt A) * (sqrt (q t) * sqrt (q t))); [ring|]. rewrite HsA2, Hs2. reflexivity. }
    assert (A * q t = (A * t + d) * (A * t + d) + (A * B - d * d)) by (unfold q; ring).
    set (x := sqrt A * sqrt (q t)) in *. nra. }
  assert (I1 : is_RInt (fun t => t ^ 0 / sqrt (q t)) (-1) 1
     (minus (ln (sqrt A * sqrt (q 1) + A * 1 + d) / sqrt A)
            (ln (sqrt A * sqrt (q (-1)) + A * (-1) + d) / sqrt A))).
  { apply (is_RInt_derive (fun t => ln (sqrt A * sqrt (q t) + A * t + d) / sqrt A)
             (fun t => t ^ 0 / sqrt (q t))).
    - intros t _. pose proof (Hpos t) as Hp. pose proof (q_sqrt_pos t) as Hs.
      unfold q in *. auto_derive.
      + split; [apply Hq|]. split; [exact Hp|exact I].
      + set (s := sqrt (A * t * t + 2 * d * t + B)) in *. cbn [pow].
        set (r := sqrt A) in *.
        transitivity ((r * (A * t + d) / s + r * r) / (r * s + A * t + d) / r);
          [rewrite HsA2; field; lra|field; lra].
    - intros t _. unfold Rdiv. apply (continuous_mult (K := R_AbsRing)); [apply pow_cont|].
      apply continuous_comp; [apply sqrt_q_cont|]. apply continuous_Rinv.
      pose proof (q_sqrt_pos t); lra. }
  unfold TI. rewrite (is_RInt_unique _ _ _ _ I1).
  unfold minus, plus, opp; cbn. pose proof (Hpos 1) as P1. pose proof (Hpos (-1)) as P2.
  replace (sqrt A * sqrt (q 1) + A * 1 + d) with (sqrt A * sqrt (q 1) + A + d) in * by ring.
  replace (sqrt A * sqrt (q (-1)) + A * -1 + d) with (sqrt A * sqrt (q (-1)) - A + d) in * by ring.
  unfold Rdiv at 4. rewrite ln_mult; [|assumption|apply Rinv_0_lt_compat; assumption].
  rewrite ln_Rinv by assumption. field. lra.
Qed.

(** ** S_l *)
Section SINT.
Variables R1 R0 Ra1 : R.
Variable r : R -> R.
Hypothesis Hr : forall t, r t = (Ra1 - R1) * q t + (R1 * t + R0) * (A * t + d).

Lemma S_is l tprev : (l <> 0%nat -> tprev = TI (pred l)) ->
  is_S q r l ((R1 * INR l + Ra1) * TI l + R0 * INR l * tprev
              - (R0 + R1) / sqrt (q 1) + (-1) ^ l * (R0 - R1) / sqrt (q (-1))).
Proof.
  intros Hp. unfold is_S.
  set (F' := fun t => (INR l * t ^ pred l * (R1 * t + R0) + t ^ l * R1) / sqrt (q t)
                      - t ^ l * (R1 * t + R0) * (A * t + d) / (q t * sqrt (q t))).
  assert (I1 : is_RInt F' (-1) 1
     (minus (1 ^ l * (R1 * 1 + R0) / sqrt (q 1)) ((-1) ^ l * (R1 * (-1) + R0) / sqrt (q (-1))))).
  { apply (is_RInt_derive (fun t => t ^ l * (R1 * t + R0) / sqrt (q t)) F').
    - intros t _. unfold F'. pose proof (q_sqrt_pos t) as Hs. pose proof (q_sqrt t) as Hs2.
      pose proof (Hq t) as Hqt. unfold q in *. auto_derive.
      + split; [exact Hqt|]. split; [lra|exact I].
      + set (s := sqrt (A * t * t + 2 * d * t + B)) in *. rewrite <- Hs2. field. lra.
    - intros t _. unfold F'. apply (continuous_minus (V := R_NormedModule)).
      + unfold Rdiv. apply (continuous_mult (K := R_AbsRing)).
        * apply (ex_derive_continuous (V := R_NormedModule)). auto_derive. exact I.
        * apply continuous_comp; [apply sqrt_q_cont|]. apply continuous_Rinv.
          pose proof (q_sqrt_pos t); lra.
      + unfold Rdiv. apply (continuous_mult (K := R_AbsRing)).
        * apply (ex_derive_continuous (V := R_NormedModule)). auto_derive. exact I.
        * apply continuous_comp.
          -- apply (continuous_mult (K := R_AbsRing)); [apply q_cont|apply sqrt_q_cont].
          -- apply continuous_Rinv. pose proof (q_sqrt_pos t). pose proof (Hq t).
             apply Rgt_not_eq, Rmult_lt_0_compat; assumption. }
  assert (E0 : INR l * tprev = INR l * TI (pred l)).
  { destruct l; [cbn; ring|]. rewrite Hp by discriminate. reflexivity. }
  eapply is_RInt_ext with (f := fun t => plus (plus (scal (R1 * INR l + Ra1) (t ^ l / sqrt (q t)))
      (scal (R0 * INR l) (t ^ pred l / sqrt (q t)))) (scal (-1) (F' t))).
  - intros t _. unfold plus, scal; cbn -[INR pow]; unfold mult; cbn -[INR pow]. unfold F'.
    rewrite Hr. pose proof (q_sqrt_pos t) as Hs. pose proof (q_sqrt t) as Hs2.
    set (s := sqrt (q t)) in *. rewrite <- Hs2.
    assert (El : INR l * t ^ l = INR l * (t * t ^ pred l)).
    { destruct l; [cbn [INR]; ring|]. cbn [pred pow]. reflexivity. }
    transitivity (((R1 * (INR l * t ^ l) + Ra1 * t ^ l) + R0 * INR l * t ^ pred l
      - (R1 * (INR l * (t * t ^ pred l)) + R0 * INR l * t ^ pred l + t ^ l * R1)) / s
      + t ^ l * (R1 * t + R0) * (A * t + d) / (s * s * s)); [field; lra|].
    rewrite <- El. field. lra.
  - replace ((R1 * INR l + Ra1) * TI l + R0 * INR l * tprev - (R0 + R1) / sqrt (q 1)
             + (-1) ^ l * (R0 - R1) / sqrt (q (-1)))
      with (plus (plus (scal (R1 * INR l + Ra1) (TI l)) (scal (R0 * INR l) (TI (pred l))))
        (scal (-1) (minus (1 ^ l * (R1 * 1 + R0) / sqrt (q 1)) ((-1) ^ l * (R1 * (-1) + R0) / sqrt (q (-1)))))).
    + apply (is_RInt_plus (V := R_NormedModule)); [apply (is_RInt_plus (V := R_NormedModule))|];
        apply (is_RInt_scal (V := R_NormedModule)); [apply TI_is|apply TI_is|exact I1].
    + unfold plus, scal, minus, opp; cbn -[INR pow TI]; unfold mult, plus, opp; cbn -[INR pow TI].
      rewrite pow1. replace (R0 * INR l * tprev) with (R0 * (INR l * tprev)) by ring. rewrite E0. field. pose proof (q_sqrt_pos 1). pose proof (q_sqrt_pos (-1)). lra.
Qed.
End SINT.

(** ** The tables of the code *)
Section TABLES.
Variables sc sa : R.
Hypothesis Hsc : sc = sqrt (q 1).
Hypothesis Hsa : sa = sqrt (q (-1)).

Lemma sgn_succ fl : (0 <= fl)%Z -> (-1) ^ Z.to_nat (fl + 1) = - (-1) ^ Z.to_nat fl.
Proof. intros H. replace (Z.to_nat (fl + 1)) with (S (Z.to_nat fl)) by lia. cbn [pow]. ring. Qed.

Lemma forward_TI kL T : (0 <= kL)%Z -> T 0%Z = TI 0 ->
  forall l, (0 <= l <= kL)%Z -> t_forward A B d sc sa kL T l = TI (Z.to_nat l).
Proof.
  intros Hk HT. unfold t_forward.
  match goal with |- context [for_up 0 kL ?b ?s] =>
    pose proof (for_up_ind (fun fl st => let '(T', tp, sgn) := st in
      (forall l, (0 <= l <= fl)%Z -> T' l = TI (Z.to_nat l)) /\
      (fl <> 0%Z -> tp = TI (pred (Z.to_nat fl))) /\ sgn = (-1) ^ Z.to_nat fl) b 0%Z kL s) as Hind end.
  cbv beta iota zeta in Hind |- *.
  match goal with |- context [for_up 0 kL ?b ?s] => destruct (for_up 0 kL b s) as [[T' tp] sgn] end.
  destruct Hind as (H1 & _ & _); [assumption| | |exact H1].
  - split; [|split; [intros []; reflexivity|reflexivity]]. intros l Hl. replace l with 0%Z by lia. exact HT.
  - intros fl [[T1 tp1] sg1] Hfl (K1 & K2 & K3). split; [|split].
    + intros l Hl. destruct (Z.eq_dec l (fl + 1)) as [->|N].
      * rewrite upd_eq. replace (Z.to_nat (fl + 1)) with (S (Z.to_nat fl)) by lia.
        rewrite (TI_step (Z.to_nat fl) tp1) by (intros; apply K2; lia).
        rewrite (K1 fl) by lia. rewrite K3, Hsc, Hsa.
        rewrite !INR_IZR_INZ.
        replace (Z.of_nat (2 * Z.to_nat fl + 1)) with (2 * fl + 1)%Z by lia.
        replace (Z.of_nat (S (Z.to_nat fl))) with (fl + 1)%Z by lia.
        rewrite Z2Nat.id by lia. f_equal. ring.
      * rewrite upd_neq by assumption. apply K1. lia.
    + intros _. replace (pred (Z.to_nat (fl + 1))) with (Z.to_nat fl) by lia. apply K1. lia.
    + rewrite K3. symmetry. apply sgn_succ. lia.
Qed.

Lemma s_table_S R1 R0 Ra1 r T kL Sl : (0 <= kL)%Z ->
  (forall t, r t = (Ra1 - R1) * q t + (R1 * t + R0) * (A * t + d)) ->
  (forall l, (0 <= l <= kL)%Z -> T l = TI (Z.to_nat l)) ->
  forall l, (0 <= l <= kL)%Z -> is_S q r (Z.to_nat l) (s_table R1 R0 Ra1 sc sa T kL Sl l).
Proof.
  intros Hk Hr HT. unfold s_table.
  match goal with |- context [for_up 0 (1 + kL) ?b ?s] =>
    pose proof (for_up_ind (fun fl st => let '(S', tp, sgn) := st in
      (forall l, (0 <= l < fl)%Z -> is_S q r (Z.to_nat l) (S' l)) /\
      (fl <> 0%Z -> tp = TI (pred (Z.to_nat fl))) /\ sgn = (-1) ^ Z.to_nat fl) b 0%Z (1 + kL)%Z s) as Hind end.
  cbv beta iota zeta in Hind |- *.
  match goal with |- context [for_up 0 (1 + kL) ?b ?s] => destruct (for_up 0 (1 + kL) b s) as [[S' tp] sgn] end.
  destruct Hind as (H1 & _ & _); [lia| | |intros l Hl; apply H1; lia].
  - split; [|split; [intros []; reflexivity|reflexivity]]. intros l Hl. lia.
  - intros fl [[S1 tp1] sg1] Hfl (K1 & K2 & K3). split; [|split].
    + intros l Hl. destruct (Z.eq_dec l fl) as [->|N].
      * rewrite upd_eq. rewrite HT by lia. rewrite K3, Hsc, Hsa.
        pose proof (S_is R1 R0 Ra1 r Hr (Z.to_nat fl) tp1 ltac:(intros; apply K2; lia)) as HS.
        rewrite !INR_IZR_INZ, !Z2Nat.id in HS by lia. exact HS.
      * rewrite upd_neq by assumption. apply K1. lia.
    + intros _. replace (pred (Z.to_nat (fl + 1))) with (Z.to_nat fl) by lia. apply HT. lia.
    + rewrite K3. symmetry. apply sgn_succ. lia.
Qed.
End TABLES.
End QUAD.
