(** Proofs about the stage loop: after a successful 8.52-style stage without a
    vacuum soft start, the solver still holds the geometry whose residuals were
    tested. *)
From Coq Require Import ZArith List Bool Lia.
From Verif Require Import Base Num LoopModel LoopSpec LoopProofs LoopConv.
Import ListNotations.
Open Scope Z_scope.

Section P.
Context {K : num} {G V F : Type}.
Notation st := (@st K G V F).
Notation event := (@event K G V).
Context (c : @cfg K) (M : @ext K G V F).
Implicit Types (s : st) (o : @evalout K F).

(** Laws of the arithmetic that are used; [pos] holds of every preconditioned
    residual sum. *)
Context (pos : K -> Prop).
Hypothesis pos_one : pos (nZ 1).
Hypothesis leash_le : forall a b : K, pos a -> nle a b = true ->
  nlt (nmul (nZ 100) b) a = false.
Hypothesis leash_self : forall a : K, pos a -> nlt (nmul (nZ 100) a) a = false.
Hypothesis pos_eval : forall s, let o := m_eval M s in
  pos (nadd (nadd (o_r1 o) (o_z1 o)) (o_l1 o)).
Hypothesis loose : forall a b : K, nle a (c_ftolv c) = true -> nle b (c_ftolv c) = true ->
  nlt (nfrac 1 100) (nadd a b) = false.
Hypothesis style852 : c_parvmec c = false.
Hypothesis mask_idem : forall g, m_mask M (m_mask M g) = m_mask M g.

(** No vacuum soft start can happen: fixed boundary, or vacuum already active. *)
Definition novac s : Prop := c_lfreeb c = false \/ vac s = VActive.

Definition core s := (bak s, iter1 s, iter2 s, ijacob s, res0 s, fsq s).

Lemma vacuum_block_novac o s :
  novac s ->
  match vacuum_block c o s with
  | inl _ => True
  | inr (s', nr) => nr = false /\ core s' = core s /\ x s' = x s /\
      reason s' = reason s /\ vac s' = vac s /\ resid s' = resid s /\
      status s' = status s /\ liter s' = liter s /\ v s' = v s
  end.
Proof.
  unfold novac, vacuum_block. intros [H|H].
  - rewrite H. cbn. repeat split.
  - destruct (c_lfreeb c); [|cbn; repeat split].
    destruct (_ || _); cbn [andb]; [|repeat split].
    cbn zeta. cbn [vac set_ivacskip]. rewrite H. cbn [vac_eqb negb andb].
    match goal with |- context [if Z.eqb ?a 0 then _ else _] => destruct (Z.eqb a 0) end;
    cbn; rewrite H; cbn; destruct (o_vac_err o); cbn; rewrite ?H; cbn; repeat split; auto.
Qed.

Lemma update_novac s s' nr :
  novac s -> reason s = NO_RESTART ->
  update c M s = inr (s', nr) ->
  nr = false /\ core s' = core s /\ x s' = m_mask M (x s) /\ vac s' = vac s /\
  status s' = status s /\ liter s' = liter s /\
  ( reason s' = BAD_JACOBIAN /\ resid s' = resid s /\ resid1 s' = resid1 s
    \/ (reason s' = NO_RESTART \/ reason s' = HUGE_INITIAL_FORCES) /\
       pos (nadd (nadd (fsqr1 s') (fsqz1 s')) (fsql1 s')) ).
Proof.
  intros HV HR. unfold update.
  set (s0 := set_x _ s).
  assert (H0 : core s0 = core s /\ x s0 = m_mask M (x s) /\ vac s0 = vac s /\
               status s0 = status s /\ liter s0 = liter s /\ resid s0 = resid s /\
               resid1 s0 = resid1 s /\ reason s0 = reason s)
    by (subst s0; cbn; auto 10).
  assert (HV0 : novac s0) by (unfold novac in *; destruct H0 as (_ & _ & E & _);
                              rewrite E; exact HV).
  clearbody s0. destruct H0 as (A1 & A2 & A3 & A4 & A5 & A6 & A7 & A8).
  cbv zeta.
  destruct (o_jac_bad _).
  { intros H; inversion H; subst s' nr.
    change (core (aborted (set_reason BAD_JACOBIAN s0))) with (core s0).
    cbn. repeat split; auto. }
  destruct (_ && _); [discriminate|].
  pose proof (vacuum_block_novac (m_eval M s0) s0 HV0) as HB.
  destruct (vacuum_block c (m_eval M s0) s0) as [s1|[s1 nr1]]; [discriminate|].
  destruct HB as (B0 & B1 & B2 & B3 & B4 & B5 & B6 & B7 & _). subst nr1.
  set (s2 := edge_force c s1).
  assert (E2 : core s2 = core s1 /\ x s2 = x s1 /\ reason s2 = reason s1 /\
               vac s2 = vac s1 /\ status s2 = status s1 /\ liter s2 = liter s1)
    by (subst s2; unfold edge_force; destruct (_ && _); repeat split).
  clearbody s2. destruct E2 as (C1 & C2 & C3 & C4 & C5 & C6).
  destruct (o_pc_err _); [discriminate|].
  pose proof (pos_eval s0) as HP. cbn zeta in HP.
  set (o := m_eval M s0) in *. clearbody o.
  intros H. injection H as H <-. split; [reflexivity|].
  unfold core in *.
  injection A1 as A11 A12 A13 A14 A15 A16.
  injection B1 as B11 B12 B13 B14 B15 B16.
  injection C1 as C11 C12 C13 C14 C15 C16.
  match type of H with (if ?b then _ else _) = _ => destruct b end; subst s'; cbn.
  - repeat split; try congruence. right; split; auto.
  - repeat split; try congruence. right; split; auto. left. congruence.
Qed.

Lemma evolve_novac ts s s1 :
  novac s -> status s = ST_NORMAL -> liter s = true ->
  evolve c M ts s = inr s1 ->
  (bak s1, iter1 s1, iter2 s1, ijacob s1, res0 s1) =
  (bak s, iter1 s, iter2 s, ijacob s, res0 s) /\ novac s1 /\
  ( reason s1 = BAD_JACOBIAN /\ resid s1 = resid s /\ resid1 s1 = resid1 s
    \/ (reason s1 = NO_RESTART \/ reason s1 = HUGE_INITIAL_FORCES) /\
       pos (nadd (nadd (fsqr1 s1) (fsqz1 s1)) (fsql1 s1)) ) /\
  (status s1 <> ST_NORMAL -> x s1 = m_mask M (x s) /\ fsq s1 = fsq s) /\
  (reason s1 = BAD_JACOBIAN -> iter2 s = 1 -> status s1 = ST_BAD_JACOBIAN) /\
  (status s1 = ST_NORMAL -> fsq s1 = nadd (nadd (fsqr1 s1) (fsqz1 s1)) (fsql1 s1)).
Proof.
  intros HV HS HL. unfold evolve, update_forward_model.
  destruct (update c M (set_reason NO_RESTART s)) as [[e s2]|[s2 nr]] eqn:EU;
    [discriminate|].
  apply update_novac in EU; [|exact HV|reflexivity].
  cbn [x vac status liter set_reason reason] in EU.
  change (resid (set_reason NO_RESTART s)) with (resid s) in EU.
  change (resid1 (set_reason NO_RESTART s)) with (resid1 s) in EU.
  change (core (set_reason NO_RESTART s)) with (core s) in EU.
  destruct EU as (-> & A1 & A2 & A3 & A4 & A5 & A6).
  unfold core in A1; injection A1 as A11 A12 A13 A14 A15 A16.
  rewrite HS in A4. rewrite HL in A5.
  assert (HV2 : novac s2) by (unfold novac in *; rewrite A3; exact HV).
  unfold novac in *.
  match goal with |- context [if ?b then set_status ST_BAD_JACOBIAN s2 else _] =>
    destruct b eqn:EB end.
  { cbn. intros H; inversion H; subst s1; clear H. cbn.
    repeat split; try congruence; auto. }
  assert (NB : reason s2 = BAD_JACOBIAN -> iter2 s = 1 -> False).
  { intros E1 E2. rewrite E1, A13 in EB. cbn in EB. rewrite E2 in EB. discriminate. }
  match goal with |- context [if ?b then set_status ST_SUCCESS _ else _] =>
    destruct b eqn:EC end.
  { cbn. intros H; inversion H; subst s1; clear H. cbn.
    repeat split; try congruence; auto. intros E1 E2. destruct (NB E1 E2). }
  rewrite A4, A5. cbn [st_eqb negb orb].
  destruct (m_step M _ _ _ _ _ _) as [gx gv].
  intros H; inversion H; subst s1; clear H. cbn.
  repeat split; try congruence; auto. intros E1 E2. destruct (NB E1 E2).
Qed.

Lemma nmin_idem (a b : K) : nmin (nmin a b) b = nmin a b.
Proof.
  unfold nmin. destruct (nlt b a) eqn:E; [destruct (nlt b b); auto|rewrite E; auto].
Qed.
Lemma nmin_same (a : K) : nmin a a = a.
Proof. unfold nmin. destruct (nlt a a); auto. Qed.

(** The residual leash is loose enough not to trigger on unchanged [fsq]. *)
Definition leashed (r0 q : K) : Prop :=
  neq r0 (nZ (-1)) = true \/ nmin r0 q = r0 /\ nlt (nmul (nZ 100) r0) q = false.

Lemma tsc_success i s :
  pos (fsq s) ->
  (i = iter1 s \/ leashed (res0 s) (fsq s)) ->
  nle (fsqr s) (c_ftolv c) = true -> nle (fsqz s) (c_ftolv c) = true ->
  (reason s = NO_RESTART \/ reason s = HUGE_INITIAL_FORCES) ->
  let s' := time_step_control c M i s in x s' = x s /\ reason s' = reason s.
Proof.
  intros HP HL Hr Hz HR. unfold time_step_control. rewrite style852.
  set (s1 := if _ || _ then set_res0 (fsq s) s else s).
  assert (HR1 : nlt (nmul (nZ 100) (nmin (res0 s1) (fsq s))) (fsq s)
                && (iter1 s <? i) = false).
  { subst s1. destruct (Z.eqb_spec i (iter1 s)) as [E|E]; cbn [orb].
    - subst i. rewrite Z.ltb_irrefl, andb_false_r. reflexivity.
    - destruct HL as [HL|[HL|[HL1 HL2]]]; [congruence| |].
      + rewrite HL. cbn. rewrite nmin_same, leash_self; auto.
      + destruct (neq (res0 s) (nZ (-1))); cbn.
        * rewrite nmin_same, leash_self; auto.
        * rewrite HL1, HL2. reflexivity. }
  set (s2 := set_res0 (nmin (res0 s1) (fsq s1)) s1).
  assert (E : res0 s2 = nmin (res0 s1) (fsq s) /\ fsq s2 = fsq s /\ iter1 s2 = iter1 s /\
              x s2 = x s /\ reason s2 = reason s /\ fsqr s2 = fsqr s /\ fsqz s2 = fsqz s)
    by (subst s2 s1; destruct (_ || _); cbn; auto 10).
  clearbody s2. destruct E as (E1 & E2 & E3 & E4 & E5 & E6 & E7).
  clearbody s1. cbn zeta.
  rewrite E2, E3, E1, E6, E7.
  match goal with |- context [if ?b then restart_delt0r M s2 else _] => destruct b end.
  { unfold restart_delt0r, restart_iteration.
    destruct HR as [HR|HR]; rewrite E5, HR; cbn; rewrite ?E5, ?HR; auto. }
  rewrite HR1.
  rewrite (loose _ _ Hr Hz). rewrite andb_false_r. auto.
Qed.

Lemma tsc_next i s :
  pos (fsq s) -> iter1 s <= i -> iter2 s = i ->
  let s' := time_step_control c M i s in
  fsq s' = fsq s /\
  (ijacob s' = ijacob s \/ x s' = bak s') /\
  (iter1 s' = iter1 s \/ iter1 s' = i) /\ vac s' = vac s /\
  (reason s' = NO_RESTART -> leashed (res0 s') (fsq s')).
Proof.
  intros HP HI H2. unfold time_step_control. rewrite style852.
  set (s1 := if _ || _ then set_res0 (fsq s) s else s).
  assert (HS1 : i = iter1 s -> res0 s1 = fsq s).
  { intros ->. subst s1. rewrite Z.eqb_refl. reflexivity. }
  set (s2 := set_res0 (nmin (res0 s1) (fsq s1)) s1).
  assert (E : res0 s2 = nmin (res0 s1) (fsq s) /\ fsq s2 = fsq s /\ iter1 s2 = iter1 s /\
              x s2 = x s /\ reason s2 = reason s /\ bak s2 = bak s /\
              ijacob s2 = ijacob s /\ vac s2 = vac s /\ iter2 s2 = iter2 s)
    by (subst s2 s1; destruct (_ || _); cbn; auto 10).
  clearbody s2. destruct E as (E1 & E2 & E3 & E4 & E5 & E6 & E7 & E8 & E9).
  clearbody s1. cbn zeta.
  rewrite E2, E3.
  destruct (nle (fsq s) (res0 s2) && (10 <? i - iter1 s)) eqn:EA.
  { apply andb_true_iff in EA. destruct EA as [EA _].
    assert (HLE : leashed (res0 s2) (fsq s)).
    { right. rewrite E1, nmin_idem. split; auto. apply leash_le; auto. congruence. }
    unfold restart_delt0r, restart_iteration.
    destruct (reason s2); cbn; rewrite ?E2, ?E3, ?E7, ?E8, ?E9; repeat split; auto. }
  destruct (nlt (nmul (nZ 100) (res0 s2)) (fsq s) && (iter1 s <? i)) eqn:EB.
  { cbn. rewrite ?E2, ?E3, ?E7, ?E8. repeat split; auto. discriminate. }
  assert (HLE : leashed (res0 s2) (fsq s)).
  { right. rewrite E1, nmin_idem. split; auto.
    apply andb_false_iff in EB. destruct EB as [EB|EB]; [congruence|].
    apply Z.ltb_ge in EB. rewrite HS1 by lia. rewrite nmin_same. auto. }
  match goal with |- context [if ?b then set_reason BAD_PROGRESS s2 else _] =>
    destruct b end; cbn; rewrite ?E2, ?E3, ?E7, ?E8; repeat split; auto; discriminate.
Qed.


Lemma rd0_frame s :
  let s' := restart_delt0r M s in
  fsq s' = fsq s /\ x s' = bak s' /\ vac s' = vac s /\ iter2 s' = iter2 s /\
  res0 s' = res0 s.
Proof.
  unfold restart_delt0r, restart_iteration. destruct (reason s); cbn; repeat split.
Qed.

Lemma report_frame i s :
  let s' := report c M i s in
  (x s', bak s', fsq s', vac s', iter1 s', ijacob s', res0 s') =
  (x s, bak s, fsq s, vac s, iter1 s, ijacob s, res0 s).
Proof. unfold report. dm; reflexivity. Qed.

Lemma novac_set s : novac s ->
  (if vac_eqb (vac s) VInitialized then set_vac VActive s else s) = s \/
  c_lfreeb c = false.
Proof.
  unfold novac. intros [H|H]; auto. rewrite H. cbn. auto.
Qed.

Lemma after_next fi bad s :
  pos (fsq s) -> 1 <= iter1 s <= iter2 s -> iter2 s = fi - bad -> novac s ->
  match after_evolve c M fi bad (fi - bad) s with
  | inl s' => ijacob s' <> 25 /\ ijacob s' <> 50 /\ pos (fsq s') /\
      1 <= iter1 s' /\ iter1 s' = iter2 s' /\ novac s'
  | inr (b', s') => (ijacob s' = 25 \/ ijacob s' = 50 -> x s' = bak s') /\
      pos (fsq s') /\ 1 <= iter1 s' <= iter2 s' /\
      (iter2 s' = iter1 s' \/ leashed (res0 s') (fsq s')) /\ novac s'
  end.
Proof.
  intros HP HI H2 HV. unfold after_evolve.
  destruct ((ijacob s =? 25) || (ijacob s =? 50)) eqn:E.
  { unfold restart_delt0r, restart_iteration; cbn.
    apply orb_true_iff in E. rewrite !Z.eqb_eq in E.
    repeat split; auto; lia. }
  apply orb_false_iff in E. rewrite !Z.eqb_neq in E.
  set (s1 := if 75 <=? ijacob s then _ else s).
  assert (E1 : (fsq s1, iter1 s1, iter2 s1, ijacob s1, vac s1) =
               (fsq s, iter1 s, iter2 s, ijacob s, vac s))
    by (subst s1; destruct (_ <=? _); reflexivity).
  clearbody s1. injection E1 as A1 A2 A3 A4 A5.
  rewrite <- A1 in HP. rewrite <- A2, <- A3 in HI. rewrite <- A3 in H2.
  pose proof (tsc_next (fi - bad) s1 HP ltac:(lia) H2) as (B1 & B2 & B3 & B4 & B5).
  set (s2 := time_step_control c M (fi - bad) s1) in *. clearbody s2.
  assert (HV2 : novac s2) by (unfold novac in *; rewrite B4, A5; exact HV).
  destruct (rr_eqb (reason s2) NO_RESTART) eqn:ER; cbn [negb].
  - assert (HR : reason s2 = NO_RESTART) by (destruct (reason s2); auto; discriminate).
    specialize (B5 HR).
    pose proof (report_frame (fi - bad) s2) as HF.
    set (s3 := report c M (fi - bad) s2) in *. clearbody s3. cbn zeta in HF.
    injection HF as F1 F2 F3 F4 F5 F6 F7.
    assert (HV3 : novac s3) by (unfold novac in *; rewrite F4; exact HV2).
    assert (Q : forall s4, (x s4, bak s4, fsq s4, iter1 s4, ijacob s4, res0 s4) =
              (x s3, bak s3, fsq s3, iter1 s3, ijacob s3, res0 s3) -> novac s4 ->
              iter2 s4 = fi - bad + 1 ->
              (ijacob s4 = 25 \/ ijacob s4 = 50 -> x s4 = bak s4) /\
      pos (fsq s4) /\ 1 <= iter1 s4 <= iter2 s4 /\
      (iter2 s4 = iter1 s4 \/ leashed (res0 s4) (fsq s4)) /\ novac s4).
    { intros s4 Hs Hn Hi. injection Hs as -> -> -> -> -> ->. rewrite Hi.
      rewrite F1, F2, F3, F5, F6, F7, B1.
      repeat split; auto; try lia.
      - intros HJ. destruct B2 as [B2|B2]; auto. exfalso. lia.
      - rewrite <- B1. auto. }
    destruct (vac_eqb (vac s3) VInitialized) eqn:EV; apply Q; try reflexivity;
      unfold novac in *; cbn; auto.
  - pose proof (rd0_frame s2) as (D1 & D2 & D3 & D4 & D5).
    set (s3 := restart_delt0r M s2) in *. clearbody s3.
    assert (HV3 : novac s3) by (unfold novac in *; rewrite D3; exact HV2).
    assert (Q : forall s4, (x s4, bak s4, fsq s4, iter1 s4) =
              (x s3, bak s3, fsq s3, fi - bad) -> novac s4 ->
              iter2 s4 = fi - bad ->
              (ijacob s4 = 25 \/ ijacob s4 = 50 -> x s4 = bak s4) /\
      pos (fsq s4) /\ 1 <= iter1 s4 <= iter2 s4 /\
      (iter2 s4 = iter1 s4 \/ leashed (res0 s4) (fsq s4)) /\ novac s4).
    { intros s4 Hs Hn Hi. injection Hs as -> -> -> ->. rewrite Hi, D1, B1.
      repeat split; auto; try lia. }
    cbn [vac set_iter1].
    destruct (vac_eqb (vac s3) VInitialized) eqn:EV; apply Q; try reflexivity;
      unfold novac in *; cbn; auto; lia.
Qed.

Lemma after_success fi bad s :
  pos (fsq s) ->
  (fi - bad = iter1 s \/ leashed (res0 s) (fsq s)) ->
  nle (fsqr s) (c_ftolv c) = true -> nle (fsqz s) (c_ftolv c) = true ->
  (reason s = NO_RESTART \/ reason s = HUGE_INITIAL_FORCES) ->
  match after_evolve c M fi bad (fi - bad) s with
  | inl s' => x s' = bak s /\ (ijacob s = 25 \/ ijacob s = 50)
  | inr (b', s') => x s' = x s
  end.
Proof.
  intros HP HL Hr Hz HR. unfold after_evolve.
  destruct ((ijacob s =? 25) || (ijacob s =? 50)) eqn:E.
  { unfold restart_delt0r, restart_iteration; cbn.
    apply orb_true_iff in E. rewrite !Z.eqb_eq in E. auto. }
  set (s1 := if 75 <=? ijacob s then _ else s).
  assert (E1 : (fsq s1, iter1 s1, res0 s1, fsqr s1, fsqz s1, reason s1, x s1) =
               (fsq s, iter1 s, res0 s, fsqr s, fsqz s, reason s, x s))
    by (subst s1; destruct (_ <=? _); reflexivity).
  clearbody s1. injection E1 as A1 A2 A3 A4 A5 A6 A7.
  pose proof (tsc_success (fi - bad) s1) as T.
  rewrite A1, A2, A3, A4, A5, A6, A7 in T.
  destruct (T HP HL Hr Hz HR) as (T1 & T2).
  set (s2 := time_step_control c M (fi - bad) s1) in *. clearbody s2.
  destruct HR as [HR|HR]; rewrite HR in T2; rewrite T2; cbn.
  - pose proof (report_frame (fi - bad) s2) as HF.
    set (s3 := report c M (fi - bad) s2) in *. clearbody s3. cbn zeta in HF.
    injection HF as F1 F2 F3 F4 F5 F6 F7.
    destruct (vac_eqb _ _); cbn; congruence.
  - unfold restart_delt0r, restart_iteration. rewrite T2. cbn.
    destruct (vac_eqb _ _); cbn; congruence.
Qed.

(** Loop invariant at the head of the force iteration. *)
Definition inv s : Prop :=
  status s = ST_NORMAL /\
  (1 < iter2 s -> conv c s = false /\
     pos (nadd (nadd (fsqr1 s) (fsqz1 s)) (fsql1 s))) /\
  (ijacob s = 25 \/ ijacob s = 50 -> x s = bak s) /\
  pos (fsq s) /\ 1 <= iter1 s <= iter2 s /\
  (iter2 s = iter1 s \/ leashed (res0 s) (fsq s)) /\
  novac s.

(** The geometry held is the one of the last evaluation. *)
Definition held s : Prop :=
  exists g b r z l, last_eval (trace s) = Some (g, b, r, z, l) /\ m_mask M (x s) = g.

(** State handed to the next call of SolveEquilibriumLoop. *)
Definition pend s : Prop :=
  (1 < iter2 s -> conv c s = false /\
     pos (nadd (nadd (fsqr1 s) (fsqz1 s)) (fsql1 s))) /\
  ijacob s <> 25 /\ ijacob s <> 50 /\ pos (fsq s) /\ 1 <= iter1 s <= iter2 s /\
  novac s /\
  (iter2 s = iter1 s \/ leashed (res0 s) (fsq s)).

Definition ok_geom (r : loop_result) : Prop :=
  match r with
  | LError _ _ => True
  | LRetry s => if liter s then pend s /\ status s <> ST_SUCCESS
                else status s = ST_SUCCESS -> held s
  | LDone s => status s = ST_SUCCESS -> held s
  end.

Lemma held_still s s' :
  still s s' -> held s -> m_mask M (x s') = m_mask M (x s) -> held s'.
Proof.
  intros ((p & P1 & P2) & _) (g & b & r & z & l & A & B) E.
  exists g, b, r, z, l. rewrite P1, last_eval_app by auto. split; congruence.
Qed.

Lemma force_loop_geom fuel : forall fi bad s,
  iter2 s = fi - bad ->
  (liter s = true -> inv s) ->
  (liter s = false -> status s = ST_SUCCESS -> held s) ->
  ok_geom (force_loop c M fuel fi bad s).
Proof.
  induction fuel as [|k IH]; intros fi bad s Hb Hr Hg.
  { cbn. intros HS. destruct (liter s) eqn:EL; auto.
    destruct (Hr eq_refl) as (A & _). congruence. }
  cbn [force_loop].
  destruct (liter s) eqn:EL.
  2:{ rewrite andb_false_r. cbn. intros HS. auto. }
  rewrite andb_true_r.
  destruct (negb _).
  { cbn. intros HS. destruct (Hr eq_refl) as (A & _). congruence. }
  destruct (Hr eq_refl) as (R1 & R2 & R3 & R4 & R5 & R6 & R7).
  destruct (evolve c M (delt0r s) s) as [[e s1]|s1] eqn:EV; [exact I|].
  destruct (evolve_spec _ _ _ _ _ R1 EL EV) as (pre & cpl & mid & T & P & HF & HX).
  destruct (evolve_novac _ _ _ R7 R1 EL EV) as (C1 & V1 & RS & XS & BS & QN).
  injection C1 as C11 C12 C13 C14 C15.
  assert (HP1 : 1 < iter2 s -> pos (nadd (nadd (fsqr1 s1) (fsqz1 s1)) (fsql1 s1))).
  { intros HN. destruct RS as [(RA & RB & RC)|(_ & RP)]; auto.
    unfold resid1 in RC. injection RC as -> -> ->. apply R2; auto. }
  assert (HPQ : status s1 = ST_NORMAL -> pos (fsq s1)).
  { intros S1. rewrite QN by auto.
    destruct RS as [(RA & RB & RC)|(_ & RP)]; auto.
    destruct (Z.eq_dec (iter2 s) 1) as [E1|E1]; [|apply HP1; lia].
    rewrite (BS RA E1) in S1. discriminate. }
  (* success: complete evaluation, geometry still held *)
  assert (HSC : status s1 = ST_SUCCESS -> conv c s1 = true -> held s1 /\
                (reason s1 = NO_RESTART \/ reason s1 = HUGE_INITIAL_FORCES)).
  { intros S1 CV. split.
    - destruct XS as (XS & _); [congruence|].
      eexists (m_mask M (x s)), cpl, _, _, _. rewrite T, last_eval_app by auto.
      split; [reflexivity|]. rewrite XS. apply mask_idem.
    - destruct RS as [(RA & RB & RC)|(RA & _)]; auto. exfalso.
      destruct (Z.eq_dec (iter2 s) 1) as [E1|E1].
      + rewrite (BS RA E1) in S1. discriminate.
      + assert (conv c s1 = conv c s) by (unfold conv; unfold resid in RB; congruence).
        rewrite (proj1 (R2 ltac:(lia))) in H. congruence. }
  match goal with |- context [if ?b then LRetry _ else _] => destruct b eqn:EJ end.
  { cbn. destruct HX as [(S1 & L1 & N1)|[(S1 & L1 & CV & N1)|(S1 & L1 & CV & N1)]];
      rewrite L1.
    - destruct XS as (_ & FQ); [congruence|].
      split; [|congruence]. unfold pend; cbn. rewrite C12, C13, C15, FQ.
      repeat split; try lia; auto.
      destruct N1 as [N1|N1]; [lia|exact N1].
    - intros _. apply HSC; auto.
    - split; [|congruence]. unfold pend; cbn. rewrite C12, C13, C15.
      assert (HH : iter2 s = 1 /\ iter1 s = 1 \/ iter2 s <> 1) by lia.
      repeat split; try lia; auto.
      destruct HH as [HH|HH]; [left; lia|].
      exfalso.
      (* HUGE_INITIAL_FORCES only in the first iteration *)
      rewrite S1 in EJ. cbn in EJ.
      revert EV EJ. unfold evolve, update_forward_model, update. cbv zeta.
      clear - HH R7 R1 EL.
      set (s0 := set_x _ (set_reason NO_RESTART s)).
      assert (I0 : iter2 s0 = iter2 s /\ reason s0 = NO_RESTART /\ status s0 = ST_NORMAL
                   /\ liter s0 = true)
        by (subst s0; auto).
      assert (V0 : novac s0) by exact R7.
      clearbody s0. destruct I0 as (I0 & J0 & K0 & L0).
      destruct (o_jac_bad _).
      { cbn.
        match goal with |- context [if ?b then set_status ST_BAD_JACOBIAN ?u else _] =>
          destruct b end; [cbn; intros H; inversion H; cbn;
                           rewrite andb_false_r; discriminate|].
        match goal with |- context [if ?b then set_status ST_SUCCESS _ else _] =>
          destruct b end; [cbn; intros H; inversion H; cbn;
                           rewrite andb_false_r; discriminate|].
        cbn. rewrite K0, L0. cbn. destruct (m_step M _ _ _ _ _ _).
        intros H; inversion H; cbn. rewrite andb_false_r. discriminate. }
      destruct (_ && _); [discriminate|].
      pose proof (vacuum_block_novac (m_eval M s0) s0 V0) as HB.
      destruct (vacuum_block c (m_eval M s0) s0) as [u|[u nr]]; [discriminate|].
      destruct HB as (-> & B1 & B2 & B3 & B4 & B5 & B6 & B7 & _).
      unfold core in B1; injection B1 as _ _ B13 _ _ _.
      set (u2 := edge_force c u).
      assert (E2 : iter2 u2 = iter2 u /\ reason u2 = reason u /\ status u2 = status u /\
                   liter u2 = liter u)
        by (subst u2; unfold edge_force; destruct (_ && _); auto).
      clearbody u2. destruct E2 as (C2 & C3 & C4 & C5).
      destruct (o_pc_err _); [discriminate|].
      cbn [iter2 log set_trace set_fsqr set_fsqz set_fsql set_f set_fsqr1 set_fsqz1
           set_fsql1].
      replace (iter2 u2 =? 1) with false
        by (symmetry; apply Z.eqb_neq; congruence).
      cbn [andb].
      match goal with |- context [if ?b then set_status ST_BAD_JACOBIAN ?u else _] =>
        destruct b end; [cbn; intros H; inversion H; cbn; rewrite C3, B3, J0;
                         cbn; rewrite andb_false_r; discriminate|].
      match goal with |- context [if ?b then set_status ST_SUCCESS _ else _] =>
        destruct b end; [cbn; intros H; inversion H; cbn; rewrite C3, B3, J0;
                         cbn; rewrite andb_false_r; discriminate|].
      cbn. rewrite C4, B6, K0, C5, B7, L0. cbn. destruct (m_step M _ _ _ _ _ _).
      intros H; inversion H; cbn. rewrite C3, B3, J0. cbn. rewrite andb_false_r.
      discriminate. }
  match goal with |- context [if ?b then (if c_retout c then _ else _) else _] =>
    destruct b eqn:EN end.
  { destruct (c_retout c); cbn; [|exact I]. intros HS. rewrite HS in EN. discriminate. }
  pose proof (after_evolve_still c M fi bad s1) as HT.
  destruct HX as [(S1 & L1 & N1)|[(S1 & L1 & CV & N1)|(S1 & L1 & CV & N1)]].
  { rewrite S1 in EN. discriminate. }
  - (* success *)
    destruct (HSC S1 CV) as (HH & HR).
    destruct XS as (XS & FQ); [congruence|].
    pose proof (after_success fi bad s1) as AS.
    rewrite C12, C15, FQ, C11, C14 in AS.
    assert (CV' := CV). unfold conv, within in CV'.
    rewrite !andb_true_iff in CV'.
    specialize (AS R4). rewrite <- Hb in AS.
    specialize (AS R6 ltac:(tauto) ltac:(tauto) HR). rewrite Hb in AS.
    destruct (after_evolve c M fi bad (fi - bad) s1) as [s2|[bad2 s2]] eqn:EA.
    + destruct HT as (T1 & T2 & T3). destruct AS as (AX & AJ).
      cbn. rewrite T3, L1. intros _.
      eapply held_still; eauto. rewrite AX, <- R3 by auto. rewrite XS, mask_idem. auto.
    + destruct HT as (T1 & T2 & T3).
      assert (LF : liter s2 = false).
      { destruct (liter s2) eqn:E; auto. destruct (T3 eq_refl). congruence. }
      assert (G2 : held s2) by (eapply held_still; eauto; congruence).
      clear - IH LF G2. destruct k; cbn [force_loop]; [cbn; auto|].
      rewrite LF, andb_false_r. cbn. auto.
  - (* not converged *)
    pose proof (after_next fi bad s1 (HPQ S1) ltac:(lia) ltac:(lia) V1) as AN.
    pose proof (after_evolve_count c M fi bad s1) as HA.
    destruct (after_evolve c M fi bad (fi - bad) s1) as [s2|[bad2 s2]] eqn:EA.
    + destruct HT as (T1 & T2 & T3). cbn. rewrite T3, L1.
      destruct HA as (_ & _ & A3).
      destruct AN as (J1 & J2 & Q1 & I1 & I2 & V2).
      split; [|congruence]. 
      pose proof (conv_still c _ _ T1) as TC.
      unfold pend. repeat split; auto; try lia.
      * congruence.
      * destruct T1 as (_ & _ & T1). unfold resid1 in T1. injection T1 as -> -> ->.
        destruct RS as [(RA & RB & RC)|(_ & RP)]; auto.
        destruct (Z.eq_dec (iter2 s) 1) as [E1|E1]; [|apply HP1; lia].
        rewrite (BS RA E1) in S1. discriminate.
    + destruct HA as (A1 & A2 & A3 & A4). destruct HT as (T1 & T2 & T3).
      destruct AN as (J1 & Q1 & I1 & I2 & V2).
      apply IH; [lia| |].
      * intros L2. destruct (T3 L2) as (T4 & T5).
        pose proof (conv_still c _ _ T1) as TC.
        unfold inv. repeat split; auto; try lia; try congruence.
        destruct T1 as (_ & _ & T1). unfold resid1 in T1. injection T1 as -> -> ->.
        destruct RS as [(RA & RB & RC)|(_ & RP)]; auto.
        destruct (Z.eq_dec (iter2 s) 1) as [E1|E1]; [|apply HP1; lia].
        rewrite (BS RA E1) in S1. discriminate.
      * intros L2 S2. destruct T2 as [T2|T2]; congruence.
Qed.

Lemma sel_geom s : pend s -> ok_geom (solve_equilibrium_loop c M s).
Proof.
  intros (P1 & P2 & P3 & P4 & P5 & P6 & P7). unfold solve_equilibrium_loop.
  set (s1 := match reason s with BAD_JACOBIAN => _ | _ => s end).
  assert (E : (iter2 s1, iter1 s1, resid s1, resid1 s1, ijacob s1, fsq s1, res0 s1, vac s1)
              = (iter2 s, iter1 s, resid s, resid1 s, ijacob s, fsq s, res0 s, vac s))
    by (subst s1; unfold restart_delt0r, restart_iteration;
        destruct (reason s); cbn; try destruct (lreset s); reflexivity).
  clearbody s1. injection E as E1 E2 E3 E4 E5 E6 E7 E8 E9 E10 E11 E12.
  apply force_loop_geom; cbn; try lia; try discriminate.
  intros _. unfold inv, conv, novac in *; cbn.
  rewrite E1, E2, E3, E4, E5, E6, E7, E8, E9, E10, E11, E12.
  repeat split; auto; try lia; try (apply P1; auto).
Qed.

Lemma retry_geom fuel : forall s,
  (liter s = true -> pend s /\ (fuel = O -> status s <> ST_SUCCESS)) ->
  (liter s = false -> status s = ST_SUCCESS -> held s) ->
  match retry_loop c M fuel s with
  | LError _ _ => True
  | LRetry s' | LDone s' => status s' = ST_SUCCESS -> held s'
  end.
Proof.
  induction fuel as [|k IH]; intros s HP HG; cbn [retry_loop].
  { intros HS. destruct (liter s) eqn:E; auto. destruct (HP eq_refl) as (_ & H).
    destruct (H eq_refl HS). }
  destruct (liter s) eqn:EL; [|auto].
  pose proof (sel_geom s (proj1 (HP eq_refl))) as HO.
  destruct (solve_equilibrium_loop c M s) as [e s1|s1|s1]; cbn in HO; auto.
  apply IH; intros L1; rewrite L1 in HO; tauto.
Qed.

End P.

(** A successful stage holds the geometry of its last evaluation. *)
Lemma stage_geom {K : num} {G V F : Type} (c : @cfg K) (M : @ext K G V F)
  (pos : K -> Prop) s s' :
  pos (nZ 1) ->
  (forall a b : K, pos a -> nle a b = true -> nlt (nmul (nZ 100) b) a = false) ->
  (forall a : K, pos a -> nlt (nmul (nZ 100) a) a = false) ->
  (forall s, let o := m_eval M s in pos (nadd (nadd (o_r1 o) (o_z1 o)) (o_l1 o))) ->
  (forall a b : K, nle a (c_ftolv c) = true -> nle b (c_ftolv c) = true ->
     nlt (nfrac 1 100) (nadd a b) = false) ->
  c_parvmec c = false ->
  (forall g, m_mask M (m_mask M g) = m_mask M g) ->
  1 <= c_niterv c ->
  iter2 s = 1 -> iter1 s = 1 -> ijacob s = 0 -> fsq s = nZ 1 ->
  (c_lfreeb c = false \/ vac s = VActive) ->
  solve_equilibrium c M s = StageOk s' -> status s' = ST_SUCCESS ->
  exists g b r z l, last_eval (trace s') = Some (g, b, r, z, l) /\ m_mask M (x s') = g.
Proof.
  intros H1 H2 H3 H4 H5 H6 H7 HN I2 I1 HJ HQ HV HE HS.
  unfold solve_equilibrium in HE.
  set (s0 := set_lreset false (set_liter true s)) in *.
  assert (X : match retry_loop c M (Z.to_nat (c_niterv c)) s0 with
              | LError _ _ => True
              | LRetry s' | LDone s' => status s' = ST_SUCCESS -> held M s'
              end).
  { apply (retry_geom c M pos H2 H3 H4 H5 H6 H7); [|discriminate].
    intros _. split; [|lia]. unfold pend, novac; cbn. rewrite I1, I2, HJ, HQ.
    repeat split; auto; lia. }
  destruct (retry_loop c M (Z.to_nat (c_niterv c)) s0) as [e s1|s1|s1]; cbn in HE;
    destruct (interrupted s1); try discriminate.
  - destruct (_ && _); [|discriminate]. inversion HE; subst. discriminate.
  - inversion HE; subst. exact (X HS).
  - inversion HE; subst. exact (X HS).
Qed.
