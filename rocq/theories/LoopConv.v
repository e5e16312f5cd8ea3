(** Proofs about the stage loop: reported convergence belongs to a complete force
    evaluation. *)
From Coq Require Import ZArith List Bool Lia.
From Verif Require Import Base Num LoopModel LoopSpec LoopProofs.
Import ListNotations.
Open Scope Z_scope.

Section P.
Context {K : num} {G V F : Type}.
Notation st := (@st K G V F).
Notation event := (@event K G V).
Context (c : @cfg K) (M : @ext K G V F).
Implicit Types (s : st) (o : @evalout K F).

Lemma last_eval_app (a b : list event) :
  last_eval a = None -> last_eval (a ++ b) = last_eval b.
Proof.
  induction a as [|e a IH]; cbn; auto.
  destruct e; auto; discriminate.
Qed.

Definition resid s := (fsqr s, fsqz s, fsql s).
Definition resid1 s := (fsqr1 s, fsqz1 s, fsql1 s).

(** No new evaluation, residual members untouched. *)
Definition still s s' : Prop :=
  (exists pre, trace s' = pre ++ trace s /\ last_eval pre = None) /\
  resid s' = resid s /\ resid1 s' = resid1 s.

Lemma still_refl s : still s s.
Proof. split; [exists []; auto|auto]. Qed.

Lemma still_trans a b d : still a b -> still b d -> still a d.
Proof.
  intros ((p & P1 & P2) & P3 & P4) ((q & Q1 & Q2) & Q3 & Q4).
  split; [|split; congruence].
  exists (q ++ p). rewrite Q1, P1, app_assoc. split; auto.
  rewrite last_eval_app; auto.
Qed.

Lemma still_keep s s' :
  trace s' = trace s -> resid s' = resid s -> resid1 s' = resid1 s -> still s s'.
Proof. intros A B C; split; [exists []; auto|auto]. Qed.

Lemma still_log s s' e :
  trace s' = e :: trace s -> is_eval e = false ->
  resid s' = resid s -> resid1 s' = resid1 s -> still s s'.
Proof.
  intros A E B C; split; [exists [e]; split; auto|auto].
  destruct e; auto; discriminate.
Qed.

Lemma restart_iteration_still d s : still s (snd (restart_iteration M d s)).
Proof.
  unfold restart_iteration; destruct (reason s); cbn;
    (eapply still_log; [reflexivity| | | ]; reflexivity).
Qed.

Lemma restart_delt0r_still s : still s (restart_delt0r M s).
Proof.
  unfold restart_delt0r.
  pose proof (restart_iteration_still (delt0r s) s) as H.
  destruct (restart_iteration M (delt0r s) s) as [d s'].
  eapply still_trans; [exact H|]. apply still_keep; reflexivity.
Qed.

(** Convergence test of a state's residual members. *)
Definition conv s := within (c_ftolv c) (fsqr s) (fsqz s) (fsql s).

Lemma vacuum_block_still o s :
  match vacuum_block c o s with
  | inl s' => True
  | inr (s', nr) => still s s' /\ x s' = x s /\ iter2 s' = iter2 s /\
      (nr = true -> reason s' = BAD_JACOBIAN) /\
      (nr = false -> reason s' = reason s) /\
      status s' = status s /\ liter s' = liter s
  end.
Proof.
  unfold vacuum_block; dm; cbn; auto;
  (repeat split;
   [try (exists []; split; reflexivity);
    try (eexists [_]; split; reflexivity);
    try (eexists [_;_]; split; reflexivity);
    try (eexists [_;_;_]; split; reflexivity)
   |..]; auto; discriminate).
Qed.

Lemma update_spec s :
  match update c M s with
  | inl _ => True
  | inr (s', nr) =>
      exists pre cpl mid,
        trace s' = pre ++ EvEval (m_mask M (x s)) cpl (fsqr s') (fsqz s') (fsql s')
                       :: mid ++ trace s /\
        last_eval pre = None /\
        iter2 s' = iter2 s /\ status s' = status s /\ liter s' = liter s /\
        x s' = m_mask M (x s) /\
        if cpl then
          resid1 s' = (let s0 := set_x (m_mask M (x s)) s in
                       let o := m_eval M s0 in (o_r1 o, o_z1 o, o_l1 o)) /\
          (nr = false -> reason s = NO_RESTART ->
           reason s' = NO_RESTART \/ reason s' = HUGE_INITIAL_FORCES)
        else nr = false /\ reason s' = BAD_JACOBIAN /\ resid s' = resid s /\
             resid1 s' = resid1 s
  end.
Proof.
  unfold update.
  set (s0 := set_x _ s).
  assert (Hx : x s0 = m_mask M (x s)) by reflexivity.
  assert (H0 : trace s0 = trace s /\ iter2 s0 = iter2 s /\ status s0 = status s
               /\ liter s0 = liter s /\ resid s0 = resid s /\ resid1 s0 = resid1 s
               /\ reason s0 = reason s)
    by (subst s0; cbn; auto 10).
  clearbody s0. destruct H0 as (E1 & E2 & E3 & E4 & E5 & E6 & E7).
  cbv zeta.
  destruct (o_jac_bad _).
  { exists [], false, []. cbn. rewrite Hx, E1, E2, E3, E4.
    repeat split; auto. }
  destruct (_ && _); [exact I|].
  pose proof (vacuum_block_still (m_eval M s0) s0) as HV.
  destruct (vacuum_block c (m_eval M s0) s0) as [s1|[s1 nr]]; [exact I|].
  destruct HV as (((mid & M1 & M2) & R1 & R2) & X & I2 & A1 & A2 & S1 & L1).
  set (s2 := edge_force c s1).
  assert (HS : exists mid2, trace s2 = mid2 ++ trace s0 /\ x s2 = x s1 /\
            iter2 s2 = iter2 s1 /\ status s2 = status s1 /\ liter s2 = liter s1 /\
            reason s2 = reason s1).
  { subst s2; unfold edge_force. destruct (_ && _); cbn.
    - exists (EvEdge :: mid). rewrite M1. auto 10.
    - exists mid. auto 10. }
  clearbody s2. destruct HS as (mid2 & T2 & X2 & I3 & S2 & L2 & RR).
  destruct (o_pc_err _); [exact I|].
  set (o := m_eval M s0) in *.
  match goal with |- context [status ?a = status s] => set (s3 := a) end.
  exists [], true, mid2.
  assert (HT : trace s3 = EvEval (m_mask M (x s)) true (fsqr s3) (fsqz s3) (fsql s3)
                            :: mid2 ++ trace s /\ iter2 s3 = iter2 s /\
              status s3 = status s /\ liter s3 = liter s /\ x s3 = m_mask M (x s) /\
              resid1 s3 = (o_r1 o, o_z1 o, o_l1 o) /\
              (reason s3 = reason s2 \/ reason s3 = HUGE_INITIAL_FORCES)).
  { subst s3. destruct (_ && _); cbn; rewrite T2, X2, I3, S2, L2, X, I2, S1, L1, Hx,
      E1, E2, E3, E4; auto 10. }
  clearbody s3. destruct HT as (T3 & A & B & D & E & R & RS).
  repeat split; auto.
  intros Hn Hr. destruct RS as [RS|RS]; auto.
  left. rewrite RS, RR, A2; auto. congruence.
Qed.

(** What Evolve leaves behind, for a stage that is still running. *)
Lemma evolve_spec ts s s1 :
  status s = ST_NORMAL -> liter s = true ->
  evolve c M ts s = inr s1 ->
  exists pre cpl mid,
    trace s1 = pre ++ EvEval (m_mask M (x s)) cpl (fsqr s1) (fsqz s1) (fsql s1)
                   :: mid ++ trace s /\
    last_eval pre = None /\
    (cpl = false -> resid s1 = resid s /\ resid1 s1 = resid1 s /\
                    reason s1 = BAD_JACOBIAN) /\
    ( status s1 = ST_BAD_JACOBIAN /\ liter s1 = true /\
         (iter2 s = 1 \/ conv s1 = false)
      \/ status s1 = ST_SUCCESS /\ liter s1 = false /\ conv s1 = true /\
         (cpl = false -> iter2 s <> 1)
      \/ status s1 = ST_NORMAL /\ liter s1 = true /\ conv s1 = false /\
         (cpl = false -> iter2 s <> 1)).
Proof.
  intros HS HL. unfold evolve, update_forward_model.
  pose proof (update_spec (set_reason NO_RESTART s)) as HU.
  destruct (update c M (set_reason NO_RESTART s)) as [[e s2]|[s2 nr]]; [discriminate|].
  cbn [trace x iter2 status liter set_reason reason] in HU.
  destruct HU as (pre & cpl & mid & T & P & I2 & S2 & L2 & X2 & HC).
  change (resid (set_reason NO_RESTART s)) with (resid s) in HC.
  change (resid1 (set_reason NO_RESTART s)) with (resid1 s) in HC.
  rewrite HS in S2. rewrite HL in L2.
  set (q := if nr then let '(_, s0) := restart_iteration M (c_delt c) s2 in
                        inr (set_reason NO_RESTART s0) else inr s2).
  assert (HQ : exists s3, q = @inr (bool * st) st s3 /\
     (exists pre3, trace s3 = pre3 ++ EvEval (m_mask M (x s)) cpl (fsqr s3) (fsqz s3)
                   (fsql s3) :: mid ++ trace s /\ last_eval pre3 = None) /\
     iter2 s3 = iter2 s /\ status s3 = ST_NORMAL /\ liter s3 = true /\
     (cpl = false -> resid s3 = resid s /\ resid1 s3 = resid1 s /\
                     reason s3 = BAD_JACOBIAN)).
  { subst q. destruct nr.
    - pose proof (restart_iteration_still (c_delt c) s2) as ((p3 & T3 & P3) & R3 & _).
      pose proof (restart_iteration_quiet M (c_delt c) s2) as (_ & Q2 & _).
      assert (Fr : status (snd (restart_iteration M (c_delt c) s2)) = status s2 /\
                   liter (snd (restart_iteration M (c_delt c) s2)) = liter s2)
        by (unfold restart_iteration; destruct (reason s2); cbn; auto).
      destruct (restart_iteration M (c_delt c) s2) as [d s3]; cbn [snd] in *.
      exists (set_reason NO_RESTART s3). split; [reflexivity|].
      cbn [trace iter2 status liter set_reason fsqr fsqz fsql].
      unfold resid in R3; injection R3 as Ra Rb Rc.
      destruct Fr as [Fa Fb].
      destruct cpl; [|destruct HC; discriminate].
      repeat split; try congruence.
      exists (p3 ++ pre). rewrite T3, T, Ra, Rb, Rc, app_assoc. split; auto.
      rewrite last_eval_app; auto.
    - exists s2. split; [reflexivity|]. repeat split; auto.
      + exists pre; split; auto.
      + subst; tauto.
      + subst; tauto.
      + subst; tauto. }
  destruct HQ as (s3 & EQ & (pre3 & T3 & P3) & I3 & S3 & L3 & HC3).
  rewrite EQ. clear q EQ T P I2 S2 L2 X2 HC pre s2.
  destruct (((iter2 s3 =? 1) && rr_eqb (reason s3) BAD_JACOBIAN) ||
     negb (nfinite (fsqr s3) && nfinite (fsqz s3) && nfinite (fsql s3))) eqn:EB.
  { cbn. intros H; inversion H; subst s1; clear H.
    exists pre3, cpl, mid. cbn. repeat split; auto; try (apply HC3; auto).
    left. split; [auto|split; [auto|]].
    apply orb_true_iff in EB. destruct EB as [EB|EB].
    - left. apply andb_true_iff in EB. destruct EB as [EB _].
      apply Z.eqb_eq in EB. lia.
    - right. apply negb_true_iff in EB. unfold conv, within. cbn.
      rewrite EB. reflexivity. }
  apply orb_false_iff in EB. destruct EB as [EB EF].
  assert (NB : cpl = false -> iter2 s <> 1).
  { intros E Hi. destruct (HC3 E) as (_ & _ & HR).
    rewrite I3, HR, Hi in EB. discriminate. }
  apply negb_false_iff in EF.
  destruct (nle (fsqr s3) (c_ftolv c) && nle (fsqz s3) (c_ftolv c) &&
            nle (fsql s3) (c_ftolv c)) eqn:EC.
  { cbn. intros H; inversion H; subst s1; clear H.
    exists pre3, cpl, mid. cbn. repeat split; auto; try (apply HC3; auto).
    right; left. repeat split; auto.
    unfold conv, within; cbn. rewrite EF. rewrite <- !andb_assoc in *.
    cbn. rewrite andb_assoc in EC. rewrite <- andb_assoc in EC. exact EC. }
  rewrite S3, L3. cbn [st_eqb negb orb].
  destruct (m_step M _ _ _ _ _ _) as [gx gv].
  intros H; inversion H; subst s1; clear H.
  exists (EvStep ts (v s3) (x s3) :: pre3), cpl, mid. cbn.
  rewrite T3. repeat split; auto; try (apply HC3; auto).
  right; right. repeat split; auto.
  unfold conv, within; cbn. rewrite EF. cbn. rewrite <- EC. reflexivity.
Qed.

Lemma time_step_control_still i s :
  still s (time_step_control c M i s) /\
  status (time_step_control c M i s) = status s /\
  liter (time_step_control c M i s) = liter s.
Proof.
  unfold time_step_control.
  set (s1 := if _ || _ then set_res0 (fsq s) s else s).
  set (s2 := set_res0 (nmin (res0 s1) (fsq s1)) s1).
  assert (E : still s s2 /\ status s2 = status s /\ liter s2 = liter s)
    by (subst s2 s1; destruct (_ || _);
        repeat split; try (exists []; split; reflexivity)).
  clearbody s2. clear s1.
  set (inv := nadd _ _). clearbody inv.
  set (s3 := if c_parvmec c then set_res1 _ _ else s2).
  assert (E' : still s s3 /\ status s3 = status s /\ liter s3 = liter s).
  { destruct E as (Ea & Eb & Ec).
    assert (still s2 s3 /\ status s3 = status s2 /\ liter s3 = liter s2)
      by (subst s3; destruct (c_parvmec c); [destruct (_ || _)|];
          repeat split; try (exists []; split; reflexivity)).
    destruct H as (H1 & H2 & H3).
    split; [eapply still_trans; eauto|split; congruence]. }
  clearbody s3. clear E s2. destruct E' as (Ea & Eb & Ec).
  assert (Q : still s (restart_delt0r M s3) /\ status (restart_delt0r M s3) = status s
              /\ liter (restart_delt0r M s3) = liter s).
  { split; [eapply still_trans; [exact Ea|apply restart_delt0r_still]|].
    unfold restart_delt0r, restart_iteration; destruct (reason s3); cbn; auto. }
  assert (W : forall r, still s (set_reason r s3) /\ status (set_reason r s3) = status s
              /\ liter (set_reason r s3) = liter s).
  { intros r. split; [|auto].
    eapply still_trans; [exact Ea|apply still_keep; reflexivity]. }
  destruct (c_parvmec c); dm; auto.
Qed.

Lemma report_still i s :
  still s (report c M i s) /\ status (report c M i s) = status s /\
  (liter (report c M i s) = true -> liter s = true).
Proof.
  unfold report; dm; cbn; (split; [|split; auto; try discriminate]);
  (split; [|split; reflexivity]);
  first [ eexists [_]; split; reflexivity | eexists [_; _]; split; reflexivity ].
Qed.

Lemma after_evolve_still fi bad s :
  match after_evolve c M fi bad (fi - bad) s with
  | inl s' => still s s' /\ status s' = status s /\ liter s' = liter s
  | inr (_, s') => still s s' /\ (status s' = status s \/ status s' = ST_JAC75) /\
       (liter s' = true -> liter s = true /\ status s' = status s)
  end.
Proof.
  unfold after_evolve.
  destruct ((ijacob s =? 25) || (ijacob s =? 50)) eqn:E.
  - unfold restart_delt0r, restart_iteration; cbn.
    split; [|auto]. eapply still_log; [reflexivity|..]; reflexivity.
  - set (s1 := if 75 <=? ijacob s then _ else s).
    assert (E1 : still s s1 /\ (status s1 = status s \/ status s1 = ST_JAC75) /\
       (liter s1 = true -> liter s = true /\ status s1 = status s))
      by (subst s1; destruct (_ <=? _); cbn; split;
          [apply still_keep; reflexivity|split; auto; discriminate
          |apply still_refl|auto]).
    clearbody s1. destruct E1 as (E1 & E2 & E3).
    pose proof (time_step_control_still (fi - bad) s1) as (Q1 & Q2 & Q3).
    set (s2 := time_step_control c M (fi - bad) s1) in *. clearbody s2.
    assert (D : still s s2) by (eapply still_trans; eauto).
    rewrite <- Q2 in E2, E3. rewrite <- Q3 in E3. clear Q1 Q2 Q3 E1 s1.
    match goal with |- context [if negb _ then (?a, ?b) else (?d, ?e)] =>
      assert (EX : exists bb s3, (if negb (rr_eqb (reason s2) NO_RESTART)
        then (a, b) else (d, e)) = (bb, s3) /\ still s s3 /\
        (status s3 = status s \/ status s3 = ST_JAC75) /\
        (liter s3 = true -> liter s = true /\ status s3 = status s)) end.
    { destruct (negb _).
      - eexists _, _. split; [reflexivity|].
        pose proof (restart_delt0r_still s2) as R1.
        assert (RS : status (restart_delt0r M s2) = status s2 /\
                     liter (restart_delt0r M s2) = liter s2)
          by (unfold restart_delt0r, restart_iteration; destruct (reason s2); cbn; auto).
        destruct RS as (RS & RL).
        split; [eapply still_trans; [exact D|];
                eapply still_trans; [exact R1|apply still_keep; reflexivity]|].
        cbn [status liter set_iter1]. rewrite RS, RL. auto.
      - eexists _, _. split; [reflexivity|].
        pose proof (report_still (fi - bad) s2) as (R1 & R2 & R3).
        split; [eapply still_trans; eauto|]. rewrite R2. split; auto. }
    destruct EX as (bb & s3 & -> & D3 & S3 & L3).
    destruct (vac_eqb _ _); (split; [eapply still_trans; [exact D3|];
      first [apply still_keep; reflexivity
            |apply (still_log _ _ (EvCouple VActive)); reflexivity]|]); cbn; auto.
Qed.

(** The history of the stage so far: [t0] is the history before the stage. *)
Context (t0 : list event).

Definition genuine s : Prop :=
  exists new g, trace s = new ++ t0 /\
    last_eval new = Some (g, true, fsqr s, fsqz s, fsql s) /\ conv s = true.

Definition running s : Prop :=
  status s = ST_NORMAL /\ (exists new, trace s = new ++ t0) /\
  (1 < iter2 s -> conv s = false).

Definition ok_result (r : loop_result) : Prop :=
  match r with
  | LError _ _ => True
  | LRetry s => if liter s then exists new, trace s = new ++ t0 /\ 1 <= iter2 s /\
                     (1 < iter2 s -> conv s = false) /\ status s <> ST_SUCCESS
                else status s = ST_SUCCESS -> genuine s
  | LDone s => status s = ST_SUCCESS -> genuine s
  end.

Lemma conv_still s s' : still s s' -> conv s' = conv s.
Proof.
  intros (_ & R & _). unfold conv. unfold resid in R. congruence.
Qed.

Lemma genuine_still s s' : still s s' -> genuine s -> genuine s'.
Proof.
  intros H (new & g & A & B & D).
  pose proof (conv_still _ _ H) as HC.
  destruct H as ((p & P1 & P2) & R & _).
  exists (p ++ new), g. rewrite P1, A, app_assoc. split; auto.
  unfold resid in R. injection R as R1 R2 R3. rewrite R1, R2, R3.
  split; [rewrite last_eval_app; auto|congruence].
Qed.

Lemma force_loop_genuine fuel : forall fi bad s,
  1 <= iter2 s -> iter2 s = fi - bad ->
  (liter s = true -> running s) ->
  (liter s = false -> status s = ST_SUCCESS -> genuine s) ->
  ok_result (force_loop c M fuel fi bad s).
Proof.
  induction fuel as [|k IH]; intros fi bad s Hi Hb Hr Hg.
  { cbn. intros HS. destruct (liter s) eqn:EL; auto.
    destruct (Hr eq_refl) as (A & _). congruence. }
  cbn [force_loop].
  destruct (liter s) eqn:EL.
  2:{ rewrite andb_false_r. cbn. intros HS. auto. }
  rewrite andb_true_r.
  destruct (negb _).
  { cbn. intros HS. destruct (Hr eq_refl) as (A & _). congruence. }
  destruct (Hr eq_refl) as (R1 & (new & R2) & R3).
  pose proof (evolve_count c M (delt0r s) s) as HC.
  destruct (evolve c M (delt0r s) s) as [[e s1]|s1] eqn:EV; [exact I|].
  destruct HC as (_ & B & _).
  destruct (evolve_spec _ _ _ R1 EL EV) as (pre & cpl & mid & T & P & HF & HX).
  assert (GN : conv s1 = true -> (cpl = false -> iter2 s <> 1) -> genuine s1).
  { intros CV NE. destruct cpl.
    - exists (pre ++ EvEval (m_mask M (x s)) true (fsqr s1) (fsqz s1) (fsql s1)
                  :: mid ++ new), (m_mask M (x s)).
      rewrite T, R2, <- !app_assoc. cbn. rewrite <- app_assoc.
      repeat split; auto. rewrite last_eval_app; auto.
    - exfalso. destruct (HF eq_refl) as (HF1 & _). specialize (NE eq_refl).
      assert (conv s1 = conv s) by (unfold conv; unfold resid in HF1; congruence).
      rewrite R3 in H by lia. congruence. }
  assert (HN : exists new1, trace s1 = new1 ++ t0).
  { exists (pre ++ EvEval (m_mask M (x s)) cpl (fsqr s1) (fsqz s1) (fsql s1)
                  :: mid ++ new).
    rewrite T, R2, <- !app_assoc. cbn. rewrite <- app_assoc. reflexivity. }
  match goal with |- context [if ?b then LRetry _ else _] => destruct b eqn:EJ end.
  { cbn. destruct HX as [(S1 & L1 & N1)|[(S1 & L1 & C1 & N1)|(S1 & L1 & C1 & N1)]];
      rewrite L1.
    - destruct HN as (n1 & HN). exists n1. rewrite B. repeat split; auto.
      + intros H1. destruct N1 as [N1|N1]; [lia|exact N1].
      + congruence.
    - intros _. exact (GN C1 N1).
    - destruct HN as (n1 & HN). exists n1. rewrite B. repeat split; auto. congruence. }
  match goal with |- context [if ?b then (if c_retout c then _ else _) else _] =>
    destruct b eqn:EN end.
  { destruct (c_retout c); cbn; [|exact I]. intros HS. rewrite HS in EN. discriminate. }
  rewrite <- Hb, <- B.
  assert (HB : iter2 s1 = fi - bad) by lia.
  rewrite HB.
  pose proof (after_evolve_count c M fi bad s1) as HA.
  pose proof (after_evolve_still fi bad s1) as HT.
  destruct (after_evolve c M fi bad (fi - bad) s1) as [s2|[bad2 s2]].
  - destruct HT as (T1 & T2 & T3). destruct HA as (_ & _ & A3).
    cbn. rewrite T3.
    destruct HX as [(S1 & L1 & N1)|[(S1 & L1 & C1 & N1)|(S1 & L1 & C1 & N1)]];
      rewrite L1.
    + rewrite S1 in EN. discriminate.
    + intros _. eapply genuine_still; eauto.
    + destruct HN as (n1 & HN). destruct T1 as ((p & P1 & P2) & TR & TR1).
      exists (p ++ n1). rewrite P1, HN, app_assoc.
      repeat split; [lia| |congruence].
      intros _. unfold conv in *. unfold resid in TR. congruence.
  - destruct HA as (A1 & A2 & A3 & A4). destruct HT as (T1 & T2 & T3).
    apply IH; [lia|lia| |].
    + intros L2. destruct (T3 L2) as (T4 & T5).
      destruct HX as [(S1 & L1 & N1)|[(S1 & L1 & C1 & N1)|(S1 & L1 & C1 & N1)]].
      * rewrite S1 in EN. discriminate.
      * congruence.
      * split; [congruence|].
        destruct HN as (n1 & HN). pose proof (conv_still _ _ T1) as HCV.
        destruct T1 as ((p & P1 & P2) & _).
        split; [exists (p ++ n1); rewrite P1, HN, app_assoc; reflexivity|].
        intros _. congruence.
    + intros L2 S2. destruct T2 as [T2|T2]; [|congruence].
      destruct HX as [(S1 & L1 & N1)|[(S1 & L1 & C1 & N1)|(S1 & L1 & C1 & N1)]];
        try congruence.
      eapply genuine_still; eauto.
Qed.

Lemma sel_genuine s :
  1 <= iter2 s -> (exists new, trace s = new ++ t0) ->
  (1 < iter2 s -> conv s = false) ->
  ok_result (solve_equilibrium_loop c M s).
Proof.
  intros Hi (new & HT) HC. unfold solve_equilibrium_loop.
  set (s1 := match reason s with BAD_JACOBIAN => _ | _ => s end).
  assert (E : iter2 s1 = iter2 s /\ resid s1 = resid s /\
              exists p, trace s1 = p ++ trace s)
    by (subst s1; unfold restart_delt0r, restart_iteration;
        destruct (reason s); cbn; try destruct (lreset s); cbn; repeat split;
        first [ exists []; reflexivity | eexists [_]; reflexivity
              | eexists [_; _]; reflexivity ]).
  clearbody s1. destruct E as (E1 & E2 & (p & E3)).
  apply force_loop_genuine; cbn; try lia; try discriminate.
  intros _. split; [reflexivity|]. split.
  - exists (p ++ new). cbn. rewrite E3, HT, app_assoc. reflexivity.
  - cbn. rewrite E1. intros H. unfold conv in *; cbn. unfold resid in E2.
    rewrite <- (HC H). congruence.
Qed.

Lemma retry_genuine fuel : forall s,
  1 <= iter2 s -> (exists new, trace s = new ++ t0) ->
  (1 < iter2 s -> conv s = false) ->
  (status s = ST_SUCCESS -> liter s = true -> fuel <> O) ->
  (status s = ST_SUCCESS -> liter s = false -> genuine s) ->
  match retry_loop c M fuel s with
  | LError _ _ => True
  | LRetry s' | LDone s' => status s' = ST_SUCCESS -> genuine s'
  end.
Proof.
  induction fuel as [|k IH]; intros s Hi HT HC H0 HG; cbn [retry_loop].
  { intros HS. destruct (liter s) eqn:E; auto. exfalso. apply H0; auto. }
  destruct (liter s) eqn:EL; [|auto].
  pose proof (sel_genuine s Hi HT HC) as HO.
  destruct (solve_equilibrium_loop c M s) as [e s1|s1|s1]; cbn in HO; auto.
  destruct (liter s1) eqn:EL1.
  - destruct HO as (n1 & T1 & I1 & C1 & S1).
    apply IH; eauto; intros; congruence.
  - destruct k; cbn [retry_loop]; [auto|]. rewrite EL1. auto.
Qed.

End P.

(** A stage that ends with SUCCESSFUL_TERMINATION. *)
Lemma stage_genuine {K : num} {G V F : Type} (c : @cfg K) (M : @ext K G V F) s s' :
  1 <= c_niterv c -> iter2 s = 1 ->
  solve_equilibrium c M s = StageOk s' -> status s' = ST_SUCCESS ->
  exists new g, trace s' = new ++ trace s /\
    last_eval new = Some (g, true, fsqr s', fsqz s', fsql s') /\
    within (c_ftolv c) (fsqr s') (fsqz s') (fsql s') = true.
Proof.
  intros HN HI HE HS. unfold solve_equilibrium in HE.
  set (s0 := set_lreset false (set_liter true s)) in *.
  pose proof (retry_genuine c M (trace s) (Z.to_nat (c_niterv c)) s0) as H.
  assert (X : match retry_loop c M (Z.to_nat (c_niterv c)) s0 with
              | LError _ _ => True
              | LRetry s' | LDone s' => status s' = ST_SUCCESS -> genuine c (trace s) s'
              end).
  { apply H; cbn; try lia; try discriminate. exists []; reflexivity. }
  clear H.
  destruct (retry_loop c M (Z.to_nat (c_niterv c)) s0) as [e s1|s1|s1]; cbn in HE;
    destruct (interrupted s1); try discriminate.
  - destruct (_ && _); [|discriminate]. inversion HE; subst. discriminate.
  - inversion HE; subst. destruct (X HS) as (n & g & A & B & D). eauto.
  - inversion HE; subst. destruct (X HS) as (n & g & A & B & D). eauto.
Qed.
