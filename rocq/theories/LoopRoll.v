(** Proofs about the stage loop: roll-backs and time steps. *)
From Coq Require Import ZArith List Bool Lia.
From Verif Require Import Base Num LoopModel LoopSpec LoopProofs LoopConv.
Import ListNotations.
Open Scope Z_scope.

Section P.
Context {K : num} {G V F : Type}.
Notation st := (@st K G V F).
Notation event := (@event K G V).
Context (c : @cfg K) (M : @ext K G V F).
Context (good : K -> Prop).
Hypothesis good_delt : good (c_delt c).
Hypothesis good_9 : forall d, good d -> good (nmul d (nfrac 9 10)).
Hypothesis good_103 : forall d, good d -> good (ndiv d (nfrac 103 100)).
Hypothesis good_98 : good (nmul (nfrac 98 100) (c_delt c)).
Hypothesis good_96 : good (nmul (nfrac 96 100) (c_delt c)).
Hypothesis mask_idem : forall g, m_mask M (m_mask M g) = m_mask M g.
Implicit Types (s : st).

Definition W0 (w : list event * G * K * V * G) : Prop :=
  let '(tr, b, d, vel, g) := w in
  always (roll_ok (m_vzero M) (m_mask M) good) tr /\
  last_save tr = Some b /\ good d /\
  (forall g0, last_move tr = Some (EvRollback g0) ->
     vel = m_vzero M /\ (g = g0 \/ g = m_mask M g0)).
Definition wt s := (trace s, bak s, delt0r s, v s, x s).
Definition W s := W0 (wt s).
Local Arguments W : simpl never.

Lemma W_frame s s' : wt s' = wt s -> W s -> W s'.
Proof. unfold W. intros ->. auto. Qed.

Lemma W_set (h : st -> st) s : (forall r, wt (h r) = wt r) -> W s -> W (h s).
Proof. unfold W. intros H. rewrite H. auto. Qed.

Definition neutral (e : event) : Prop :=
  match e with
  | EvSave _ | EvRollback _ | EvReinit _ | EvStep _ _ _ => False
  | _ => True
  end.

Lemma W_log e s s' : neutral e ->
  wt s' = (e :: trace s, bak s, delt0r s, v s, x s) -> W s -> W s'.
Proof.
  unfold W. intros N ->. cbn. intros (A & B & C & D).
  split; [|destruct e; cbn in *; auto; contradiction].
  split; auto. destruct e; cbn in *; auto; contradiction.
Qed.

Lemma W_log1 e s : neutral e -> W s -> W (log e s).
Proof. intros N H. apply (W_log e s); auto. Qed.

Lemma restart_W dt s : W s -> good dt ->
  W (snd (restart_iteration M dt s)) /\ good (fst (restart_iteration M dt s)).
Proof.
  intros (A & B & C & D) Hd. unfold restart_iteration.
  destruct (reason s); cbn [fst snd]; split; auto;
    unfold W, wt; cbn; (split; [|split; [|split]]); auto;
    intros g0 E; try (inversion E; subst; auto); exact (D g0 E).
Qed.

Lemma restart_delt0r_W s : W s -> W (restart_delt0r M s).
Proof.
  intros H. unfold restart_delt0r.
  assert (Hd : good (delt0r s)) by apply H.
  pose proof (restart_W (delt0r s) s H Hd) as (H1 & H2).
  destruct (restart_iteration M (delt0r s) s) as [d s']. cbn [fst snd] in *.
  destruct H1 as (A & B & C & D). unfold W, wt; cbn. auto.
Qed.

Ltac Wf :=
  repeat match goal with
  | |- W (aborted _) => unfold aborted
  | |- W (log ?e ?s) => apply (W_log1 e s); [exact I|]
  | |- W (?f ?a ?s) => apply (W_set (f a) s); [intros ?; reflexivity|]
  end; auto.

Lemma vacuum_block_W o s : W s ->
  match vacuum_block c o s with inl s' => W s' | inr (s', _) => W s' end.
Proof.
  intros H. unfold vacuum_block. dm; Wf.
Qed.

Lemma update_W s : W s ->
  match update c M s with inl (_, s') => W s' | inr (s', _) => W s' end.
Proof.
  intros H. unfold update.
  set (s0 := set_x _ s).
  assert (H0 : W s0).
  { destruct H as (A & B & C & D). unfold W, wt; cbn. repeat split; auto;
      destruct (D g0 H) as (D1 & D2); auto.
    destruct D2 as [-> | ->]; auto. }
  clearbody s0. cbv zeta.
  destruct (o_jac_bad _); [Wf|].
  destruct (_ && _); [Wf|].
  pose proof (vacuum_block_W (m_eval M s0) s0 H0) as HV.
  destruct (vacuum_block c (m_eval M s0) s0) as [s1|[s1 nr]]; [Wf|].
  assert (H2 : W (edge_force c s1)) by (unfold edge_force; destruct (_ && _); Wf).
  set (s2 := edge_force c s1) in *. clearbody s2.
  destruct (o_pc_err _); [Wf|].
  match goal with |- W (if ?b then _ else _) => destruct b end;
  (eapply (W_log (EvEval _ _ _ _ _) s2); [exact I|cbn; reflexivity|exact H2]).
Qed.

Lemma evolve_W s : W s ->
  match evolve c M (delt0r s) s with inl (_, s') => W s' | inr s' => W s' end.
Proof.
  intros H. unfold evolve, update_forward_model.
  assert (H0 : W (set_reason NO_RESTART s)) by Wf.
  pose proof (update_W _ H0) as HU.
  assert (HD : good (delt0r s)) by apply H.
  destruct (update c M (set_reason NO_RESTART s)) as [[e s2]|[s2 nr]]; [exact HU|].
  assert (HQ : exists s3, (if nr then let '(_, s0) := restart_iteration M (c_delt c) s2 in
                        inr (set_reason NO_RESTART s0) else inr s2) = @inr (bool * st) st s3
                        /\ W s3).
  { destruct nr.
    - pose proof (restart_W (c_delt c) s2 HU good_delt) as (R1 & _).
      destruct (restart_iteration M (c_delt c) s2) as [d s3]. cbn [snd] in R1.
      eexists; split; [reflexivity|]. Wf.
    - eauto. }
  destruct HQ as (s3 & -> & H3). clear HU H0 nr s2.
  cbv zeta.
  match goal with |- context [if ?b then set_status ST_BAD_JACOBIAN s3 else _] =>
    destruct b end; [cbn [negb st_eqb status set_status orb]; Wf|].
  match goal with |- context [if ?b then set_status ST_SUCCESS _ else _] =>
    destruct b end; [cbn [negb st_eqb status set_status orb]; Wf|].
  destruct (_ || _); [exact H3|].
  match goal with |- context [set_fsq ?a (set_invtau ?b s3)] =>
    set (s4 := set_fsq a (set_invtau b s3)) end.
  assert (H4 : W s4) by (subst s4; Wf). clearbody s4.
  destruct (m_step M _ _ _ _ _ _) as [gx gv].
  destruct H4 as (A & B & C & D). unfold W, wt; cbn.
  split; [split; [split; [exact HD|exact D]|exact A]|].
  split; [exact B|split; [exact C|discriminate]].
Qed.

Lemma tsc_W i s : W s -> W (time_step_control c M i s).
Proof.
  intros H. unfold time_step_control. cbv zeta.
  set (s1 := if _ || _ then set_res0 (fsq s) s else s).
  assert (H1 : W s1) by (subst s1; destruct (_ || _); Wf). clearbody s1.
  set (s2 := set_res0 (nmin (res0 s1) (fsq s1)) s1).
  assert (H2 : W s2) by (subst s2; Wf). clearbody s2.
  destruct (c_parvmec c).
  - match goal with |- context [set_res1 (nmin _ _) ?u] => set (s3 := u) end.
    assert (H3 : W s3) by (subst s3; destruct (_ || _); Wf). clearbody s3.
    set (s4 := set_res1 (nmin _ _) s3).
    assert (H4 : W s4) by (subst s4; Wf). clearbody s4.
    match goal with |- W (if ?b then _ else _) => destruct b end;
      [apply restart_delt0r_W; auto|].
    match goal with |- W (if ?b then _ else _) => destruct b end; Wf.
  - match goal with |- W (if ?b then _ else _) => destruct b end;
      [apply restart_delt0r_W; auto|].
    match goal with |- W (if ?b then _ else _) => destruct b end; [Wf|].
    match goal with |- W (if ?b then _ else _) => destruct b end; Wf.
Qed.

Lemma report_W i s : W s -> W (report c M i s).
Proof.
  intros H. unfold report. cbv zeta. dm; Wf.
Qed.

Lemma after_evolve_W fi bad i s : W s ->
  match after_evolve c M fi bad i s with inl s' => W s' /\ reason s' = NO_RESTART | inr (_, s') => W s' end.
Proof.
  intros H. unfold after_evolve.
  destruct (_ || _).
  - cbv zeta.
    assert (HB : W (restart_delt0r M (set_reason BAD_JACOBIAN s)))
      by (apply restart_delt0r_W; Wf).
    split; [|reflexivity].
    set (s1 := restart_delt0r M _) in *. clearbody s1.
    destruct HB as (A & B & C & D). unfold W, wt; cbn.
    split; [exact A|split; [exact B|split; [|exact D]]]. destruct (_ <? _); auto.
  - set (s1 := if 75 <=? ijacob s then _ else s).
    assert (H1 : W s1) by (subst s1; destruct (_ <=? _); Wf). clearbody s1.
    cbv zeta.
    pose proof (tsc_W i s1 H1) as H2.
    set (s2 := time_step_control c M i s1) in *. clearbody s2.
    destruct (negb _).
    + assert (H3 : W (set_iter1 i (restart_delt0r M s2)))
        by (apply (W_frame (restart_delt0r M s2)); [reflexivity|]; apply restart_delt0r_W; auto).
      set (s3 := set_iter1 i _) in *. clearbody s3.
      destruct (vac_eqb _ _); Wf.
    + pose proof (report_W i s2 H2) as H3.
      set (s3 := report c M i s2) in *. clearbody s3.
      destruct (vac_eqb _ _); Wf.
Qed.

Definition resW (r : loop_result) : Prop :=
  match r with
  | LError _ s | LDone s => W s
  | LRetry s => W s /\ (reason s = BAD_JACOBIAN -> lreset s = true)
  end.

Lemma force_loop_W fuel : forall fi bad s, W s -> resW (force_loop c M fuel fi bad s).
Proof.
  induction fuel as [|k IH]; intros fi bad s H; [exact H|].
  cbn [force_loop].
  destruct (negb _); [exact H|].
  pose proof (evolve_W s H) as HE.
  destruct (evolve c M (delt0r s) s) as [[e s1]|s1]; [exact HE|].
  match goal with |- context [if ?b then LRetry _ else _] => destruct b end.
  { split; [|auto]. Wf. }
  match goal with |- context [if ?b then (if c_retout c then _ else _) else _] =>
    destruct b end; [destruct (c_retout c); exact HE|].
  pose proof (after_evolve_W fi bad (fi - bad) s1 HE) as HA.
  destruct (after_evolve c M fi bad (fi - bad) s1) as [s2|[b2 s2]].
  - destruct HA as (A & B). split; auto. congruence.
  - apply IH; auto.
Qed.

Lemma sel_W s : W s -> (reason s = BAD_JACOBIAN -> lreset s = true) ->
  resW (solve_equilibrium_loop c M s).
Proof.
  intros H HR. unfold solve_equilibrium_loop. apply force_loop_W.
  apply (W_frame (match reason s with
    | BAD_JACOBIAN =>
        let s := set_x (m_gzero M) s in
        let s := if lreset s then log (EvReinit (m_reguess M)) (set_x (m_reguess M) s)
                 else s in
        restart_delt0r M (set_reason NO_RESTART s)
    | _ => s
    end)); [reflexivity|].
  destruct (reason s); auto. cbn zeta. cbn [lreset set_x]. rewrite HR by auto.
  apply restart_delt0r_W.
  destruct H as (A & B & C & D). unfold W, wt; cbn.
  split; [split; auto|split; [exact B|split; [exact C|discriminate]]].
Qed.

Lemma retry_W fuel : forall s, W s -> (reason s = BAD_JACOBIAN -> lreset s = true) ->
  match retry_loop c M fuel s with LError _ s' | LRetry s' | LDone s' => W s' end.
Proof.
  induction fuel as [|k IH]; intros s H HR; cbn [retry_loop]; [exact H|].
  destruct (liter s); [|exact H].
  pose proof (sel_W s H HR) as HO.
  destruct (solve_equilibrium_loop c M s) as [e s1|s1|s1]; auto.
  destruct HO as (A & B). apply IH; auto.
Qed.

Lemma init_W g s :
  always (roll_ok (m_vzero M) (m_mask M) good) (trace s) ->
  W (init_stage c M g s).
Proof.
  intros H. unfold W, wt; cbn; (split; [|split; [|split]]); auto; discriminate.
Qed.

Lemma init_reason g s : reason (init_stage c M g s) = NO_RESTART.
Proof. reflexivity. Qed.

Lemma solve_W s0 : W s0 -> reason s0 = NO_RESTART ->
  match solve_equilibrium c M s0 with
  | StageCancelled s' | StageError s' | StageOk s' => W s'
  end.
Proof.
  intros H0 HN. unfold solve_equilibrium.
  assert (HW : W (set_lreset false (set_liter true s0))) by Wf.
  assert (HB : reason (set_lreset false (set_liter true s0)) = BAD_JACOBIAN ->
               lreset (set_lreset false (set_liter true s0)) = true)
    by (cbn; congruence).
  pose proof (retry_W (Z.to_nat (c_niterv c)) _ HW HB) as HR.
  destruct (retry_loop _ _ _ _) as [e s2|s2|s2]; cbn [finish_stage];
    destruct (interrupted s2); auto.
  destruct (_ && _); auto.
Qed.

Lemma stage_W g s :
  always (roll_ok (m_vzero M) (m_mask M) good) (trace s) ->
  match solve_equilibrium c M (init_stage c M g s) with
  | StageCancelled s' | StageError s' | StageOk s' => W s'
  end.
Proof.
  intros H. apply solve_W; [apply init_W; exact H|apply init_reason].
Qed.

End P.
