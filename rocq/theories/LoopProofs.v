(** Proofs about the stage loop (LoopModel.v): counting of evaluations. *)
From Coq Require Import ZArith List Bool Lia.
From Verif Require Import Base Num LoopModel LoopSpec.
Import ListNotations.
Open Scope Z_scope.

(** Case analysis on everything a function tests. *)
Ltac dm :=
  repeat match goal with
  | |- context [match ?e with _ => _ end] =>
      lazymatch e with
      | context [match _ with _ => _ end] => fail
      | _ => destruct e eqn:?
      end
  end.

Section P.
Context {K : num} {G V F : Type}.
Notation st := (@st K G V F).
Notation event := (@event K G V).
Context (c : @cfg K) (M : @ext K G V F).

Implicit Types (s : st) (o : @evalout K F).

(** Same counters, no evaluation, counters of bad Jacobians may grow by one. *)
Definition quiet (s s' : st) : Prop :=
  evals (trace s') = evals (trace s) /\ iter2 s' = iter2 s /\
  (ijacob s' = ijacob s \/ ijacob s' = ijacob s + 1).

Lemma quiet_refl s : quiet s s.
Proof. unfold quiet; auto. Qed.

Lemma restart_iteration_quiet d s :
  quiet s (snd (restart_iteration M d s)).
Proof. unfold restart_iteration, quiet; destruct (reason s); cbn; auto. Qed.

Lemma restart_delt0r_quiet s : quiet s (restart_delt0r M s).
Proof.
  unfold restart_delt0r.
  pose proof (restart_iteration_quiet (delt0r s) s) as H.
  destruct (restart_iteration M (delt0r s) s) as [d s'].
  unfold quiet in *; cbn in *; exact H.
Qed.

Lemma vacuum_block_quiet o s :
  match vacuum_block c o s with
  | inl s' => evals (trace s') = evals (trace s) /\ iter2 s' = iter2 s /\
              ijacob s' = ijacob s
  | inr (s', _) => evals (trace s') = evals (trace s) /\ iter2 s' = iter2 s /\
              ijacob s' = ijacob s
  end.
Proof. unfold vacuum_block; dm; cbn; auto. Qed.

Lemma update_count s :
  match update c M s with
  | inl (_, s') => evals (trace s') = S (evals (trace s)) /\ iter2 s' = iter2 s /\
              ijacob s' = ijacob s
  | inr (s', _) => evals (trace s') = S (evals (trace s)) /\ iter2 s' = iter2 s /\
              ijacob s' = ijacob s
  end.
Proof.
  unfold update.
  set (s0 := set_x _ s).
  assert (H0 : trace s0 = trace s /\ iter2 s0 = iter2 s /\ ijacob s0 = ijacob s)
    by (subst s0; cbn; auto).
  clearbody s0. destruct H0 as (E1 & E2 & E3).
  destruct (o_jac_bad _); [cbn; rewrite E1, E2, E3; auto|].
  destruct (_ && _); [cbn; rewrite E1, E2, E3; auto|].
  pose proof (vacuum_block_quiet (m_eval M s0) s0) as HV.
  destruct (vacuum_block c (m_eval M s0) s0) as [s1|[s1 nr]].
  - cbn. destruct HV as (A & B & C). unfold evals in *; cbn.
    rewrite A, B, C, E1, E2, E3; auto.
  - destruct HV as (A & B & C). unfold edge_force, evals in *.
    dm; cbn in *; rewrite ?A, ?B, ?C, E1, E2, E3; auto.
Qed.

Lemma ufm_count s :
  match update_forward_model c M s with
  | inl (_, s') => evals (trace s') = S (evals (trace s)) /\ iter2 s' = iter2 s /\
              ijacob s' = ijacob s
  | inr s' => evals (trace s') = S (evals (trace s)) /\ iter2 s' = iter2 s /\
              ijacob s <= ijacob s'
  end.
Proof.
  unfold update_forward_model.
  pose proof (update_count s) as H.
  destruct (update c M s) as [[e s1]|[s1 nr]]; [exact H|].
  destruct H as (A & B & C).
  destruct nr; [|repeat split; auto; lia].
  pose proof (restart_iteration_quiet (c_delt c) s1) as Q.
  destruct (restart_iteration M (c_delt c) s1) as [d s2].
  unfold quiet in Q; cbn in *.
  destruct Q as (Q1 & Q2 & Q3). rewrite Q1, Q2, A, B.
  repeat split; auto. lia.
Qed.

Lemma evolve_count ts s :
  match evolve c M ts s with
  | inl (_, s') => evals (trace s') = S (evals (trace s)) /\ iter2 s' = iter2 s /\
              ijacob s' = ijacob s
  | inr s' => evals (trace s') = S (evals (trace s)) /\ iter2 s' = iter2 s /\
              ijacob s <= ijacob s'
  end.
Proof.
  unfold evolve.
  pose proof (ufm_count (set_reason NO_RESTART s)) as H.
  destruct (update_forward_model c M (set_reason NO_RESTART s)) as [[e s1]|s1].
  - cbn in H; exact H.
  - cbn in H. destruct H as (A & B & C).
    rewrite <- A, <- B. revert C. generalize (ijacob s); clear; intros j Hj.
    set (s2 := if _ : bool then set_status ST_BAD_JACOBIAN s1 else _).
    assert (E : trace s2 = trace s1 /\ iter2 s2 = iter2 s1 /\ ijacob s2 = ijacob s1)
      by (subst s2; dm; cbn; auto).
    clearbody s2. destruct E as (E1 & E2 & E3).
    rewrite <- E1, <- E2. rewrite <- E3 in Hj. clear E1 E2 E3 s1.
    destruct (_ || _); [auto|].
    destruct (m_step M _ _ _ _ _ _) as [gx gv].
    cbn; auto.
Qed.

Lemma time_step_control_quiet i s : quiet s (time_step_control c M i s).
Proof.
  unfold time_step_control.
  set (s1 := if _ || _ then set_res0 (fsq s) s else s).
  set (s2 := set_res0 (nmin (res0 s1) (fsq s1)) s1).
  assert (E : trace s2 = trace s /\ iter2 s2 = iter2 s /\ ijacob s2 = ijacob s)
    by (subst s2 s1; destruct (_ || _); cbn; auto).
  clearbody s2. clear s1.
  set (inv := nadd _ _). clearbody inv.
  set (s3 := if c_parvmec c then set_res1 _ _ else s2).
  assert (E' : trace s3 = trace s /\ iter2 s3 = iter2 s /\ ijacob s3 = ijacob s)
    by (subst s3; destruct (c_parvmec c); [destruct (_ || _)|]; cbn; tauto).
  clearbody s3. clear E s2.
  assert (Q : quiet s (restart_delt0r M s3)).
  { pose proof (restart_delt0r_quiet s3) as Q. unfold quiet in *.
    destruct E' as (E1 & E2 & E3). rewrite E1, E2, E3 in Q. exact Q. }
  destruct E' as (E1 & E2 & E3).
  destruct (c_parvmec c).
  - dm; auto; unfold quiet; cbn; rewrite E1, E2, E3; auto.
  - dm; auto; unfold quiet; cbn; rewrite E1, E2, E3; auto.
Qed.

Lemma report_frame i s :
  evals (trace (report c M i s)) = evals (trace s) /\
  iter2 (report c M i s) = iter2 s /\ ijacob (report c M i s) = ijacob s.
Proof. unfold report; dm; cbn; auto. Qed.

(** How many further retries [ijacob] still admits. *)
Definition rank (j : Z) : nat :=
  if j <=? 0 then 3%nat else if j <=? 25 then 2%nat
  else if j <=? 50 then 1%nat else 0%nat.

Lemma rank_mono i j : i <= j -> (rank j <= rank i)%nat.
Proof.
  intros H; unfold rank.
  destruct (Z.leb_spec i 0), (Z.leb_spec j 0), (Z.leb_spec i 25), (Z.leb_spec j 25),
    (Z.leb_spec i 50), (Z.leb_spec j 50); lia.
Qed.

Lemma after_evolve_count fi bad s :
  match after_evolve c M fi bad (fi - bad) s with
  | inl s' => evals (trace s') = evals (trace s) /\
              (ijacob s = 25 /\ ijacob s' = 26 \/ ijacob s = 50 /\ ijacob s' = 51)
              /\ iter2 s' = iter2 s
  | inr (bad', s') => evals (trace s') = evals (trace s) /\
              ijacob s <= ijacob s' /\ iter2 s' = fi - bad' + 1 /\
              (bad' = bad \/ bad' = bad + 1)
  end.
Proof.
  unfold after_evolve.
  destruct ((ijacob s =? 25) || (ijacob s =? 50)) eqn:E.
  - unfold restart_delt0r, restart_iteration; cbn.
    apply orb_true_iff in E. rewrite !Z.eqb_eq in E.
    repeat split; auto; lia.
  - set (s1 := if 75 <=? ijacob s then _ else s).
    assert (E1 : trace s1 = trace s /\ ijacob s1 = ijacob s)
      by (subst s1; destruct (_ <=? _); cbn; auto).
    clearbody s1. destruct E1 as (E1 & E2).
    pose proof (time_step_control_quiet (fi - bad) s1) as Q.
    set (s2 := time_step_control c M (fi - bad) s1) in *. clearbody s2.
    destruct Q as (Q1 & _ & Q3).
    destruct (negb (rr_eqb (reason s2) NO_RESTART)) eqn:EN.
    + pose proof (restart_delt0r_quiet s2) as (R1 & _ & R3).
      set (s3 := restart_delt0r M s2) in *. clearbody s3.
      unfold evals in *; dm; cbn; rewrite R1, Q1, E1; repeat split; auto; lia.
    + pose proof (report_frame (fi - bad) s2) as (R1 & _ & R3).
      set (s3 := report c M (fi - bad) s2) in *. clearbody s3.
      unfold evals in *; dm; cbn; rewrite R1, Q1, E1; repeat split; auto; lia.
Qed.

Definition res_st (r : loop_result) : st :=
  match r with LError _ s | LRetry s | LDone s => s end.

Lemma force_loop_count fuel : forall fi bad s,
  1 <= iter2 s -> iter2 s = fi - bad ->
  let r := force_loop c M fuel fi bad s in
  (evals (trace (res_st r)) <= evals (trace s) + fuel)%nat /\
  match r with
  | LRetry s' => (rank (ijacob s') < rank (ijacob s))%nat /\ 1 <= iter2 s'
  | _ => True
  end.
Proof.
  induction fuel as [|k IH]; intros fi bad s Hi Hb; cbn; [split; [lia|exact I]|].
  destruct (negb _); [cbn; split; [lia|exact I]|].
  pose proof (evolve_count (delt0r s) s) as HE.
  destruct (evolve c M (delt0r s) s) as [[e s1]|s1].
  { cbn. destruct HE as (A & _). split; [lia|exact I]. }
  destruct HE as (A & B & C).
  match goal with |- context [if ?b then LRetry _ else _] => destruct b eqn:EJ end.
  { cbn [res_st]. cbn [trace ijacob iter2 set_lreset set_reason set_ijacob]. split; [rewrite A; lia|].
    apply andb_true_iff in EJ. destruct EJ as [EJ _].
    apply andb_true_iff in EJ. destruct EJ as [EJ _].
    apply Z.eqb_eq in EJ.
    assert (rank (ijacob s1) <= rank (ijacob s))%nat by (apply rank_mono; lia).
    rewrite EJ in H. change (rank 0) with 3%nat in H. change (rank 1) with 2%nat. lia. }
  match goal with |- context [if ?b then (if c_retout c then _ else _) else _] => destruct b end.
  { destruct (c_retout c); cbn [res_st]; (split; [lia|exact I]). }
  rewrite <- Hb, <- B.
  assert (HB : iter2 s1 = fi - bad) by lia.
  rewrite HB.
  pose proof (after_evolve_count fi bad s1) as HA.
  destruct (after_evolve c M fi bad (fi - bad) s1) as [s2|[bad2 s2]].
  - destruct HA as (A1 & A2 & A3). cbn. split; [lia|].
    assert (rank (ijacob s1) <= rank (ijacob s))%nat by (apply rank_mono; lia).
    split; [|lia].
    destruct A2 as [[P Q]|[P Q]]; rewrite P in *; rewrite Q;
      revert H; cbn [rank]; unfold rank; cbn; lia.
  - destruct HA as (A1 & A2 & A3 & A4).
    specialize (IH (fi + 1) bad2 s2).
    destruct IH as [I1 I2]; [lia|lia|].
    split; [lia|].
    destruct (force_loop c M k (fi + 1) bad2 s2); auto.
    destruct I2 as [I2 I3]. split; [|exact I3].
    assert (rank (ijacob s2) <= rank (ijacob s))%nat by (apply rank_mono; lia). lia.
Qed.

Lemma sel_count s :
  1 <= iter2 s ->
  let r := solve_equilibrium_loop c M s in
  (evals (trace (res_st r)) <= evals (trace s) + Z.to_nat (c_niterv c))%nat /\
  match r with
  | LRetry s' => (rank (ijacob s') < rank (ijacob s))%nat /\ 1 <= iter2 s'
  | _ => True
  end.
Proof.
  intros Hi. unfold solve_equilibrium_loop.
  set (s1 := match reason s with BAD_JACOBIAN => _ | _ => s end).
  assert (E : evals (trace s1) = evals (trace s) /\ iter2 s1 = iter2 s /\
              ijacob s1 = ijacob s)
    by (subst s1; unfold restart_delt0r, restart_iteration;
        destruct (reason s); cbn; try destruct (lreset s); cbn; repeat split).
  clearbody s1. destruct E as (E1 & E2 & E3).
  set (s2 := set_status _ _). cbv zeta.
  assert (E' : trace s2 = trace s1 /\ iter2 s2 = iter2 s1 /\ ijacob s2 = ijacob s1)
    by (subst s2; cbn; auto).
  clearbody s2. destruct E' as (F1 & F2 & F3).
  pose proof (force_loop_count (Z.to_nat (c_niterv c - iter2 s2 + 1)) (iter2 s2) 0 s2)
    as H.
  destruct H as [H1 H2]; [lia|lia|].
  rewrite F1, E1 in H1. rewrite F3, E3 in H2.
  split; [|exact H2]. cbn zeta. lia.
Qed.

Lemma retry_count fuel : forall s,
  1 <= iter2 s ->
  (evals (trace (res_st (retry_loop c M fuel s)))
   <= evals (trace s) + (1 + rank (ijacob s)) * Z.to_nat (c_niterv c))%nat.
Proof.
  induction fuel as [|k IH]; intros s Hi; cbn [retry_loop]; [cbn; lia|].
  destruct (liter s); [|cbn; lia].
  pose proof (sel_count s Hi) as [H1 H2]. cbn zeta in *.
  destruct (solve_equilibrium_loop c M s) as [e s1|s1|s1]; cbn [res_st] in *;
    [nia| |nia].
  destruct H2 as [H2 H3]. specialize (IH s1 H3). nia.
Qed.

Lemma stage_count s :
  1 <= iter2 s -> ijacob s = 0 ->
  match solve_equilibrium c M s with
  | StageCancelled s' | StageError s' | StageOk s' =>
      (evals (trace s') <= evals (trace s) + 4 * Z.to_nat (c_niterv c))%nat
  end.
Proof.
  intros Hi Hj. unfold solve_equilibrium.
  pose proof (retry_count (Z.to_nat (c_niterv c)) (set_lreset false (set_liter true s)) Hi)
    as H.
  cbn [trace ijacob set_lreset set_liter] in H. rewrite Hj in H.
  change (1 + rank 0)%nat with 4%nat in H.
  destruct (retry_loop _ _ _ _) as [e s1|s1|s1]; cbn [res_st finish_stage] in *;
    destruct (interrupted s1); auto.
  destruct (_ && _); cbn; exact H.
Qed.

End P.
