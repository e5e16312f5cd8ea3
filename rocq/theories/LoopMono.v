(** Proofs about the stage loop: the interrupt mark is never taken back. *)
From Coq Require Import ZArith List Bool Lia.
From Verif Require Import Base Num LoopModel LoopSpec LoopProofs.
Import ListNotations.
Open Scope Z_scope.

Section P.
Context {K : num} {G V F : Type}.
Notation st := (@st K G V F).
Context (c : @cfg K) (M : @ext K G V F).
Implicit Types (s : st).

Definition J s : Prop := interrupted s = true.
Local Arguments J : simpl never.

Lemma J_set (h : st -> st) s : (forall r, interrupted (h r) = interrupted r) -> J s -> J (h s).
Proof. unfold J. intros H E. rewrite H. exact E. Qed.

Ltac Js :=
  repeat match goal with
  | |- J (set_interrupted true _) => reflexivity
  | |- J (aborted _) => unfold aborted
  | |- J (if ?b then _ else _) => destruct b
  | |- J (?f ?a ?s) => apply (J_set (f a) s); [intros ?; reflexivity|]
  end.

Lemma restart_J d s : J s -> J (snd (restart_iteration M d s)).
Proof. intros H. unfold restart_iteration. destruct (reason s); cbn [snd]; Js; exact H. Qed.

Lemma restart_delt0r_J s : J s -> J (restart_delt0r M s).
Proof.
  intros H. unfold restart_delt0r. pose proof (restart_J (delt0r s) s H) as R1.
  destruct (restart_iteration M (delt0r s) s) as [d s']. cbn [snd] in *. Js. exact R1.
Qed.

Lemma update_J s : J s ->
  match update c M s with inl (_, s') => J s' | inr (s', _) => J s' end.
Proof.
  intros H. unfold update. cbv zeta.
  set (s0 := set_x _ s). assert (H0 : J s0) by (subst s0; Js; exact H). clearbody s0.
  destruct (o_jac_bad _); [Js; exact H0|].
  destruct (_ && _); [Js; exact H0|].
  assert (HV : match vacuum_block c (m_eval M s0) s0 with inl s' => J s' | inr (s', _) => J s' end).
  { unfold vacuum_block. dm; try exact H0; Js; exact H0. }
  destruct (vacuum_block c (m_eval M s0) s0) as [s1|[s1 nr]]; [Js; exact HV|].
  assert (H2 : J (edge_force c s1)) by (unfold edge_force; Js; exact HV).
  set (s2 := edge_force c s1) in *. clearbody s2.
  destruct (o_pc_err _); Js; exact H2.
Qed.

Lemma evolve_J s : J s ->
  match evolve c M (delt0r s) s with inl (_, s') => J s' | inr s' => J s' end.
Proof.
  intros H. unfold evolve, update_forward_model.
  assert (H0 : J (set_reason NO_RESTART s)) by (Js; exact H).
  pose proof (update_J _ H0) as HU.
  destruct (update c M (set_reason NO_RESTART s)) as [[e s2]|[s2 nr]]; [exact HU|].
  assert (HQ : exists s3, (if nr then let '(_, s0) := restart_iteration M (c_delt c) s2 in
                        inr (set_reason NO_RESTART s0) else inr s2) = @inr (bool * st) st s3
     /\ J s3).
  { destruct nr.
    - pose proof (restart_J (c_delt c) s2 HU) as R1.
      destruct (restart_iteration M (c_delt c) s2) as [d s3]. cbn [snd] in *.
      eexists; split; [reflexivity|]. Js. exact R1.
    - eauto. }
  destruct HQ as (s3 & -> & H3). clear HU H0 nr s2. cbv zeta.
  match goal with |- context [if ?b then set_status ST_BAD_JACOBIAN s3 else _] =>
    destruct b end; [cbn [negb st_eqb status set_status orb]; Js; exact H3|].
  match goal with |- context [if ?b then set_status ST_SUCCESS _ else _] =>
    destruct b end; [cbn [negb st_eqb status set_status orb]; Js; exact H3|].
  destruct (_ || _); [exact H3|].
  destruct (m_step M _ _ _ _ _ _) as [gx gv]. Js. exact H3.
Qed.

Lemma tsc_J i s : J s -> J (time_step_control c M i s).
Proof.
  intros H. unfold time_step_control. cbv zeta.
  set (s1 := if _ || _ then set_res0 (fsq s) s else s).
  assert (H1 : J s1) by (subst s1; Js; exact H). clearbody s1.
  set (s2 := set_res0 (nmin (res0 s1) (fsq s1)) s1).
  assert (H2 : J s2) by (subst s2; Js; exact H1). clearbody s2.
  destruct (c_parvmec c).
  - match goal with |- context [set_res1 (nmin _ _) ?u] => set (s3 := u) end.
    assert (H3 : J s3) by (subst s3; Js; exact H2). clearbody s3.
    set (s4 := set_res1 (nmin _ _) s3).
    assert (H4 : J s4) by (subst s4; Js; exact H3). clearbody s4.
    match goal with |- J (if ?b then _ else _) => destruct b end;
      [apply restart_delt0r_J; auto|].
    match goal with |- J (if ?b then _ else _) => destruct b end; Js; exact H4.
  - match goal with |- J (if ?b then _ else _) => destruct b end;
      [apply restart_delt0r_J; auto|].
    match goal with |- J (if ?b then _ else _) => destruct b end; [Js; exact H2|].
    match goal with |- J (if ?b then _ else _) => destruct b end; Js; exact H2.
Qed.

Lemma after_evolve_J fi bad i s : J s ->
  match after_evolve c M fi bad i s with inl s' => J s' | inr (_, s') => J s' end.
Proof.
  intros H. unfold after_evolve. destruct (_ || _).
  - cbv zeta. Js. apply restart_delt0r_J. Js. exact H.
  - set (s1 := if 75 <=? ijacob s then _ else s).
    assert (H1 : J s1) by (subst s1; Js; exact H). clearbody s1. cbv zeta.
    pose proof (tsc_J i s1 H1) as H2.
    set (s2 := time_step_control c M i s1) in *. clearbody s2.
    assert (FIN : forall b (s3 : st), J s3 ->
      J (set_iter2 (fi - b + 1) (if vac_eqb (vac s3) VInitialized
             then log (EvCouple VActive) (set_vac VActive s3) else s3)))
      by (intros b s3 H3; Js; exact H3).
    destruct (negb _).
    + apply FIN. apply (J_set (set_iter1 i) _); [reflexivity|].
      apply restart_delt0r_J. exact H2.
    + apply FIN. unfold report. cbv zeta. destruct (_ || _); [|Js; exact H2].
      destruct (c_cb c); Js; exact H2.
Qed.

Lemma force_loop_J fuel : forall fi bad s, J s ->
  match force_loop c M fuel fi bad s with LError _ s' | LRetry s' | LDone s' => J s' end.
Proof.
  induction fuel as [|k IH]; intros fi bad s H; cbn [force_loop]; [exact H|].
  destruct (negb _); [exact H|].
  pose proof (evolve_J s H) as HE.
  destruct (evolve c M (delt0r s) s) as [[e s1]|s1]; [exact HE|].
  match goal with |- context [if ?b then LRetry _ else _] => destruct b end; [Js; exact HE|].
  match goal with |- context [if ?b then (if c_retout c then _ else _) else _] => destruct b end;
    [destruct (c_retout c); exact HE|].
  cbv zeta.
  pose proof (after_evolve_J fi bad (fi - bad) s1 HE) as HA.
  destruct (after_evolve c M fi bad (fi - bad) s1) as [s2|[b2 s2]]; [exact HA|].
  apply IH. exact HA.
Qed.

Lemma retry_J fuel : forall s, J s ->
  match retry_loop c M fuel s with LError _ s' | LRetry s' | LDone s' => J s' end.
Proof.
  induction fuel as [|k IH]; intros s H; cbn [retry_loop]; [exact H|].
  destruct (liter s); [|exact H].
  assert (HS : match solve_equilibrium_loop c M s with
               LError _ s' | LRetry s' | LDone s' => J s' end).
  { unfold solve_equilibrium_loop.
    set (s1 := match reason s with BAD_JACOBIAN => _ | _ => s end).
    assert (H1 : J s1).
    { subst s1. destruct (reason s); auto. cbv zeta. apply restart_delt0r_J.
      apply (J_set (set_reason NO_RESTART) _); [reflexivity|]. Js; exact H. }
    clearbody s1. cbv zeta. apply force_loop_J. Js. exact H1. }
  destruct (solve_equilibrium_loop c M s) as [e s1|s1|s1];
    first [exact HS | apply IH; exact HS].
Qed.

Lemma solve_J s : J s ->
  match solve_equilibrium c M s with
  | StageCancelled s' => J s'
  | _ => False
  end.
Proof.
  intros H. unfold solve_equilibrium.
  assert (HW : J (set_lreset false (set_liter true s))) by (Js; exact H).
  pose proof (retry_J (Z.to_nat (c_niterv c)) _ HW) as HR.
  destruct (retry_loop _ _ _ _) as [e s2|s2|s2]; cbn [finish_stage];
    rewrite HR; exact HR.
Qed.

End P.
