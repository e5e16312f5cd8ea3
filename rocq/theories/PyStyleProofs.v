(** The styles of the Python driver differ only in their reverts. *)
From Coq Require Import ZArith List Bool Lia.
From Verif Require Import Base Num LoopModel PyIterModel PyIterSpec PyIterProofs PyStyleSpec.
Import ListNotations.
Open Scope Z_scope.

Section Styles.
Context {K : num} {G V F : Type}.
Context (c : @cfg K) (M : @ext K G V F).
Local Notation st := (@st K G V F).
Hypothesis Hfb : c_lfreeb c = false.
Hypothesis BL : blind_to_control M.

Definition longer (s s' : st) : Prop := exists l, trace s' = l ++ trace s.

Lemma longer_refl s : longer s s. Proof. exists []. reflexivity. Qed.
Lemma longer_trans a b d : longer a b -> longer b d -> longer a d.
Proof. intros [l A] [m B]. exists (m ++ l). rewrite B, A, app_assoc. reflexivity. Qed.
Lemma longer_quiet s s' : longer s s' -> never_reverts s' -> never_reverts s.
Proof. intros [l A] N g I. apply (N g). rewrite A. apply in_or_app. right. exact I. Qed.

(** [evaluate] *)
Definition both (r q : st + st) : Prop :=
  match r, q with inl s, inl p | inr s, inr p => alike s p | _, _ => False end.

Lemma moves_log e (t u : list (@event K G V)) : moves t = moves u -> moves (e :: t) = moves (e :: u).
Proof. intros A. unfold moves in *. cbn [filter]. destruct (is_move e); rewrite A; reflexivity. Qed.

Ltac opens s p SM :=
  destruct s as [x0 v0 b0 f0 i1 i2 ij rr r0 r1 dt fq fr fz fl fr1 fz1 fl1 tau vc nvs ivs stt li int lr nc tr];
  destruct p as [px pv pb pf pi1 pi2 pij prr pr0 pr1 pdt pfq pfr pfz pfl pfr1 pfz1 pfl1 ptau pvc pnvs pivs pstt pli pint plr pnc ptr];
  unfold alike in SM; pj; destruct SM as (A1 & A2 & A3 & A4 & A5 & A6 & A7 & A8 & A9 & A10 & A11 & A12 & A13 & A14 & A15 & A16 & A17 & A18);
  subst px pv pf pi1 pi2 pij prr pdt pfq pfr pfz pfl pfr1 pfz1 pfl1 ptau pvc.

Ltac finish := unfold both, alike; pj; repeat split; first [reflexivity | assumption | apply moves_log; assumption].

Lemma evaluate_alike s p : alike s p -> both (evaluate c M s) (evaluate c M p).
Proof.
  intros SM. unfold evaluate. rewrite !update_fixed by exact Hfb. cbv zeta.
  assert (EO : m_eval M (set_x (m_mask M (x (set_reason NO_RESTART p))) (set_reason NO_RESTART p)) =
               m_eval M (set_x (m_mask M (x (set_reason NO_RESTART s))) (set_reason NO_RESTART s))).
  { symmetry. apply BL. unfold alike in *. pj. destruct SM as (A1 & A2 & A3 & A4 & A5 & A6 & A7 & A8 & A9 & A10 & A11 & A12 & A13 & A14 & A15 & A16 & A17 & A18).
    repeat split; congruence. }
  rewrite EO. clear EO. set (o := m_eval M _). clearbody o. pj. opens s p SM.
  destruct (o_jac_bad o). { unfold aborted. finish. }
  destruct (_ && o_tcon_err o). { unfold aborted. finish. }
  destruct (o_pc_err o). { unfold errored, aborted. finish. }
  unfold complete. pj. destruct ((i2 =? 1) && nlt (nZ 100) (inv_sum o)); finish.
Qed.

Lemma evaluate_longer s : match evaluate c M s with inl s' | inr s' => longer s s' end.
Proof.
  unfold evaluate. rewrite !update_fixed by exact Hfb. cbv zeta. set (o := m_eval M _). clearbody o. pj.
  destruct s as [x0 v0 b0 f0 i1 i2 ij rr r0 r1 dt fq fr fz fl fr1 fz1 fl1 tau vc nvs ivs stt li int lr nc tr]. pj.
  destruct (o_jac_bad o). { unfold aborted, longer. pj. eexists [_]. reflexivity. }
  destruct (_ && o_tcon_err o). { unfold aborted, longer. pj. eexists [_]. reflexivity. }
  destruct (o_pc_err o). { unfold errored, aborted, longer. pj. eexists [_]. reflexivity. }
  unfold complete, longer. pj. destruct ((i2 =? 1) && nlt (nZ 100) (inv_sum o)); pj; eexists [_]; reflexivity.
Qed.

Lemma bad_alike (s p : st) : alike s p -> bad_status s = bad_status p.
Proof. intros SM. unfold bad_status. opens s p SM. reflexivity. Qed.

(** [damped_step] *)
Lemma step_alike (s p : st) : alike s p -> both (damped_step M s) (damped_step M p).
Proof.
  intros SM. unfold damped_step, fsq_pre. opens s p SM.
  set (u := _ && negb _). destruct (u && _); [finish|].
  match goal with |- context [m_step M ?a ?b ?d ?e ?g ?h] => destruct (m_step M a b d e g h) as [gx gv] end. finish.
Qed.

Lemma step_longer s : match damped_step M s with inl s' | inr s' => longer s s' end.
Proof.
  unfold damped_step, fsq_pre. set (u := _ && negb _). destruct (u && _); [apply longer_refl|].
  destruct s as [x0 v0 b0 f0 i1 i2 ij rr r0 r1 dt fq fr fz fl fr1 fz1 fl1 tau vc nvs ivs stt li int lr nc tr]. pj.
  match goal with |- context [m_step M ?a ?b ?d ?e ?g ?h] => destruct (m_step M a b d e g h) as [gx gv] end.
  unfold longer. pj. eexists [_]. reflexivity.
Qed.

(** [control]: either it reverts, or nothing but the bookkeeping changes. *)
Definition kept (s : st) (r : Z * st) : Prop :=
  longer s (snd r) /\
  (never_reverts (snd r) ->
     (fst r = (if rr_eqb (reason s) HUGE_INITIAL_FORCES then 1 else 0)) /\
     alike (if rr_eqb (reason s) HUGE_INITIAL_FORCES then set_iter1 (iter2 s) s else s) (snd r)).

Lemma seed_kept (s : st) : alike s (seed_both s) /\ trace (seed_both s) = trace s.
Proof.
  destruct s as [x0 v0 b0 f0 i1 i2 ij rr r0 r1 dt fq fr fz fl fr1 fz1 fl1 tau vc nvs ivs stt li int lr nc tr].
  unfold seed_both, alike, fsq_inv. pj. destruct (_ || _); pj; repeat split.
Qed.

Lemma reverted (s : st) b : never_reverts s -> In (EvRollback b) (trace s) -> False.
Proof. intros N I. exact (N b I). Qed.

Lemma control_kept sty s : kept s (control M sty s).
Proof.
  unfold control. destruct (rr_eqb (reason s) HUGE_INITIAL_FORCES) eqn:HG.
  { destruct (seed_kept s) as [A T]. revert A T. generalize (seed_both s). intros u A T. unfold kept. rewrite HG.
    unfold longer, save_backup, alike in *. pj. split; [eexists [_]; rewrite T; reflexivity|].
    intros _. split; [reflexivity|]. decompose [and] A. repeat split; try assumption. }
  assert (SEED : forall r, kept (seed_both s) r -> kept s r).
  { destruct (seed_kept s) as [A T]. intros r [L Q]. split.
    - destruct L as [l L]. exists l. rewrite L, T. reflexivity.
    - intros N. destruct (Q N) as [Q1 Q2].
      assert (RE : reason (seed_both s) = reason s) by (unfold alike in A; symmetry; tauto).
      rewrite RE, HG in *. split; [exact Q1|]. unfold alike in *. decompose [and] A. decompose [and] Q2. repeat split; congruence. }
  assert (RS : forall u : st, reason u = reason s -> rr_eqb (reason u) HUGE_INITIAL_FORCES = false) by (intros u E; rewrite E; exact HG).
  assert (SAVE : forall u, rr_eqb (reason u) HUGE_INITIAL_FORCES = false -> kept u (0, save_backup u)).
  { intros u E. unfold kept. rewrite E. unfold longer, save_backup, alike. pj. split; [eexists [_]; reflexivity|].
    intros _. repeat split. }
  assert (STAY : forall u, rr_eqb (reason u) HUGE_INITIAL_FORCES = false -> kept u (0, u)).
  { intros u E. unfold kept. rewrite E. unfold alike. pj. split; [apply longer_refl|]. intros _. repeat split. }
  assert (BACK : forall u, kept u (1, gentle M u)).
  { intros u. unfold kept, gentle, restore_backup, longer. pj. split; [eexists [_]; reflexivity|]. intros N. exfalso. apply (N (bak u)). pj. left. reflexivity. }
  assert (HB : rr_eqb (reason (seed_both s)) HUGE_INITIAL_FORCES = false).
  { destruct (seed_kept s) as [A T]. apply RS. unfold alike in A. symmetry. tauto. }
  destruct sty.
  - set (u := set_res0 _ _). set (u' := if (iter2 s =? iter1 s) || neq (res0 s) (nZ (-1)) then _ else _) in u.
    assert (U : alike s u /\ trace u = trace s).
    { unfold u, u'. clear. destruct s as [x0 v0 b0 f0 i1 i2 ij rr r0 r1 dt fq fr fz fl fr1 fz1 fl1 tau vc nvs ivs stt li int lr nc tr].
      unfold alike. pj. destruct (_ || _); pj; repeat split. }
    fold u. clearbody u. clear u'. destruct U as [A T].
    assert (HU : rr_eqb (reason u) HUGE_INITIAL_FORCES = false) by (apply RS; unfold alike in A; symmetry; tauto).
    assert (LIFT : forall r, kept u r -> kept s r).
    { intros r [L Q]. split.
      - destruct L as [l L]. exists l. rewrite L, T. reflexivity.
      - intros N. destruct (Q N) as [Q1 Q2].
        rewrite HG, HU in *. split; [exact Q1|]. unfold alike in *. decompose [and] A. decompose [and] Q2. repeat split; congruence. }
    apply LIFT. destruct (rr_eqb (reason u) BAD_JACOBIAN || _).
    + unfold kept, restore_backup, longer. pj. split; [eexists [_]; reflexivity|]. intros N. exfalso. apply (N (bak u)). pj. left. reflexivity.
    + destruct (_ && _); [apply SAVE, HU|]. destruct (slow_progress u); [apply BACK|apply STAY, HU].
  - apply SEED. destruct (_ && _); [apply SAVE, HB|]. destruct (_ && _); [apply BACK|apply STAY, HB].
  - apply SEED. destruct (_ && _); [apply SAVE, HB|]. destruct (_ || _); [apply BACK|apply STAY, HB].
Qed.

(** ** The loops. *)
Definition ires (r : @inner_result K G V F) : st :=
  match r with IRaise s | IConverged s | IReguess s | IEscalate s | IFailed s | IExhausted s => s end.

Lemma longer_set s s' : trace s' = trace s -> longer s s'.
Proof. intros A. exists []. exact A. Qed.

Lemma inner_longer sty : forall k fi bad s, longer s (ires (inner c M sty k fi bad s)).
Proof.
  induction k as [|k IH]; intros fi bad s; cbn [inner]; [apply longer_refl|].
  destruct (negb _); [apply longer_refl|]. cbv zeta.
  pose proof (evaluate_longer (set_iter2 (fi - bad) s)) as E.
  assert (E' : longer s (set_iter2 (fi - bad) s)) by (apply longer_set; reflexivity).
  destruct (evaluate c M (set_iter2 (fi - bad) s)) as [s1|s1]; [exact (longer_trans _ _ _ E' E)|].
  pose proof (longer_trans _ _ _ E' E) as L. clear E E'.
  destruct (negb (bad_status s1) && _ && _ && _); [exact L|].
  assert (S2 : match (if bad_status s1 then inr s1 else damped_step M s1) with inl s' | inr s' => longer s s' end).
  { destruct (bad_status s1); [exact L|]. pose proof (step_longer s1) as Q. destruct (damped_step M s1); exact (longer_trans _ _ _ L Q). }
  destruct (if bad_status s1 then inr s1 else damped_step M s1) as [s2|s2]; [exact S2|].
  destruct ((ijacob s2 =? 0) && _ && _). { eapply longer_trans; [exact S2|]. apply longer_set. reflexivity. }
  destruct (bad_status s1); [exact S2|].
  destruct (_ || _). { eapply longer_trans; [exact S2|]. cbn [ires]. unfold longer, restore_backup. pj. eexists [_]. reflexivity. }
  destruct (75 <=? ijacob s2); [exact S2|].
  pose proof (control_kept sty s2) as [Q _]. destruct (control M sty s2) as [b s3]. cbn [snd] in Q.
  eapply longer_trans; [exact S2|]. eapply longer_trans; [exact Q|]. apply IH.
Qed.

Definition iboth (r q : @inner_result K G V F) : Prop :=
  match r, q with
  | IRaise s, IRaise p | IConverged s, IConverged p | IReguess s, IReguess p | IEscalate s, IEscalate p
  | IFailed s, IFailed p | IExhausted s, IExhausted p => alike s p
  | _, _ => False
  end.

Lemma alike_sym (s p : st) : alike s p -> alike p s.
Proof. unfold alike. intros A. decompose [and] A. repeat split; congruence. Qed.
Lemma alike_trans (a b d : st) : alike a b -> alike b d -> alike a d.
Proof. unfold alike. intros A B. decompose [and] A. decompose [and] B. repeat split; congruence. Qed.

Lemma control_alike sa sb (s p : st) : alike s p -> never_reverts (snd (control M sa s)) -> never_reverts (snd (control M sb p)) ->
  fst (control M sa s) = fst (control M sb p) /\ alike (snd (control M sa s)) (snd (control M sb p)).
Proof.
  intros A N1 N2. destruct (control_kept sa s) as [_ Q1]. destruct (control_kept sb p) as [_ Q2].
  destruct (Q1 N1) as [E1 B1]. destruct (Q2 N2) as [E2 B2].
  assert (R : reason s = reason p) by (unfold alike in A; tauto). rewrite R in *.
  split; [congruence|].
  apply (alike_trans _ _ _ (alike_sym _ _ B1)). eapply alike_trans; [|exact B2].
  destruct (rr_eqb (reason p) HUGE_INITIAL_FORCES); [|exact A]. clear - A. unfold alike in *. pj. decompose [and] A. repeat split; assumption.
Qed.

Lemma inner_alike sa sb : forall k fi bad s p, alike s p ->
  never_reverts (ires (inner c M sa k fi bad s)) -> never_reverts (ires (inner c M sb k fi bad p)) ->
  iboth (inner c M sa k fi bad s) (inner c M sb k fi bad p).
Proof.
  induction k as [|k IH]; intros fi bad s p A; cbn [inner]; [intros _ _; exact A|].
  destruct (negb _); [intros _ _; exact A|]. cbv zeta.
  assert (A' : alike (set_iter2 (fi - bad) s) (set_iter2 (fi - bad) p)) by (clear - A; unfold alike in *; pj; decompose [and] A; repeat split; assumption).
  pose proof (evaluate_alike _ _ A') as E. clear A A'.
  destruct (evaluate c M (set_iter2 (fi - bad) s)) as [s1|s1]; destruct (evaluate c M (set_iter2 (fi - bad) p)) as [p1|p1]; try (exfalso; exact E); [intros _ _; exact E|].
  cbn [both] in E. rewrite <- (bad_alike s1 p1 E).
  assert (F3 : fsqr p1 = fsqr s1 /\ fsqz p1 = fsqz s1 /\ fsql p1 = fsql s1) by (unfold alike in E; decompose [and] E; repeat split; congruence).
  destruct F3 as (F1 & F2 & F3). rewrite F1, F2, F3. clear F1 F2 F3.
  destruct (negb (bad_status s1) && _ && _ && _); [intros _ _; exact E|].
  assert (S2 : both (if bad_status s1 then inr s1 else damped_step M s1) (if bad_status s1 then inr p1 else damped_step M p1)).
  { destruct (bad_status s1); [exact E|]. apply step_alike, E. }
  destruct (if bad_status s1 then inr s1 else damped_step M s1) as [s2|s2]; destruct (if bad_status s1 then inr p1 else damped_step M p1) as [p2|p2];
    try (exfalso; exact S2); [intros _ _; exact S2|]. cbn [both] in S2.
  assert (J : ijacob p2 = ijacob s2 /\ reason p2 = reason s2) by (unfold alike in S2; decompose [and] S2; split; congruence).
  destruct J as [J R]. rewrite J, R.
  destruct ((ijacob s2 =? 0) && _ && _).
  { intros _ _. cbn [iboth]. clear - S2. unfold alike in *. pj. decompose [and] S2. repeat split; assumption. }
  destruct (bad_status s1); [intros _ _; exact S2|].
  destruct (_ || _).
  { intros N _. exfalso. apply (N (bak s2)). cbn [ires]. unfold restore_backup. pj. left. reflexivity. }
  destruct (75 <=? ijacob s2); [intros _ _; exact S2|].
  pose proof (control_alike sa sb s2 p2 S2) as C.
  destruct (control M sa s2) as [b s3]. destruct (control M sb p2) as [b' p3]. cbn [fst snd] in C.
  intros N1 N2.
  destruct C as [C1 C2].
  { exact (longer_quiet _ _ (inner_longer sa _ _ _ _) N1). }
  { exact (longer_quiet _ _ (inner_longer sb _ _ _ _) N2). }
  subst b'. apply IH; assumption.
Qed.

Lemma enter_alike (s p : st) : alike s p -> alike (save_backup (reinitialize M s)) (save_backup (reinitialize M p)).
Proof.
  intros SM. opens s p SM. unfold save_backup, reinitialize, save_backup, alike, moves in *. pj. cbn [filter is_move]. rewrite A18. repeat split.
Qed.

Lemma outer_longer sty : forall k pending s, longer s (py_state (outer c M sty k pending s)).
Proof.
  induction k as [|k IH]; intros pending s; cbn [outer]; [apply longer_refl|]. cbv zeta.
  set (s1 := if pending then _ else s).
  assert (L : longer s s1) by (unfold s1; destruct pending; [|apply longer_refl]; unfold longer, save_backup, reinitialize, save_backup; pj; eexists [_; _; _]; reflexivity).
  clearbody s1.
  pose proof (inner_longer sty (Z.to_nat (c_niterv c - iter2 s1 + 1)) (iter2 s1) 0 s1) as Q.
  destruct (inner c M sty _ _ _ s1) as [q|q|q|q|q|q]; cbn [ires py_state] in *;
    try exact (longer_trans _ _ _ L Q); (eapply longer_trans; [exact (longer_trans _ _ _ L Q)|apply IH]).
Qed.

Lemma outer_alike sa sb : forall k pending s p, alike s p ->
  never_reverts (py_state (outer c M sa k pending s)) -> never_reverts (py_state (outer c M sb k pending p)) ->
  py_verdict (outer c M sa k pending s) = py_verdict (outer c M sb k pending p) /\
  alike (py_state (outer c M sa k pending s)) (py_state (outer c M sb k pending p)).
Proof.
  induction k as [|k IH]; intros pending s p A; cbn [outer]; [intros _ _; split; [reflexivity|exact A]|]. cbv zeta.
  assert (A' : alike (if pending then save_backup (reinitialize M s) else s) (if pending then save_backup (reinitialize M p) else p))
    by (destruct pending; [apply enter_alike, A|exact A]).
  revert A'. generalize (if pending then save_backup (reinitialize M s) else s). generalize (if pending then save_backup (reinitialize M p) else p).
  clear s p A. intros p s A.
  assert (I2 : iter2 p = iter2 s) by (unfold alike in A; decompose [and] A; congruence). rewrite I2.
  pose proof (inner_alike sa sb (Z.to_nat (c_niterv c - iter2 s + 1)) (iter2 s) 0 s p A) as Q.
  destruct (inner c M sa _ _ _ s) as [r|r|r|r|r|r]; destruct (inner c M sb _ _ _ p) as [q|q|q|q|q|q]; cbn [ires] in Q; intros N1 N2;
  (let T := fresh in assert (T : never_reverts r) by (first [exact N1|exact (longer_quiet _ _ (outer_longer sa _ _ _) N1)]);
   let U := fresh in assert (U : never_reverts q) by (first [exact N2|exact (longer_quiet _ _ (outer_longer sb _ _ _) N2)]);
   specialize (Q T U)); cbn [iboth] in Q; try (exfalso; exact Q);
  first [split; [reflexivity|exact Q] | apply IH; assumption].
Qed.

Lemma solve_alike sa sb (s : st) :
  never_reverts (py_state (py_solve c M sa s)) -> never_reverts (py_state (py_solve c M sb s)) ->
  py_verdict (py_solve c M sa s) = py_verdict (py_solve c M sb s) /\
  alike (py_state (py_solve c M sa s)) (py_state (py_solve c M sb s)).
Proof. unfold py_solve. apply outer_alike. unfold alike. repeat split. Qed.

End Styles.
