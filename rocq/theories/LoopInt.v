(** Proofs about the stage loop: the interrupt callback. *)
From Coq Require Import ZArith List Bool Lia.
From Verif Require Import Base Num LoopModel LoopSpec LoopProofs LoopConv LoopVac.
Import ListNotations.
Open Scope Z_scope.

Section P.
Context {K : num} {G V F : Type}.
Notation st := (@st K G V F).
Notation event := (@event K G V).
Context (c : @cfg K) (M : @ext K G V F).
Context (t0 : list event).
Hypothesis cb : c_cb c = true.
Hypothesis nstep_ok : 1 <= c_nstep c.
Implicit Types (s : st).

Definition SI (new : list event) : Prop :=
  since_asked new =
    if counted new =? 0 then 0
    else if counted new <? c_nstep c then counted new - 1
    else counted new mod c_nstep c.

Lemma counted_nonneg (new : list event) : 0 <= counted new.
Proof. unfold counted; lia. Qed.

Lemma SI_lt new : SI new -> since_asked new < c_nstep c.
Proof.
  unfold SI. intros ->. pose proof (counted_nonneg new).
  pose proof (Z.mod_pos_bound (counted new) (c_nstep c)).
  destruct (_ =? 0); [lia|]. destruct (Z.ltb_spec (counted new) (c_nstep c)); lia.
Qed.

Definition I0 (tr : list event) (lit intr : bool) (Q : list event -> Prop) : Prop :=
  exists new, tr = new ++ t0 /\ always (interrupt_ok (c_nstep c)) new /\
    requested new = intr /\
    (lit = true -> requested new = false /\ SI new) /\ Q new.
Definition U (Q : list event -> Prop) s : Prop := I0 (trace s) (liter s) (interrupted s) Q.
Local Arguments U : simpl never.

Lemma U_imp (Q Q' : list event -> Prop) s :
  (forall new, Q new -> Q' new) -> U Q s -> U Q' s.
Proof.
  intros H (new & A & B & D & E & J). exists new. repeat split; auto; apply E; auto.
Qed.

Definition ut s := (trace s, liter s, interrupted s).

Lemma U_eq Q s s' : ut s' = ut s -> U Q s -> U Q s'.
Proof. unfold ut, U. intros H. injection H as -> -> ->. auto. Qed.

Lemma U_set Q (h : st -> st) s : (forall r, ut (h r) = ut r) -> U Q s -> U Q (h s).
Proof. intros H. apply U_eq. apply H. Qed.

Lemma U_off Q s s' : trace s' = trace s -> liter s' = false ->
  interrupted s' = interrupted s -> U Q s -> U Q s'.
Proof.
  unfold U. intros -> -> ->. intros (new & A & B & D & E & J). exists new.
  repeat split; auto; discriminate.
Qed.

(** Events of the callback bookkeeping. *)
Definition neutral (e : event) : Prop :=
  match e with EvCount _ | EvCallback _ => False | _ => True end.
Definition silent (e : event) : Prop :=
  match e with EvCount _ | EvCallback _ | EvEval _ _ _ _ _ | EvStep _ _ _ => False
  | _ => True end.

Lemma neutral_facts e new : neutral e ->
  counted (e :: new) = counted new /\ since_asked (e :: new) = since_asked new /\
  requested (e :: new) = requested new.
Proof. destruct e; cbn; try contradiction; auto. Qed.

Lemma U_log (Q Q' : list event -> Prop) e s : neutral e ->
  (forall new, Q new -> interrupt_ok (c_nstep c) e new) ->
  (forall new, Q new -> Q' (e :: new)) -> U Q s -> U Q' (log e s).
Proof.
  intros N P H (new & A & B & D & E & J). exists (e :: new).
  destruct (neutral_facts e new N) as (N1 & N2 & N3).
  split; [cbn; rewrite A; reflexivity|].
  split; [split; [apply P; exact J|exact B]|].
  unfold SI. rewrite N1, N2, N3. cbn. auto.
Qed.

Lemma silent_ok e new : silent e -> interrupt_ok (c_nstep c) e new.
Proof. destruct e; cbn; auto; contradiction. Qed.
Lemma silent_neutral e : silent e -> neutral e.
Proof. destruct e; cbn; auto. Qed.

(** Stable predicates. *)
Definition stable (Q : list event -> Prop) : Prop :=
  forall e new, neutral e -> Q new -> Q (e :: new).

Lemma U_slog Q e s : stable Q -> silent e -> U Q s -> U Q (log e s).
Proof.
  intros S N. apply U_log; [apply silent_neutral; auto| |].
  - intros new _. apply silent_ok; auto.
  - intros new. apply S, silent_neutral; auto.
Qed.

Definition run (i : Z) (new : list event) : Prop :=
  requested new = false /\ counted new + 1 = i.
Lemma run_stable i : stable (run i).
Proof.
  intros e new N (A & B). destruct (neutral_facts e new N) as (N1 & N2 & N3).
  unfold run. rewrite N1, N3. auto.
Qed.
Lemma true_stable : stable (fun _ => True).
Proof. intros e new _ _. exact I. Qed.

Definition cnt (i : Z) (new : list event) : Prop := counted new + 1 = i.
Lemma cnt_stable i : stable (cnt i).
Proof.
  intros e new N A. destruct (neutral_facts e new N) as (N1 & N2 & N3).
  unfold cnt. rewrite N1. auto.
Qed.
Lemma run_cnt i new : run i new -> cnt i new.
Proof. intros (_ & A). exact A. Qed.

Ltac Us HS :=
  repeat match goal with
  | |- U _ (aborted _) => unfold aborted
  | |- U _ (?f ?a ?s) =>
     first [ apply (U_set _ (f a) s); [intros ?; reflexivity|]
           | apply (U_slog _ a s); [exact HS|exact I|] ]
  end.

Lemma vacuum_block_U i o s : U (run i) s ->
  match vacuum_block c o s with inl s' => U (run i) s' | inr (s', _) => U (run i) s' end.
Proof.
  intros H. unfold vacuum_block. dm; try exact H; Us (run_stable i); exact H.
Qed.

Lemma eval_log i g b r z l s : U (run i) s -> U (run i) (log (EvEval g b r z l) s).
Proof.
  apply U_log; [exact I| |].
  - intros new (A & B). exact A.
  - intros new. apply run_stable. exact I.
Qed.

Lemma update_U i s : U (run i) s ->
  match update c M s with inl (_, s') => U (run i) s' | inr (s', _) => U (run i) s' end.
Proof.
  intros H. unfold update. cbv zeta.
  set (s0 := set_x _ s).
  assert (H0 : U (run i) s0) by (subst s0; Us (run_stable i); exact H).
  clearbody s0. unfold aborted.
  destruct (o_jac_bad _); [apply eval_log; Us (run_stable i); exact H0|].
  destruct (_ && _); [apply eval_log; exact H0|].
  pose proof (vacuum_block_U i (m_eval M s0) s0 H0) as HV.
  destruct (vacuum_block c (m_eval M s0) s0) as [s1|[s1 nr]]; [apply eval_log; exact HV|].
  assert (H2 : U (run i) (edge_force c s1))
    by (unfold edge_force; destruct (_ && _); Us (run_stable i); exact HV).
  set (s2 := edge_force c s1) in *. clearbody s2.
  destruct (o_pc_err _); [apply eval_log; Us (run_stable i); exact H2|].
  match goal with |- context [if ?b then set_reason HUGE_INITIAL_FORCES _ else _] =>
    destruct b end; [apply (U_set _ (set_reason HUGE_INITIAL_FORCES) _); [reflexivity|]|];
    apply eval_log; Us (run_stable i); exact H2.
Qed.

Lemma restart_U Q d s : stable Q -> U Q s -> U Q (snd (restart_iteration M d s)).
Proof.
  intros HQ H. unfold restart_iteration. destruct (reason s); cbn [snd]; Us HQ; exact H.
Qed.

Lemma restart_delt0r_U Q s : stable Q -> U Q s -> U Q (restart_delt0r M s).
Proof.
  intros HQ H. unfold restart_delt0r.
  pose proof (restart_U Q (delt0r s) s HQ H) as R1.
  destruct (restart_iteration M (delt0r s) s) as [d s']. cbn [snd] in *.
  Us HQ. exact R1.
Qed.

Lemma evolve_U i s : U (run i) s ->
  match evolve c M (delt0r s) s with inl (_, s') => U (run i) s' | inr s' => U (run i) s' end.
Proof.
  intros H. unfold evolve, update_forward_model.
  assert (H0 : U (run i) (set_reason NO_RESTART s)) by (Us (run_stable i); exact H).
  pose proof (update_U i _ H0) as HU.
  destruct (update c M (set_reason NO_RESTART s)) as [[e s2]|[s2 nr]]; [exact HU|].
  assert (HQ : exists s3, (if nr then let '(_, s0) := restart_iteration M (c_delt c) s2 in
                        inr (set_reason NO_RESTART s0) else inr s2) = @inr (bool * st) st s3
     /\ U (run i) s3).
  { destruct nr.
    - pose proof (restart_U _ (c_delt c) s2 (run_stable i) HU) as R1.
      destruct (restart_iteration M (c_delt c) s2) as [d s3]. cbn [snd] in *.
      eexists; split; [reflexivity|]. Us (run_stable i). exact R1.
    - eauto. }
  destruct HQ as (s3 & -> & H3). clear HU H0 nr s2.
  cbv zeta.
  match goal with |- context [if ?b then set_status ST_BAD_JACOBIAN s3 else _] =>
    destruct b end; [cbn [negb st_eqb status set_status orb]; Us (run_stable i); exact H3|].
  match goal with |- context [if ?b then set_status ST_SUCCESS _ else _] =>
    destruct b end.
  { cbn [negb st_eqb status set_status orb].
    apply (U_off _ s3); auto; reflexivity. }
  destruct (_ || _); [exact H3|].
  match goal with |- context [set_fsq ?a (set_invtau ?b s3)] =>
    set (s4 := set_fsq a (set_invtau b s3)) end.
  assert (H4 : U (run i) s4) by (subst s4; Us (run_stable i); exact H3). clearbody s4.
  destruct (m_step M _ _ _ _ _ _) as [gx gv].
  apply (U_log (run i)); [exact I| | |Us (run_stable i); exact H4].
  - intros new (A & B). exact A.
  - intros new. apply run_stable. exact I.
Qed.

Lemma tsc_U Q i s : stable Q -> U Q s -> U Q (time_step_control c M i s).
Proof.
  intros HQ H. unfold time_step_control. cbv zeta.
  set (s1 := if _ || _ then set_res0 (fsq s) s else s).
  assert (H1 : U Q s1) by (subst s1; destruct (_ || _); Us HQ; exact H). clearbody s1.
  set (s2 := set_res0 (nmin (res0 s1) (fsq s1)) s1).
  assert (H2 : U Q s2) by (subst s2; Us HQ; exact H1). clearbody s2.
  assert (RS : forall u, U Q u -> U Q (restart_delt0r M u))
    by (intros u Hu; apply restart_delt0r_U; auto).
  destruct (c_parvmec c).
  - match goal with |- context [set_res1 (nmin _ _) ?u] => set (s3 := u) end.
    assert (H3 : U Q s3) by (subst s3; destruct (_ || _); Us HQ; exact H2). clearbody s3.
    set (s4 := set_res1 (nmin _ _) s3).
    assert (H4 : U Q s4) by (subst s4; Us HQ; exact H3). clearbody s4.
    match goal with |- U _ (if ?b then _ else _) => destruct b end; [apply RS; auto|].
    match goal with |- U _ (if ?b then _ else _) => destruct b end; Us HQ; exact H4.
  - match goal with |- U _ (if ?b then _ else _) => destruct b end; [apply RS; auto|].
    match goal with |- U _ (if ?b then _ else _) => destruct b end; [Us HQ; exact H2|].
    match goal with |- U _ (if ?b then _ else _) => destruct b end; Us HQ; exact H2.
Qed.

Lemma counted_count i (new : list event) : counted (EvCount i :: new) = counted new + 1.
Proof. unfold counted. cbn [filter is_count length]. lia. Qed.
Lemma counted_cb a (new : list event) : counted (EvCallback a :: new) = counted new.
Proof. reflexivity. Qed.
Lemma requested_cb a (new : list event) :
  requested (EvCallback a :: new) = (a || requested new).
Proof. reflexivity. Qed.
Lemma requested_count i (new : list event) :
  requested (EvCount i :: new) = requested new.
Proof. reflexivity. Qed.

Lemma SI_next i new : SI new -> counted new + 1 = i -> i <> 1 -> Z.rem i (c_nstep c) <> 0 ->
  since_asked new + 1 =
    if i =? 0 then 0 else if i <? c_nstep c then i - 1 else i mod c_nstep c.
Proof.
  intros H Hc H1 HR. pose proof (counted_nonneg new) as HN.
  unfold SI in H. rewrite H. replace (counted new) with (i - 1) in * by lia.
  rewrite Z.rem_mod_nonneg in HR by lia.
  destruct (Z.eqb_spec (i - 1) 0); [lia|]. destruct (Z.eqb_spec i 0); [lia|].
  destruct (Z.ltb_spec (i - 1) (c_nstep c)); destruct (Z.ltb_spec i (c_nstep c)); try lia.
  - exfalso. apply HR. replace i with (c_nstep c) by lia. apply Z_mod_same_full.
  - pose proof (Z.div_mod i (c_nstep c) ltac:(lia)) as D.
    pose proof (Z.mod_pos_bound i (c_nstep c) ltac:(lia)) as B.
    rewrite <- (Z.mod_unique (i - 1) (c_nstep c) (i / c_nstep c) (i mod c_nstep c - 1)); lia.
Qed.

(** Reporting: the current iteration is counted. *)
Definition ran (i : Z) (new : list event) : Prop := run i new /\ SI new.
Lemma ran_stable i : stable (ran i).
Proof.
  intros e new N (A & B). split; [apply run_stable; auto|].
  destruct (neutral_facts e new N) as (N1 & N2 & N3). unfold SI. rewrite N1, N2. exact B.
Qed.

Lemma report_U i s : U (ran i) s -> U (cnt (i + 1)) (report c M i s).
Proof.
  intros H. unfold report. cbv zeta. rewrite cb.
  destruct H as (new & A & B & D & E & (F1 & F2) & F3).
  assert (OK : always (interrupt_ok (c_nstep c)) (EvCount i :: new)).
  { split; [|exact B]. cbn. repeat split; [lia|apply SI_lt; exact F3|exact F1]. }
  cbn [liter log set_trace].
  destruct ((Z.rem i (c_nstep c) =? 0) || (i =? 1) || negb (liter s)) eqn:EC.
  - assert (FIN : forall a, interrupt_ok (c_nstep c) (EvCallback a) (EvCount i :: new))
      by (intros; exact I).
    assert (SI' : forall a, liter s = true -> SI (EvCallback a :: EvCount i :: new)).
    { intros a L. rewrite L, orb_false_r in EC. unfold SI.
      rewrite counted_cb, counted_count, F2. cbn [since_asked].
      destruct (Z.eqb_spec i 0); auto.
      apply orb_true_iff in EC. pose proof (counted_nonneg new).
      destruct EC as [EC|EC]; apply Z.eqb_eq in EC.
      - rewrite Z.rem_mod_nonneg in EC by lia.
        destruct (Z.ltb_spec i (c_nstep c)); [|auto].
        rewrite Z.mod_small in EC by lia. lia.
      - rewrite EC. destruct (Z.ltb_spec 1 (c_nstep c)); [reflexivity|].
        replace (c_nstep c) with 1 by lia. reflexivity. }
    destruct (m_callback M _) eqn:EM.
    + exists (EvCallback true :: EvCount i :: new).
      cbn [trace log set_trace set_ncall set_interrupted set_liter liter interrupted].
      rewrite A. split; [reflexivity|]. split; [split; [apply FIN|exact OK]|].
      split; [reflexivity|]. split; [discriminate|].
      unfold cnt. rewrite counted_cb, counted_count. lia.
    + exists (EvCallback false :: EvCount i :: new).
      cbn [trace log set_trace set_ncall set_interrupted set_liter liter interrupted].
      rewrite A. split; [reflexivity|]. split; [split; [apply FIN|exact OK]|].
      rewrite requested_cb, requested_count. split; [exact D|].
      split; [|unfold cnt; rewrite counted_cb, counted_count; lia].
      intros L. split; [exact F1|]. apply SI'. exact L.
  - exists (EvCount i :: new). cbn [trace log set_trace liter interrupted].
    rewrite A. split; [reflexivity|]. split; [exact OK|].
    rewrite requested_count. split; [exact D|].
    split; [|unfold cnt; rewrite counted_count; lia].
    intros L. split; [exact F1|]. unfold SI. rewrite counted_count, F2. cbn [since_asked].
    apply orb_false_iff in EC. destruct EC as [EC _].
    apply orb_false_iff in EC. destruct EC as [E1 E2].
    apply Z.eqb_neq in E1, E2. apply SI_next; auto.
Qed.

Lemma after_evolve_U fi bad s : iter2 s = fi - bad ->
  U (ran (fi - bad)) s ->
  match after_evolve c M fi bad (fi - bad) s with
  | inl s' => U (cnt (iter2 s')) s'
  | inr (_, s') => U (cnt (iter2 s')) s'
  end.
Proof.
  intros Hi H. unfold after_evolve.
  destruct (_ || _).
  - cbv zeta.
    assert (R : U (ran (fi - bad)) (restart_delt0r M (set_reason BAD_JACOBIAN s)))
      by (apply restart_delt0r_U; [apply ran_stable|]; Us (ran_stable (fi - bad)); exact H).
    assert (R4 : iter2 (restart_delt0r M (set_reason BAD_JACOBIAN s)) = iter2 s)
      by (unfold restart_delt0r, restart_iteration; reflexivity).
    set (s1 := restart_delt0r M _) in *. clearbody s1.
    cbn [iter2 set_reason set_delt0r]. rewrite R4, Hi.
    Us (cnt_stable (fi - bad)). revert R. apply U_imp. intros new (A & _). apply run_cnt; auto.
  - set (s1 := if 75 <=? ijacob s then _ else s).
    assert (H1 : U (ran (fi - bad)) s1).
    { subst s1. destruct (_ <=? _); [|exact H]. apply (U_off _ s); auto; reflexivity. }
    clearbody s1. cbv zeta.
    pose proof (tsc_U (ran (fi - bad)) (fi - bad) s1 (ran_stable (fi - bad)) H1) as H2.
    set (s2 := time_step_control c M (fi - bad) s1) in *. clearbody s2.
    assert (FIN : forall b (s3 : st), U (cnt (fi - b + 1)) s3 ->
      U (cnt (fi - b + 1)) (set_iter2 (fi - b + 1) (if vac_eqb (vac s3) VInitialized
             then log (EvCouple VActive) (set_vac VActive s3) else s3))).
    { intros b s3 H3. apply (U_set _ (set_iter2 (fi - b + 1)) _); [reflexivity|].
      destruct (vac_eqb _ _); [|exact H3]. Us (cnt_stable (fi - b + 1)). exact H3. }
    destruct (negb _).
    + apply FIN. apply (U_set _ (set_iter1 (fi - bad)) _); [reflexivity|].
      replace (fi - (bad + 1) + 1) with (fi - bad) by lia.
      apply restart_delt0r_U; [apply cnt_stable|].
      revert H2. apply U_imp. intros new (A & _). apply run_cnt; auto.
    + apply FIN. apply report_U. exact H2.
Qed.

Definition top s : Prop := U (cnt (iter2 s)) s.

Definition resU (r : loop_result) : Prop :=
  match r with
  | LError _ s | LDone s => U (fun _ => True) s
  | LRetry s => top s /\ 1 <= iter2 s
  end.

Lemma top_run s : top s -> liter s = true -> U (ran (iter2 s)) s.
Proof.
  intros (new & A & B & D & E & J) L. exists new. repeat split; auto; apply E; auto.
Qed.

(** Evolve keeps the callback bookkeeping of a running iteration. *)
Lemma evolve_ran i s : U (ran i) s ->
  match evolve c M (delt0r s) s with inl (_, s') => U (run i) s' | inr s' => U (run i) s' end.
Proof.
  intros H. apply evolve_U. revert H. apply U_imp. intros new (A & _). exact A.
Qed.

(** No event of Evolve counts or asks. *)
Lemma evolve_SI i s : U (ran i) s ->
  match evolve c M (delt0r s) s with inl _ => True | inr s' => U (ran i) s' end.
Proof.
  intros H.
  assert (HI : forall s', (exists new, trace s' = new ++ trace s /\ Forall neutral new) ->
            U (run i) s' -> U (ran i) s').
  { intros s' (n1 & T & FA) (new & A & B & D & E & J).
    destruct H as (n0 & A0 & _ & _ & _ & _ & S0).
    exists new. split; [exact A|]. split; [exact B|]. split; [exact D|].
    split; [exact E|]. split; [exact J|].
    assert (new = n1 ++ n0).
    { rewrite T, A0, app_assoc in A. apply app_inv_tail in A. auto. }
    subst new. clear - S0 FA. induction FA as [|e l N FA IH]; [exact S0|].
    cbn. destruct (neutral_facts e (l ++ n0) N) as (N1 & N2 & N3).
    unfold SI in *. rewrite N1, N2. exact IH. }
  pose proof (evolve_ran i s H) as HE.
  assert (HN : match evolve c M (delt0r s) s with inl _ => True | inr s' =>
            exists new, trace s' = new ++ trace s /\ Forall neutral new end).
  { clear HE HI H.
    unfold evolve, update_forward_model.
    assert (HU : match update c M (set_reason NO_RESTART s) with
       | inl _ => True | inr (s', _) => exists new, trace s' = new ++ trace s /\ Forall neutral new end).
    { unfold update. cbv zeta.
      set (s0 := set_x _ _). assert (E0 : trace s0 = trace s) by reflexivity. clearbody s0.
      destruct (o_jac_bad _).
      { eexists [_]. cbn. rewrite E0. split; [reflexivity|]. repeat constructor. }
      destruct (_ && _); [exact I|].
      assert (HV : match vacuum_block c (m_eval M s0) s0 with
         | inl _ => True | inr (s', _) => exists new, trace s' = new ++ trace s /\ Forall neutral new end).
      { rewrite <- E0. unfold vacuum_block. dm; try exact I; cbn;
          first [ exists []; split; [reflexivity|constructor]
                | eexists [_]; split; [reflexivity|repeat constructor]
                | eexists [_;_]; split; [reflexivity|repeat constructor]
                | eexists [_;_;_]; split; [reflexivity|repeat constructor] ]. }
      destruct (vacuum_block c (m_eval M s0) s0) as [|[s1 nr]]; [exact I|].
      assert (H2 : exists new, trace (edge_force c s1) = new ++ trace s /\ Forall neutral new).
      { destruct HV as (n & T & FA). unfold edge_force. destruct (_ && _); [|eauto].
        exists (EvEdge :: n). cbn. rewrite T. split; [reflexivity|constructor; [exact I|auto]]. }
      set (s2 := edge_force c s1) in *. clearbody s2.
      destruct (o_pc_err _); [exact I|].
      destruct H2 as (n & T & FA).
      match goal with |- context [if ?b then set_reason HUGE_INITIAL_FORCES _ else _] =>
        destruct b end; eexists (_ :: n); cbn; rewrite T;
        (split; [reflexivity|constructor; [exact I|exact FA]]). }
    destruct (update c M (set_reason NO_RESTART s)) as [|[s2 nr]]; [exact I|].
    assert (HQ : exists s3, (if nr then let '(_, s0) := restart_iteration M (c_delt c) s2 in
                        inr (set_reason NO_RESTART s0) else inr s2) = @inr (bool * st) st s3
     /\ exists new, trace s3 = new ++ trace s /\ Forall neutral new).
    { destruct nr; [|eauto]. destruct HU as (n & T & FA).
      unfold restart_iteration. destruct (reason s2); eexists; (split; [reflexivity|]);
        eexists (_ :: n); cbn; rewrite T; (split; [reflexivity|constructor; [exact I|exact FA]]). }
    destruct HQ as (s3 & -> & n & T & FA). cbv zeta.
    match goal with |- context [if ?b then set_status ST_BAD_JACOBIAN s3 else _] =>
      destruct b end; [cbn; eauto|].
    match goal with |- context [if ?b then set_status ST_SUCCESS _ else _] =>
      destruct b end; [cbn; eauto|].
    destruct (_ || _); [eauto|].
    destruct (m_step M _ _ _ _ _ _) as [gx gv]. eexists (_ :: n). cbn. rewrite T.
    split; [reflexivity|constructor; [exact I|exact FA]]. }
  destruct (evolve c M (delt0r s) s) as [e|s']; [exact I|]. apply HI; auto.
Qed.

Lemma force_loop_U fuel : forall fi bad s,
  top s -> 1 <= iter2 s -> iter2 s = fi - bad ->
  resU (force_loop c M fuel fi bad s).
Proof.
  induction fuel as [|k IH]; intros fi bad s H Hi Hb;
    [cbn; revert H; apply U_imp; auto|].
  cbn [force_loop].
  destruct ((fi <=? c_niterv c) && liter s) eqn:EL; cbn [negb];
    [|revert H; apply U_imp; auto].
  apply andb_true_iff in EL. destruct EL as [_ EL].
  pose proof (top_run s H EL) as HR.
  pose proof (evolve_count c M (delt0r s) s) as HC.
  pose proof (evolve_ran (iter2 s) s HR) as HE.
  pose proof (evolve_SI (iter2 s) s HR) as HS.
  destruct (evolve c M (delt0r s) s) as [[e s1]|s1];
    [revert HE; apply U_imp; auto|].
  destruct HC as (_ & I1 & _).
  match goal with |- context [if ?b then LRetry _ else _] => destruct b end.
  { split; [|cbn; lia]. unfold top.
    cbn [iter2 set_lreset set_reason set_ijacob]. rewrite I1.
    Us (cnt_stable (iter2 s)). revert HE. apply U_imp. intros new. apply run_cnt. }
  match goal with |- context [if ?b then (if c_retout c then _ else _) else _] => destruct b end.
  { destruct (c_retout c); (revert HE; apply U_imp; auto). }
  assert (HI : iter2 s1 = fi - bad) by lia. rewrite Hb in HS.
  pose proof (after_evolve_U fi bad s1 HI HS) as HA.
  pose proof (after_evolve_count c M fi bad s1) as HD.
  destruct (after_evolve c M fi bad (fi - bad) s1) as [s2|[b2 s2]].
  - destruct HD as (_ & _ & C3). split; [exact HA|lia].
  - destruct HD as (_ & _ & C3 & C4). apply IH; auto; lia.
Qed.

Lemma sel_U s : top s -> liter s = true -> 1 <= iter2 s -> resU (solve_equilibrium_loop c M s).
Proof.
  intros H L Hi. unfold solve_equilibrium_loop.
  set (s1 := match reason s with BAD_JACOBIAN => _ | _ => s end).
  assert (H1 : top s1 /\ iter2 s1 = iter2 s /\ liter s1 = true).
  { subst s1. destruct (reason s) eqn:ER; auto.
    cbv zeta. cbn [lreset set_x].
    set (s2 := set_reason NO_RESTART _).
    assert (H2 : U (cnt (iter2 s)) s2 /\ iter2 s2 = iter2 s /\ reason s2 = NO_RESTART /\
                 liter s2 = true).
    { subst s2. split; [|destruct (lreset s); repeat split; auto].
      apply (U_set _ (set_reason NO_RESTART) _); [reflexivity|].
      destruct (lreset s); Us (cnt_stable (iter2 s)); exact H. }
    clearbody s2. destruct H2 as (H2 & I2 & R2 & L2).
    unfold restart_delt0r, restart_iteration. rewrite R2.
    split; [|split; [cbn; exact I2|exact L2]].
    unfold top. cbn [iter2 set_delt0r log set_trace set_bak]. rewrite I2.
    Us (cnt_stable (iter2 s)). exact H2. }
  clearbody s1. destruct H1 as (H1 & I1 & L1).
  cbv zeta. cbn [iter2 set_status set_liter].
  apply force_loop_U; [|cbn; lia|cbn; lia].
  unfold top. cbn [iter2 set_status set_liter].
  apply (U_set _ (set_status ST_NORMAL) _); [reflexivity|].
  apply (U_eq _ s1); [unfold ut; cbn; rewrite L1; reflexivity|exact H1].
Qed.

Lemma retry_U fuel : forall s, top s -> 1 <= iter2 s ->
  match retry_loop c M fuel s with LError _ s' | LRetry s' | LDone s' => U (fun _ => True) s' end.
Proof.
  induction fuel as [|k IH]; intros s H Hi; cbn [retry_loop];
    [revert H; apply U_imp; auto|].
  destruct (liter s) eqn:L; [|revert H; apply U_imp; auto].
  pose proof (sel_U s H L Hi) as HO.
  destruct (solve_equilibrium_loop c M s) as [e s1|s1|s1]; auto.
  destruct HO as (A & B). apply IH; auto.
Qed.

Lemma solve_U s0 : top (set_liter true s0) -> 1 <= iter2 s0 ->
  match solve_equilibrium c M s0 with
  | StageCancelled s' => U (fun _ => True) s' /\ interrupted s' = true
  | StageError s' | StageOk s' => U (fun _ => True) s' /\ interrupted s' = false
  end.
Proof.
  intros H0 Hi. unfold solve_equilibrium.
  assert (HW : top (set_lreset false (set_liter true s0))).
  { unfold top. cbn [iter2 set_lreset]. Us (cnt_stable (iter2 s0)). exact H0. }
  pose proof (retry_U (Z.to_nat (c_niterv c)) _ HW Hi) as HR.
  destruct (retry_loop _ _ _ _) as [e s2|s2|s2]; cbn [finish_stage];
    destruct (interrupted s2) eqn:EI; auto.
  destruct (_ && _); auto.
Qed.

End P.

Section Q.
Context {K : num} {G V F : Type} (c : @cfg K) (M : @ext K G V F).

Lemma stage_int g (s : @st K G V F) :
  c_cb c = true -> 1 <= c_nstep c -> interrupted s = false ->
  match solve_equilibrium c M (init_stage c M g s) with
  | StageCancelled s' => U c (trace s) (fun _ => True) s' /\ interrupted s' = true
  | StageError s' | StageOk s' => U c (trace s) (fun _ => True) s' /\ interrupted s' = false
  end.
Proof.
  intros HC HN HI.
  assert (H : top c (trace s) (set_liter true (init_stage c M g s))).
  { exists [EvSave g; EvReinit g]. cbn. rewrite HI. repeat split. }
  assert (I2 : iter2 (init_stage c M g s) = 1) by reflexivity.
  revert H I2. generalize (init_stage c M g s). intros s0 H I2.
  apply solve_U; auto. lia.
Qed.
End Q.
