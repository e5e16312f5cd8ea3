(** Proofs about the stage loop: the vacuum coupling. *)
From Coq Require Import ZArith List Bool Lia.
From Verif Require Import Base Num LoopModel LoopSpec LoopProofs LoopConv.
Import ListNotations.
Open Scope Z_scope.

Section P.
Context {K : num} {G V F : Type}.
Notation st := (@st K G V F).
Notation event := (@event K G V).
Context (c : @cfg K) (M : @ext K G V F).
Context (t0 : list event) (v0 : vacuum_state) (n0 : Z).
Hypothesis trunc10 : forall r : K,
  ntrunc (ndiv (nZ 1) (nmax (nfrac 1 10) r)) <= 10.
Hypothesis v0_ok : v0 <> VActive.
Hypothesis n0_ok : 1 <= n0.
Implicit Types (s : st).

Definition all_ok (e : event) (past : list event) : Prop :=
  couple_ok v0 e past /\ (c_lfreeb c = true -> edge_ok e past) /\
  interval_ok n0 e past /\ full_ok restarted e past.

Definition U0 (tr : list event) (v : vacuum_state) (n : Z) (Q : list event -> Prop) : Prop :=
  exists new, tr = new ++ t0 /\ always all_ok new /\ coupling v0 new = v /\
    1 <= n <= Z.max n0 10 /\
    (v = VActive -> c_lfreeb c = true -> solved new = true) /\ Q new.
Definition U (Q : list event -> Prop) s : Prop := U0 (trace s) (vac s) (nvacskip s) Q.
Local Arguments U : simpl never.

Lemma U_imp (Q Q' : list event -> Prop) s :
  (forall new, Q new -> Q' new) -> U Q s -> U Q' s.
Proof.
  intros H (new & A & B & D & E & I & J). exists new. repeat split; auto; apply E.
Qed.

Definition ut s := (trace s, vac s, nvacskip s).

Lemma U_eq Q s s' : ut s' = ut s -> U Q s -> U Q s'.
Proof. unfold ut, U. intros H. injection H as -> -> ->. auto. Qed.

Lemma U_set Q (h : st -> st) s : (forall r, ut (h r) = ut r) -> U Q s -> U Q (h s).
Proof. intros H. apply U_eq. apply H. Qed.

Definition neutral (e : event) : Prop :=
  match e with EvCouple _ | EvVac _ _ | EvEdge => False | _ => True end.

Lemma solved_cons (e : event) new : solved (e :: new) = false -> solved new = false.
Proof. unfold solved; cbn. destruct e; cbn; auto; discriminate. Qed.

Lemma U_log (Q Q' : list event -> Prop) e s : neutral e ->
  (forall new, Q new -> Q' (e :: new)) -> U Q s -> U Q' (log e s).
Proof.
  intros N H (new & A & B & D & E & I & J). exists (e :: new).
  unfold all_ok. cbn. rewrite A. repeat split; auto; try apply E;
    destruct e; cbn in *; auto; contradiction.
Qed.

(** At the top of the force loop. *)
Definition weak (v : vacuum_state) (i : Z) (new : list event) : Prop :=
  v = VInitialized -> c_lfreeb c = true -> solved new = true \/ i = 1.
Definition strong (v : vacuum_state) (new : list event) : Prop :=
  v = VInitialized -> c_lfreeb c = true -> solved new = true.
Definition fresh (i1 i2 : Z) (new : list event) : Prop :=
  restarted new = true -> i1 = i2.
Definition top s : Prop :=
  U (fun new => fresh (iter1 s) (iter2 s) new /\ weak (vac s) (iter2 s) new) s.

Ltac Us :=
  repeat match goal with
  | |- U _ (aborted _) => unfold aborted
  | |- U _ (?f ?a ?s) =>
     first [ apply (U_set _ (f a) s); [intros ?; reflexivity|]
           | eapply (U_log _ _ a s); [exact I| |] ]
  end.

Lemma rem_self (i n : Z) : Z.rem (i - i) n = 0.
Proof. rewrite Z.sub_diag. destruct n; reflexivity. Qed.

(** The vacuum block. *)
Lemma vacuum_block_U o s : top s -> 1 <= iter2 s ->
  match vacuum_block c o s with
  | inl s' => U (fun _ => True) s'
  | inr (s', _) => U (strong (vac s')) s' /\ iter2 s' = iter2 s
  end.
Proof.
  intros H Hi. unfold vacuum_block.
  destruct (c_lfreeb c) eqn:LF; cbn [andb];
    [|split; [revert H; apply U_imp; intros new _ _ Hc; congruence|reflexivity]].
  destruct ((1 <? iter2 s) || vac_eqb (vac s) VInitialized) eqn:EB.
  2:{ split; [|reflexivity]. apply orb_false_iff in EB. destruct EB as [_ EB].
      revert H. apply U_imp. intros new _ E _. rewrite E in EB. discriminate. }
  cbv zeta. clear EB.
  set (k := Z.rem (iter2 s - iter1 s) (nvacskip s)).
  set (rz := nadd (fsqr s) (fsqz s)).
  (* after the state increment *)
  set (s1 := if negb (vac_eqb (vac (set_ivacskip k s)) VActive) && nlt rz (nfrac 1 1000)
             then _ else set_ivacskip k s).
  assert (H1 : exists new, trace s1 = new ++ t0 /\ always all_ok new /\
     coupling v0 new = vac s1 /\ 1 <= nvacskip s1 <= Z.max n0 10 /\
     iter2 s1 = iter2 s /\ fsqr s1 = fsqr s /\ fsqz s1 = fsqz s /\
     (restarted new = true -> ivacskip s1 = 0)).
  { destruct H as (new & A & B & D & E & I & J & _).
    assert (KZ : restarted new = true -> k = 0).
    { intros R. subst k. rewrite (J R). apply rem_self. }
    subst s1. cbn [vac set_ivacskip].
    destruct (negb (vac_eqb (vac s) VActive)) eqn:EV; cbn [andb].
    - destruct (nlt rz (nfrac 1 1000)).
      + exists (EvCouple (vac_next (vac s)) :: new). cbn. rewrite A.
        split; [reflexivity|]. split; [|repeat split; auto; apply E].
        split; auto. unfold all_ok; cbn. repeat split; auto.
        rewrite D. destruct (vac s); cbn in *; auto; discriminate.
      + exists new. cbn. repeat split; auto; apply E.
    - exists new. cbn. repeat split; auto; apply E. }
  clearbody s1. clear k H. destruct H1 as (new & A & B & D & E & I2 & I3 & I4 & J).
  set (s2 := if ivacskip s1 =? 0 then _ else s1).
  assert (H2 : trace s2 = new ++ t0 /\ vac s2 = vac s1 /\ 1 <= nvacskip s2 <= Z.max n0 10 /\
               iter2 s2 = iter2 s /\ ivacskip s2 = ivacskip s1).
  { subst s2. destruct (ivacskip s1 =? 0); cbn; repeat split; auto; try apply E;
    specialize (trunc10 (nmul (nZ 100000000000) rz));
    cbn in *; lia. }
  clearbody s2. destruct H2 as (A2 & V2 & E2 & K2 & J2). rewrite <- J2 in J.
  rewrite <- V2 in D. clear s1 A V2 E I2 I3 I4 J2.
  destruct (vac_eqb (vac s2) VOff) eqn:EO; cbn [negb].
  { destruct (vac s2) eqn:EV; try discriminate. split; [|exact K2].
    exists new. rewrite EV. repeat split; auto; try apply E2; discriminate. }
  set (s3 := log (EvVac _ _) s2).
  assert (H3 : exists new3, trace s3 = new3 ++ t0 /\ always all_ok new3 /\
     coupling v0 new3 = vac s3 /\ 1 <= nvacskip s3 <= Z.max n0 10 /\
     iter2 s3 = iter2 s /\ solved new3 = true).
  { exists (EvVac (ivacskip s2 =? 0) (nvacskip s2) :: new). subst s3; cbn. rewrite A2.
    split; [reflexivity|]. split; [|repeat split; auto; apply E2].
    split; auto. unfold all_ok; cbn. repeat split; auto; try apply E2.
    intros R. rewrite (J R). reflexivity. }
  clearbody s3. clear s2 D EO A2 E2 K2 J B new.
  destruct H3 as (new & A & B & D & E & I2 & SO).
  set (s4 := if vac_eqb (vac s3) VInitializing then _ else s3).
  assert (H4 : U (fun new => solved new = true) s4 /\ iter2 s4 = iter2 s).
  { subst s4. destruct (vac_eqb (vac s3) VInitializing) eqn:EV.
    - destruct (vac s3); try discriminate. split; [|exact I2].
      exists (EvCouple VInitialized :: new). cbn. rewrite A.
      split; [reflexivity|].
      split; [|repeat split; auto; try apply E; discriminate].
      split; auto. unfold all_ok; cbn. rewrite D. auto.
    - split; [|exact I2]. exists new. repeat split; auto; apply E. }
  clearbody s4. destruct H4 as (H4 & I4).
  destruct (o_vac_err o); [revert H4; apply U_imp; auto|].
  match goal with |- match (if ?b then _ else _) with _ => _ end => destruct b end;
    (split; [|cbn; exact I4]);
    [apply (U_set _ (set_reason BAD_JACOBIAN) s4); [reflexivity|]|];
    revert H4; apply U_imp; intros n Hn _ _; exact Hn.
Qed.

Lemma update_U s : top s -> 1 <= iter2 s -> reason s = NO_RESTART ->
  match update c M s with
  | inl (_, s') => U (fun _ => True) s'
  | inr (s', nr) => iter2 s' = iter2 s /\
      (U (strong (vac s')) s' \/
       U (weak (vac s') (iter2 s')) s' /\ reason s' = BAD_JACOBIAN /\ nr = false)
  end.
Proof.
  intros H Hi HR. unfold update. cbv zeta.
  set (s0 := set_x _ s).
  assert (H0 : top s0 /\ iter2 s0 = iter2 s)
    by (split; [subst s0; unfold top; cbn [iter1 iter2 vac set_x]; Us; exact H|reflexivity]).
  clearbody s0. destruct H0 as (H0 & I0).
  destruct (o_jac_bad _).
  { split; [exact I0|]. right. split; [|split; reflexivity].
    unfold aborted. cbn [vac iter2 log set_trace set_reason].
    eapply U_log; [exact I| |apply (U_set _ (set_reason BAD_JACOBIAN) s0); [reflexivity|exact H0]].
    intros new [_ W]. exact W. }
  destruct (_ && _).
  { eapply (U_log _ _ _ s0); [exact I| |exact H0]. auto. }
  pose proof (vacuum_block_U (m_eval M s0) s0 H0 ltac:(lia)) as HV.
  destruct (vacuum_block c (m_eval M s0) s0) as [s1|[s1 nr]].
  { eapply (U_log _ _ _ s1); [exact I| |exact HV]. auto. }
  destruct HV as (HV & I1).
  set (s2 := edge_force c s1).
  assert (H2 : U (strong (vac s2)) s2 /\ iter2 s2 = iter2 s).
  { subst s2. unfold edge_force.
    destruct (c_lfreeb c) eqn:LF; cbn [andb]; [|split; [exact HV|lia]].
    destruct (vac_eqb (vac s1) VInitialized || vac_eqb (vac s1) VActive) eqn:EV;
      [|split; [exact HV|lia]].
    split; [|cbn; lia].
    destruct HV as (new & A & B & D & E & J & Q).
    assert (SO : solved new = true).
    { destruct (vac s1) eqn:EW; try discriminate; auto. }
    exists (EvEdge :: new). cbn. rewrite A. split; [reflexivity|].
    split; [|repeat split; auto; apply E].
    split; auto. unfold all_ok; cbn. auto. }
  clearbody s2. destruct H2 as (H2 & I2).
  destruct (o_pc_err _).
  { unfold aborted. eapply U_log; [exact I| |Us; exact H2]. auto. }
  match goal with |- context [if ?b then set_reason HUGE_INITIAL_FORCES _ else _] =>
    destruct b end; (split; [cbn; lia|]); left;
    cbn [vac log set_trace set_reason set_f set_fsqr set_fsqz set_fsql set_fsqr1 set_fsqz1 set_fsql1].
  - apply (U_set _ (set_reason HUGE_INITIAL_FORCES) _); [reflexivity|].
    eapply U_log; [exact I| |Us; exact H2]. intros new Q. exact Q.
  - eapply U_log; [exact I| |Us; exact H2]. intros new Q. exact Q.
Qed.

Lemma restart_U (Q Q' : list event -> Prop) d s : (forall e new, neutral e -> Q new -> Q' (e :: new)) ->
  U Q s -> U Q' (snd (restart_iteration M d s)).
Proof.
  intros HQ H. unfold restart_iteration. destruct (reason s); cbn [snd];
  repeat match goal with
  | |- U _ (log _ _) => fail 1
  | |- U _ (?f ?a ?u) => apply (U_set _ (f a) u); [intros ?; reflexivity|]
  end;
  (eapply (U_log Q); [exact I|intros; apply HQ; [exact I|auto]|Us; exact H]).
Qed.

Lemma restart_frame d s :
  vac (snd (restart_iteration M d s)) = vac s /\
  iter2 (snd (restart_iteration M d s)) = iter2 s.
Proof. unfold restart_iteration. destruct (reason s); cbn; auto. Qed.

Lemma strong_neutral v e new : neutral e -> strong v new -> strong v (e :: new).
Proof.
  intros N S A B. specialize (S A B). unfold solved in *. cbn. rewrite S. apply orb_true_r.
Qed.
Lemma weak_neutral v i e new : neutral e -> weak v i new -> weak v i (e :: new).
Proof.
  intros N S A B. destruct (S A B) as [S'|S']; auto.
  left. unfold solved in *. cbn. rewrite S'. apply orb_true_r.
Qed.
Lemma strong_weak v i new : strong v new -> weak v i new.
Proof. intros S A B. left; auto. Qed.

Lemma evolve_U s : top s -> 1 <= iter2 s -> status s = ST_NORMAL ->
  match evolve c M (delt0r s) s with
  | inl (_, s') => U (fun _ => True) s'
  | inr s' => iter2 s' = iter2 s /\ U (weak (vac s') (iter2 s')) s' /\
      (status s' = ST_NORMAL \/ status s' = ST_SUCCESS -> U (strong (vac s')) s')
  end.
Proof.
  intros H Hi HS. unfold evolve, update_forward_model.
  assert (H0 : top (set_reason NO_RESTART s))
    by (unfold top; cbn [iter1 iter2 vac set_reason]; Us; exact H).
  pose proof (update_U _ H0 Hi eq_refl) as HU.
  pose proof (update_spec c M (set_reason NO_RESTART s)) as HP.
  destruct (update c M (set_reason NO_RESTART s)) as [[e s2]|[s2 nr]]; [exact HU|].
  destruct HU as (I2 & HU). cbn [iter2 set_reason] in I2.
  assert (S2 : status s2 = ST_NORMAL).
  { destruct HP as (? & ? & ? & _ & _ & _ & S & _). cbn in S. congruence. }
  assert (HQ : exists s3, (if nr then let '(_, s0) := restart_iteration M (c_delt c) s2 in
                        inr (set_reason NO_RESTART s0) else inr s2) = @inr (bool * st) st s3
     /\ iter2 s3 = iter2 s /\ status s3 = ST_NORMAL /\ U (weak (vac s3) (iter2 s3)) s3 /\
        (U (strong (vac s3)) s3 \/ reason s3 = BAD_JACOBIAN)).
  { destruct nr.
    - destruct HU as [HU|(_ & _ & D)]; [|discriminate].
      pose proof (restart_U _ _ (c_delt c) s2 (strong_neutral (vac s2)) HU) as R1.
      pose proof (restart_frame (c_delt c) s2) as (R2 & R3).
      assert (R4 : status (snd (restart_iteration M (c_delt c) s2)) = status s2)
        by (unfold restart_iteration; destruct (reason s2); reflexivity).
      destruct (restart_iteration M (c_delt c) s2) as [d s3]. cbn [snd] in *.
      eexists; split; [reflexivity|].
      cbn [iter2 vac status set_reason]. rewrite R2, R3, R4.
      split; [exact I2|]. split; [exact S2|].
      split; [|left]; (apply (U_set _ (set_reason NO_RESTART) s3); [reflexivity|]); auto.
      revert R1. apply U_imp. intros new. apply strong_weak.
    - exists s2. split; [reflexivity|]. split; [exact I2|]. split; [exact S2|].
      destruct HU as [HU|(HU & HR & _)].
      + split; auto. revert HU. apply U_imp. intros new. apply strong_weak.
      + auto. }
  destruct HQ as (s3 & -> & I3 & S3 & W3 & D3). clear HU HP H0 I2 S2 nr s2.
  cbv zeta.
  match goal with |- context [if ?b then set_status ST_BAD_JACOBIAN s3 else _] =>
    destruct b eqn:EB end.
  { cbn [negb st_eqb status set_status orb]. cbn [iter2 vac set_status].
    split; [exact I3|]. split; [Us; exact W3|]. intros [E|E]; discriminate. }
  apply orb_false_iff in EB. destruct EB as [EB _].
  assert (ST3 : U (strong (vac s3)) s3).
  { destruct D3 as [D3|D3]; auto. rewrite D3 in EB. cbn in EB. rewrite andb_true_r in EB.
    apply Z.eqb_neq in EB. revert W3. apply U_imp. intros new W A B.
    destruct (W A B); [assumption|contradiction]. }
  assert (FIN : forall s', iter2 s' = iter2 s3 -> vac s' = vac s3 ->
            U (strong (vac s3)) s' ->
            iter2 s' = iter2 s /\ U (weak (vac s') (iter2 s')) s' /\
      (status s' = ST_NORMAL \/ status s' = ST_SUCCESS -> U (strong (vac s')) s')).
  { intros s' A B C. rewrite A, B. split; [lia|]. split; auto.
    revert C. apply U_imp. intros new. apply strong_weak. }
  match goal with |- context [if ?b then set_status ST_SUCCESS _ else _] =>
    destruct b end; [cbn [negb st_eqb status set_status orb]; apply FIN; [reflexivity|reflexivity|Us; exact ST3]|].
  destruct (_ || _); [apply FIN; auto|].
  match goal with |- context [set_fsq ?a (set_invtau ?b s3)] =>
    set (s4 := set_fsq a (set_invtau b s3)) end.
  assert (H4 : U (strong (vac s3)) s4 /\ iter2 s4 = iter2 s3 /\ vac s4 = vac s3)
    by (subst s4; split; [Us; exact ST3|split; reflexivity]). clearbody s4.
  destruct H4 as (H4 & A4 & B4).
  destruct (m_step M _ _ _ _ _ _) as [gx gv].
  apply FIN; [exact A4|exact B4|].
  apply (U_log (strong (vac s3))); [exact I| |Us; exact H4].
  intros new. apply strong_neutral. exact I.
Qed.

Lemma restart_delt0r_U (Q Q' : list event -> Prop) s : (forall e new, neutral e -> Q new -> Q' (e :: new)) ->
  U Q s -> U Q' (restart_delt0r M s) /\ vac (restart_delt0r M s) = vac s /\
  iter2 (restart_delt0r M s) = iter2 s.
Proof.
  intros HQ H. unfold restart_delt0r.
  pose proof (restart_U Q Q' (delt0r s) s HQ H) as R1.
  pose proof (restart_frame (delt0r s) s) as (R2 & R3).
  destruct (restart_iteration M (delt0r s) s) as [d s']. cbn [snd] in *.
  split; [Us; exact R1|]. cbn; auto.
Qed.

Lemma tsc_U (Q : list event -> Prop) i s : (forall e new, neutral e -> Q new -> Q (e :: new)) ->
  U Q s -> U Q (time_step_control c M i s) /\ vac (time_step_control c M i s) = vac s.
Proof.
  intros HQ H. unfold time_step_control. cbv zeta.
  set (s1 := if _ || _ then set_res0 (fsq s) s else s).
  assert (H1 : U Q s1 /\ vac s1 = vac s)
    by (subst s1; destruct (_ || _); split; auto; Us; auto).
  clearbody s1. destruct H1 as (H1 & <-).
  set (s2 := set_res0 (nmin (res0 s1) (fsq s1)) s1).
  assert (H2 : U Q s2 /\ vac s2 = vac s1) by (subst s2; split; auto; Us; auto).
  clearbody s2. destruct H2 as (H2 & <-).
  assert (RS : forall u, U Q u -> U Q (restart_delt0r M u) /\ vac (restart_delt0r M u) = vac u).
  { intros u Hu. pose proof (restart_delt0r_U Q Q u HQ Hu) as (A & B & _). auto. }
  destruct (c_parvmec c).
  - match goal with |- context [set_res1 (nmin _ _) ?u] => set (s3 := u) end.
    assert (H3 : U Q s3 /\ vac s3 = vac s2)
      by (subst s3; destruct (_ || _); split; auto; Us; auto). clearbody s3.
    set (s4 := set_res1 (nmin _ _) s3).
    assert (H4 : U Q s4 /\ vac s4 = vac s2)
      by (subst s4; destruct H3; split; auto; Us; auto). clearbody s4.
    destruct H4 as (H4 & <-).
    match goal with |- U _ (if ?b then _ else _) /\ _ => destruct b end; [apply RS; auto|].
    match goal with |- U _ (if ?b then _ else _) /\ _ => destruct b end; split; auto; Us; auto.
  - match goal with |- U _ (if ?b then _ else _) /\ _ => destruct b end; [apply RS; auto|].
    match goal with |- U _ (if ?b then _ else _) /\ _ => destruct b end; [split; auto; Us; auto|].
    match goal with |- U _ (if ?b then _ else _) /\ _ => destruct b end; split; auto; Us; auto.
Qed.

Lemma report_U v i s : U (strong v) s ->
  U (fun new => strong v new /\ restarted new = false) (report c M i s) /\
  vac (report c M i s) = vac s.
Proof.
  intros H. unfold report. cbv zeta.
  set (s1 := log (EvCount i) s).
  assert (H1 : U (fun new => strong v new /\ restarted new = false) s1 /\ vac s1 = vac s).
  { split; [|reflexivity]. eapply U_log; [exact I| |exact H].
    intros new S. split; [apply strong_neutral; [exact I|auto]|reflexivity]. }
  clearbody s1. destruct H1 as (H1 & <-).
  destruct (_ || _); [|auto]. destruct (c_cb c); [|auto].
  set (s2 := log _ _).
  assert (H2 : U (fun new => strong v new /\ restarted new = false) s2 /\ vac s2 = vac s1).
  { split; [|reflexivity].
    apply (U_log (fun new => strong v new /\ restarted new = false)); [exact I| |Us; exact H1].
    intros new (S & R). split; [apply strong_neutral; [exact I|auto]|exact R]. }
  clearbody s2. destruct H2 as (H2 & <-).
  destruct (m_callback _ _); split; auto; Us; auto.
Qed.

Lemma after_evolve_U fi bad s : iter2 s = fi - bad ->
  U (strong (vac s)) s ->
  match after_evolve c M fi bad (fi - bad) s with
  | inl s' => top s' /\ reason s' = NO_RESTART
  | inr (_, s') => top s'
  end.
Proof.
  intros Hi H. unfold after_evolve.
  destruct (_ || _).
  - cbv zeta. split; [|reflexivity].
    pose proof (restart_delt0r_U _ _ (set_reason BAD_JACOBIAN s) (strong_neutral (vac s))) as R.
    destruct R as (R1 & R2 & R3); [Us; exact H|].
    assert (R4 : iter1 (restart_delt0r M (set_reason BAD_JACOBIAN s)) = iter2 s)
      by (unfold restart_delt0r, restart_iteration; reflexivity).
    cbn [vac iter2 set_reason] in R2, R3.
    set (s1 := restart_delt0r M _) in *. clearbody s1.
    unfold top. cbn [iter1 iter2 vac set_reason set_delt0r]. rewrite R2, R3, R4.
    Us. revert R1. apply U_imp. intros new S. split; [intros _; reflexivity|apply strong_weak; auto].
  - set (s1 := if 75 <=? ijacob s then _ else s).
    assert (H1 : U (strong (vac s)) s1 /\ vac s1 = vac s)
      by (subst s1; destruct (_ <=? _); split; auto; Us; auto).
    clearbody s1. destruct H1 as (H1 & E1).
    cbv zeta.
    pose proof (tsc_U (strong (vac s)) (fi - bad) s1
                  (strong_neutral (vac s)) H1) as (H2 & E2).
    set (s2 := time_step_control c M (fi - bad) s1) in *. clearbody s2.
    rewrite E1 in E2. clear E1 H1 s1.
    assert (FIN : forall b (s3 : st),
      U (fun new => strong (vac s) new /\ fresh (iter1 s3) (fi - b + 1) new) s3 ->
      vac s3 = vac s ->
      top (set_iter2 (fi - b + 1) (if vac_eqb (vac s3) VInitialized
             then log (EvCouple VActive) (set_vac VActive s3) else s3))).
    { intros b s3 H3 E3. destruct (vac_eqb (vac s3) VInitialized) eqn:EV.
      - assert (EV' : vac s3 = VInitialized) by (destruct (vac s3); try discriminate; auto).
        unfold top. cbn [iter1 iter2 vac set_iter2 set_vac log set_trace].
        apply (U_set _ (set_iter2 (fi - b + 1)) _); [reflexivity|].
        destruct H3 as (new & A & B & D & E & J & S & Fr).
        exists (EvCouple VActive :: new). cbn. rewrite A.
        split; [reflexivity|].
        split; [|repeat split; auto; try apply E].
        + split; auto. unfold all_ok; cbn. rewrite D, EV'. auto.
        + intros _ LF. apply S; congruence.
        + discriminate.
      - unfold top. cbn [iter1 iter2 vac set_iter2].
        apply (U_set _ (set_iter2 (fi - b + 1)) _); [reflexivity|].
        revert H3. apply U_imp. intros new (S & Fr). split; auto.
        intros A. rewrite A in EV. discriminate. }
    destruct (negb _).
    + apply FIN.
      * cbn [iter1 set_iter1].
        apply (U_set _ (set_iter1 (fi - bad)) _); [reflexivity|].
        pose proof (restart_delt0r_U _ _ s2 (strong_neutral (vac s)) H2) as (A & _).
        revert A. apply U_imp. intros new S. split; auto. intros _. lia.
      * cbn [vac set_iter1].
        pose proof (restart_delt0r_U _ _ s2 (strong_neutral (vac s)) H2) as (_ & A & _).
        congruence.
    + pose proof (report_U (vac s) (fi - bad) s2 H2) as (A & B).
      apply FIN; [|congruence].
      revert A. apply U_imp. intros new (S & R). split; auto.
      intros R'. congruence.
Qed.

(** Entering SolveEquilibriumLoop. *)
Definition enter s : Prop :=
  U (fun new => (reason s <> BAD_JACOBIAN -> fresh (iter1 s) (iter2 s) new) /\
                weak (vac s) (iter2 s) new) s /\
  (reason s = BAD_JACOBIAN -> lreset s = true).

Definition resU (r : loop_result) : Prop :=
  match r with
  | LError _ s | LDone s => U (fun _ => True) s
  | LRetry s => enter s /\ 1 <= iter2 s
  end.

Lemma after_evolve_status fi bad s :
  match after_evolve c M fi bad (fi - bad) s with
  | inl s' => True
  | inr (_, s') => liter s' = true -> status s' = status s /\ liter s = true
  end.
Proof.
  pose proof (after_evolve_still c M fi bad s) as H.
  destruct (after_evolve c M fi bad (fi - bad) s) as [|[? s']]; [exact I|].
  destruct H as (_ & _ & H). intros L. destruct (H L); auto.
Qed.

Lemma evolve_status s : status s = ST_NORMAL -> liter s = true ->
  match evolve c M (delt0r s) s with
  | inl _ => True
  | inr s' => status s' = ST_SUCCESS -> liter s' = false
  end.
Proof.
  intros HS HL. unfold evolve.
  assert (X : forall s3, status s3 = ST_NORMAL ->
    match inr s3 : bool * st + st with inl e => True | inr s3 => True end) by auto.
  clear X.
  pose proof (update_spec c M (set_reason NO_RESTART s)) as HP.
  unfold update_forward_model.
  destruct (update c M (set_reason NO_RESTART s)) as [[e s2]|[s2 nr]]; [exact I|].
  assert (S2 : status s2 = ST_NORMAL /\ liter s2 = true).
  { destruct HP as (? & ? & ? & _ & _ & _ & S & L & _). cbn in S, L. split; congruence. }
  assert (HQ : exists s3, (if nr then let '(_, s0) := restart_iteration M (c_delt c) s2 in
                        inr (set_reason NO_RESTART s0) else inr s2) = @inr (bool * st) st s3
     /\ status s3 = ST_NORMAL).
  { destruct nr; [|exists s2; tauto].
    destruct (restart_iteration M (c_delt c) s2) as [d s3] eqn:ER.
    eexists; split; [reflexivity|]. cbn.
    assert (status (snd (restart_iteration M (c_delt c) s2)) = status s2)
      by (unfold restart_iteration; destruct (reason s2); reflexivity).
    rewrite ER in H. cbn in H. destruct S2; congruence. }
  destruct HQ as (s3 & -> & S3). cbv zeta.
  match goal with |- context [if ?b then set_status ST_BAD_JACOBIAN s3 else _] =>
    destruct b end; [cbn; discriminate|].
  match goal with |- context [if ?b then set_status ST_SUCCESS _ else _] =>
    destruct b end; [cbn; auto|].
  destruct (_ || _); [congruence|].
  destruct (m_step M _ _ _ _ _ _) as [gx gv]. cbn. congruence.
Qed.

Lemma force_loop_U fuel : forall fi bad s,
  top s -> 1 <= iter2 s -> iter2 s = fi - bad ->
  (liter s = true -> status s = ST_NORMAL) ->
  resU (force_loop c M fuel fi bad s).
Proof.
  induction fuel as [|k IH]; intros fi bad s H Hi Hb HS;
    [cbn; revert H; apply U_imp; auto|].
  cbn [force_loop].
  destruct ((fi <=? c_niterv c) && liter s) eqn:EL; cbn [negb];
    [|revert H; apply U_imp; auto].
  apply andb_true_iff in EL. destruct EL as [_ EL]. specialize (HS EL).
  pose proof (evolve_U s H Hi HS) as HE.
  pose proof (evolve_status s HS EL) as HT.
  destruct (evolve c M (delt0r s) s) as [[e s1]|s1]; [exact HE|].
  destruct HE as (I1 & W1 & ST1).
  match goal with |- context [if ?b then LRetry _ else _] => destruct b end.
  { split; [|cbn; lia]. split; [|auto].
    cbn [reason iter1 iter2 vac set_lreset set_reason set_ijacob]. Us.
    revert W1. apply U_imp. intros new W. split; [congruence|exact W]. }
  destruct (negb (st_eqb (status s1) ST_NORMAL) && negb (st_eqb (status s1) ST_SUCCESS)) eqn:EN.
  { destruct (c_retout c); (revert W1; apply U_imp; auto). }
  assert (SS : status s1 = ST_NORMAL \/ status s1 = ST_SUCCESS).
  { destruct (status s1); cbn in EN; auto; discriminate. }
  assert (HI : iter2 s1 = fi - bad) by lia.
  pose proof (after_evolve_U fi bad s1 HI (ST1 SS)) as HA.
  pose proof (after_evolve_count c M fi bad s1) as HC.
  pose proof (after_evolve_status fi bad s1) as HF.
  destruct (after_evolve c M fi bad (fi - bad) s1) as [s2|[b2 s2]].
  - destruct HA as (A & B). destruct HC as (_ & _ & C3).
    split; [|lia]. split; [|congruence].
    revert A. apply U_imp. intros new (A1 & A2). auto.
  - destruct HC as (_ & _ & C3 & C4). apply IH; auto; try lia.
    intros L2. destruct (HF L2) as (A & B). rewrite A.
    destruct SS as [SS|SS]; auto. specialize (HT SS). congruence.
Qed.

Lemma sel_U s : enter s -> 1 <= iter2 s -> resU (solve_equilibrium_loop c M s).
Proof.
  intros (H & HR) Hi. unfold solve_equilibrium_loop.
  set (s1 := match reason s with BAD_JACOBIAN => _ | _ => s end).
  assert (H1 : top s1 /\ iter2 s1 = iter2 s).
  { subst s1. destruct (reason s) eqn:ER;
      try (split; [|reflexivity]; revert H; apply U_imp; intros new (A & B); split; auto;
           apply A; discriminate).
    cbv zeta. cbn [lreset set_x]. rewrite HR by auto.
    set (s2 := set_reason NO_RESTART _).
    assert (H2 : U (fun new => restarted new = false /\ weak (vac s) (iter2 s) new) s2 /\
                 vac s2 = vac s /\ iter2 s2 = iter2 s /\ reason s2 = NO_RESTART).
    { subst s2. split; [|repeat split].
      apply (U_set _ (set_reason NO_RESTART) _); [reflexivity|].
      eapply U_log; [exact I| |Us; exact H].
      intros new (_ & W). split; [reflexivity|]. apply weak_neutral; [exact I|exact W]. }
    clearbody s2. destruct H2 as (H2 & E2 & I2 & R2).
    unfold restart_delt0r, restart_iteration. rewrite R2.
    split; [|cbn; exact I2].
    unfold top. cbn [iter1 iter2 vac set_delt0r log set_trace set_bak]. rewrite E2, I2.
    apply (U_set _ (set_delt0r _) _); [reflexivity|].
    eapply U_log; [exact I| |Us; exact H2].
    intros new (R & W). split; [intros R'; cbn in R'; congruence|].
    apply weak_neutral; [exact I|exact W]. }
  clearbody s1. destruct H1 as (H1 & I1).
  cbv zeta. cbn [iter2 set_status set_liter].
  apply force_loop_U.
  - unfold top. cbn [iter1 iter2 vac set_status set_liter]. Us. exact H1.
  - cbn; lia.
  - cbn; lia.
  - reflexivity.
Qed.

Lemma retry_U fuel : forall s, enter s -> 1 <= iter2 s ->
  match retry_loop c M fuel s with LError _ s' | LRetry s' | LDone s' => U (fun _ => True) s' end.
Proof.
  assert (E : forall s, enter s -> U (fun _ => True) s).
  { intros s (H & _). revert H. apply U_imp. auto. }
  induction fuel as [|k IH]; intros s H Hi; cbn [retry_loop]; [auto|].
  destruct (liter s); [|auto].
  pose proof (sel_U s H Hi) as HO.
  destruct (solve_equilibrium_loop c M s) as [e s1|s1|s1]; auto.
  destruct HO as (A & B). apply IH; auto.
Qed.

Lemma solve_U s0 : top s0 -> 1 <= iter2 s0 -> reason s0 = NO_RESTART ->
  match solve_equilibrium c M s0 with
  | StageCancelled s' | StageError s' | StageOk s' => U (fun _ => True) s'
  end.
Proof.
  intros H0 Hi HN. unfold solve_equilibrium.
  assert (HW : enter (set_lreset false (set_liter true s0))).
  { split; [|cbn; congruence].
    cbn [reason iter1 iter2 vac set_lreset set_liter]. Us.
    revert H0. apply U_imp. intros new (A & B). auto. }
  pose proof (retry_U (Z.to_nat (c_niterv c)) _ HW Hi) as HR.
  destruct (retry_loop _ _ _ _) as [e s2|s2|s2]; cbn [finish_stage];
    destruct (interrupted s2); auto.
  destruct (_ && _); auto.
Qed.

End P.

Section Q.
Context {K : num} {G V F : Type} (c : @cfg K) (M : @ext K G V F).
Lemma init_top g (s : @st K G V F) :
  vac s <> VActive -> 1 <= nvacskip s ->
  top c (trace s) (vac s) (nvacskip s) (init_stage c M g s).
Proof.
  intros HV HN. exists [EvSave g; EvReinit g]. cbn.
  repeat split; auto; try lia; try contradiction.
  intros _ _. auto.
Qed.

Lemma stage_vac g (s : @st K G V F) :
  (forall r : K, ntrunc (ndiv (nZ 1) (nmax (nfrac 1 10) r)) <= 10) ->
  vac s <> VActive -> 1 <= nvacskip s ->
  match solve_equilibrium c M (init_stage c M g s) with
  | StageCancelled s' | StageError s' | StageOk s' =>
      U c (trace s) (vac s) (nvacskip s) (fun _ => True) s'
  end.
Proof.
  intros HT HV HN. pose proof (init_top g s HV HN) as H.
  assert (I2 : iter2 (init_stage c M g s) = 1) by reflexivity.
  assert (R2 : reason (init_stage c M g s) = NO_RESTART) by reflexivity.
  revert H I2 R2. generalize (init_stage c M g s). intros s0 H I2 R2.
  apply solve_U; auto. lia.
Qed.
End Q.
