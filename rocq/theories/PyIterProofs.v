(** Simulation between the C++ and the Python driver of a stage. *)
From Coq Require Import ZArith List Bool Lia.
From Verif Require Import Base Num LoopModel PyIterModel PyIterSpec.
Import ListNotations.
Open Scope Z_scope.

Ltac pj := cbn [x v bak f iter1 iter2 ijacob reason res0 res1 delt0r fsq fsqr fsqz fsql fsqr1 fsqz1 fsql1 invtau vac nvacskip ivacskip status liter interrupted lreset ncall trace
  set_x set_v set_bak set_f set_iter1 set_iter2 set_ijacob set_reason set_res0 set_res1 set_delt0r set_fsq set_fsqr set_fsqz set_fsql set_fsqr1 set_fsqz1 set_fsql1
  set_invtau set_vac set_nvacskip set_ivacskip set_status set_liter set_interrupted set_lreset set_ncall set_trace log fst snd rr_eqb st_eqb negb andb orb] in *.

Section Sim.
Context {K : num} {G V F : Type}.
Context (c : @cfg K) (M : @ext K G V F) (good : K -> Prop).
Local Notation st := (@st K G V F).
Hypothesis Hfb : c_lfreeb c = false.
Hypothesis Hcb : c_cb c = false.
Hypothesis Hret : c_retout c = false.
Hypothesis FS : function_of_state M.
Hypothesis SN : sane good.
Hypothesis TM : tame c good M.

Definition complete (o : @evalout K F) (s : st) : st :=
  let s := set_f (o_f o) (set_fsqr (o_r o) (set_fsqz (o_z o) (set_fsql (o_l o) s))) in
  let s := set_fsqr1 (o_r1 o) (set_fsqz1 (o_z1 o) (set_fsql1 (o_l1 o) s)) in
  let s := log (EvEval (x s) true (o_r o) (o_z o) (o_l o)) s in
  if (iter2 s =? 1) && nlt (nZ 100) (inv_sum o) then set_reason HUGE_INITIAL_FORCES s else s.

Definition errored (o : @evalout K F) (s : st) : st :=
  aborted (set_fsqr (o_r o) (set_fsqz (o_z o) (set_fsql (o_l o) s))).

Lemma update_fixed (s : st) :
  update c M s =
    let s1 := set_x (m_mask M (x s)) s in
    let o := m_eval M s1 in
    if o_jac_bad o then inr (aborted (set_reason BAD_JACOBIAN s1), false)
    else if (Z.rem (iter2 s - iter1 s) kPreconditionerUpdateInterval =? 0) && o_tcon_err o then inl (true, aborted s1)
    else if o_pc_err o then inl (false, errored o s1)
    else inr (complete o s1, false).
Proof.
  destruct s as [x0 v0 b0 f0 i1 i2 ij rr r0 r1 dt fq fr fz fl fr1 fz1 fl1 tau vc nvs ivs stt li int lr nc tr].
  unfold update, vacuum_block, edge_force. rewrite Hfb. cbn [andb]. pj.
  set (o := m_eval M _). destruct (o_jac_bad o); [reflexivity|].
  destruct (_ && o_tcon_err o); [reflexivity|].
  destruct (o_pc_err o); [unfold errored; pj; reflexivity|].
  unfold complete, inv_sum. pj. destruct (_ && _); reflexivity.
Qed.

(** Equal up to the driver-specific fields. *)
Definition same (s p : st) : Prop :=
  x s = x p /\ v s = v p /\ bak s = bak p /\ f s = f p /\ iter1 s = iter1 p /\ ijacob s = ijacob p /\ res0 s = res0 p /\
  delt0r s = delt0r p /\ fsq s = fsq p /\ fsqr s = fsqr p /\ fsqz s = fsqz p /\ fsql s = fsql p /\ fsqr1 s = fsqr1 p /\
  fsqz1 s = fsqz1 p /\ fsql1 s = fsql1 p /\ vac s = vac p /\ actions (trace s) = actions (trace p) /\
  (c_parvmec c = true -> res1 s = res1 p).

(** Invariant of the loop head: i is the iteration number about to be used. *)
Definition inv (i : Z) (s p : st) : Prop :=
  1 <= iter1 s <= i /\ 0 <= ijacob s /\ (vac_eqb (vac s) VInitialized = false) /\ interrupted s = false /\
  (i = 1 -> ijacob s = 0 -> v s = m_vzero M) /\
  (iter1 s < i -> invtau s = invtau p) /\
  (i <> 1 -> good (fsq s) /\ good (fsq_pre s) /\ neq (res0 s) (nZ (-1)) = false /\
             (c_parvmec c = true -> neq (res1 s) (nZ (-1)) = false) /\
             nfinite (fsqr s) && nfinite (fsqz s) && nfinite (fsql s) = true /\
             below (c_ftolv c) (fsqr s) (fsqz s) (fsql s) = false).

Definition ready (i : Z) (s p : st) : Prop := same s p /\ inv i s p.

(** Results of the inner loops. *)
Definition close (s p : st) : Prop :=
  exists extra, actions (trace s) = extra ++ actions (trace p) /\ Forall is_backup extra /\ (extra = [] -> x s = x p).

Definition rel (r : @loop_result K G V F) (q : @inner_result K G V F) : Prop :=
  match r, q with
  | LError _ s, IRaise p => interrupted s = false /\ actions (trace s) = actions (trace p) /\ x s = x p
  | LError _ s, IFailed p => interrupted s = false /\ actions (trace s) = actions (trace p) /\ x s = x p
  | LRetry s, IReguess p =>
      ready 1 s p /\ iter2 s = 1 /\ iter2 p = 1 /\ ijacob s = 1 /\ v s = m_vzero M /\ lreset s = true /\
      reason s = BAD_JACOBIAN /\ liter s = true /\ status s <> ST_SUCCESS /\ status s <> ST_JAC75
  | LRetry s, IEscalate p =>
      ready (iter2 s) s p /\ iter2 s = iter2 p /\ reason s = NO_RESTART /\ liter s = true /\ status s = ST_NORMAL
  | LRetry s, IConverged p => close s p /\ status s = ST_SUCCESS /\ liter s = false /\ interrupted s = false
  | LDone s, IConverged p => close s p /\ status s = ST_SUCCESS /\ interrupted s = false
  | LDone s, IFailed p => close s p /\ status s = ST_JAC75 /\ interrupted s = false
  | LDone s, IExhausted p => actions (trace s) = actions (trace p) /\ x s = x p /\ status s = ST_NORMAL /\ interrupted s = false
  | _, _ => False
  end.

(** The part of [evolve] after the forward model. *)
Definition evolve_tail (time_step : K) (s : st) : st :=
  let finite := nfinite (fsqr s) && nfinite (fsqz s) && nfinite (fsql s) in
  let s :=
    if ((iter2 s =? 1) && rr_eqb (reason s) BAD_JACOBIAN) || negb finite then
      set_status ST_BAD_JACOBIAN s
    else if nle (fsqr s) (c_ftolv c) && nle (fsqz s) (c_ftolv c)
            && nle (fsql s) (c_ftolv c) then
      set_status ST_SUCCESS (set_liter false s)
    else s in
  if negb (st_eqb (status s) ST_NORMAL) || negb (liter s) then s
  else
    let fsq1 := nadd (nadd (fsqr1 s) (fsqz1 s)) (fsql1 s) in
    let tau := if iter2 s =? iter1 s
               then repeat (ndiv (nfrac 15 100) time_step) kNDamp
               else invtau s in
    let tau := shift_left tau in
    let tau :=
      if iter1 s <? iter2 s then
        let numerator :=
          if negb (neq fsq1 (nZ 0))
          then nmin (nabs (nlog (ndiv fsq1 (fsq s)))) (nfrac 15 100)
          else nZ 0 in
        set_last tau (ndiv numerator time_step)
      else tau in
    let s := set_fsq fsq1 (set_invtau tau s) in
    let otav := ndiv (sum_left tau) (nZ (Z.of_nat kNDamp)) in
    let dtau := ndiv (nmul time_step otav) (nZ 2) in
    let b1 := nsub (nZ 1) dtau in
    let fac := ndiv (nZ 1) (nadd (nZ 1) dtau) in
    let '(gx, gv) := m_step M fac b1 time_step (f s) (v s) (x s) in
    log (EvStep time_step (v s) (x s)) (set_x gx (set_v gv s)).

Lemma evolve_split ts s :
  evolve c M ts s = match update c M (set_reason NO_RESTART s) with
                    | inl e => inl e
                    | inr (s, _) => inr (evolve_tail ts s)
                    end.
Proof.
  unfold evolve, update_forward_model. rewrite update_fixed. cbv zeta.
  set (s1 := set_x _ _). set (o := m_eval M s1).
  assert (A : forall s2 : st, match (if negb (st_eqb (status s2) ST_NORMAL) || negb (liter s2) then inr s2
     else let fsq1 := nadd (nadd (fsqr1 s2) (fsqz1 s2)) (fsql1 s2) in inr s2 : bool * st + st) with inl _ => True | inr _ => True end) by (intros; destruct (_ || _); exact I).
  clear A.
  destruct (o_jac_bad o).
  2: destruct ((Z.rem _ _ =? 0) && o_tcon_err o); [reflexivity|].
  2: destruct (o_pc_err o); [reflexivity|].
  all: cbv iota beta; unfold evolve_tail; cbv zeta;
    match goal with |- context [if negb (st_eqb (status ?e) _) || _ then _ else _] => destruct (negb (st_eqb (status e) ST_NORMAL) || negb (liter e)); [reflexivity|] end;
    match goal with |- context [m_step M ?a ?b ?d ?e ?g ?h] => destruct (m_step M a b d e g h); reflexivity end.
Qed.

Lemma actions_abort (s p : st) : actions (trace s) = actions (trace p) -> x s = x p -> fsqr s = fsqr p -> fsqz s = fsqz p -> fsql s = fsql p ->
  actions (trace (aborted s)) = actions (trace (aborted p)).
Proof. intros A B C D E. unfold aborted. pj. cbn [actions]. congruence. Qed.

(** After the forward model: both states still agree. *)
Definition evaluated (i : Z) (s p s1 p1 : st) : Prop :=
  same s1 p1 /\ iter2 s1 = i /\ iter2 p1 = i /\ iter1 s1 = iter1 s /\ ijacob s1 = ijacob s /\ v s1 = v s /\ reason s1 = reason p1 /\
  invtau s1 = invtau s /\ invtau p1 = invtau p /\ status s1 = status s /\ liter s1 = liter s /\ interrupted s1 = interrupted s /\
  fsq s1 = fsq s /\ res0 s1 = res0 s /\ res1 s1 = res1 s /\ delt0r s1 = delt0r s /\ vac s1 = vac s /\ lreset s1 = lreset s /\
  match reason s1 with
  | BAD_JACOBIAN =>
      (i = 1 \/ (c_parvmec c = false /\ i - iter1 s <= 10)) /\
      fsqr s1 = fsqr s /\ fsqz s1 = fsqz s /\ fsql s1 = fsql s /\ fsq_pre s1 = fsq_pre s
  | r =>
      (i <> 1 -> nfinite (fsqr s1) && nfinite (fsqz s1) && nfinite (fsql s1) = true /\ r = NO_RESTART) /\
      (ijacob s = 0 -> nfinite (fsqr s1) && nfinite (fsqz s1) && nfinite (fsql s1) = true -> r = NO_RESTART) /\
      (75 <= ijacob s -> below (c_ftolv c) (fsqr s1) (fsqz s1) (fsql s1) = false) /\
      good (fsq_pre s1) /\ neq (fsq_inv s1) (nZ (-1)) = false /\ (r = NO_RESTART \/ r = HUGE_INITIAL_FORCES)
  end.

Lemma eval_sim (i : Z) (s p : st) : same s p -> iter2 s = i -> iter2 p = i ->
  match update c M (set_reason NO_RESTART s), evaluate c M p with
  | inl (_, s1), inl p1 => interrupted s1 = interrupted s /\ actions (trace s1) = actions (trace p1) /\ x s1 = x p1
  | inr (s1, _), inr p1 => evaluated i s p s1 p1
  | _, _ => False
  end.
Proof.
  intros SM I2 J2. unfold evaluate. rewrite !update_fixed. cbv zeta.
  assert (EO : m_eval M (set_x (m_mask M (x (set_reason NO_RESTART p))) (set_reason NO_RESTART p)) =
               m_eval M (set_x (m_mask M (x (set_reason NO_RESTART s))) (set_reason NO_RESTART s))).
  { symmetry. apply FS. unfold same in SM. unfold looks_same. pj. destruct SM as (A1 & A2 & A3 & A4 & A5 & A6 & A7 & A8 & A9 & A10 & A11 & A12 & A13 & A14 & A15 & A16 & A17 & A18).
    repeat split; congruence. }
  rewrite EO. clear EO. pose proof (TM (set_x (m_mask M (x (set_reason NO_RESTART s))) (set_reason NO_RESTART s))) as T. cbv zeta in T.
  set (o := m_eval M _) in *.
  pj.
  destruct s as [x0 v0 b0 f0 i1 i2 ij rr r0 r1 dt fq fr fz fl fr1 fz1 fl1 tau vc nvs ivs stt li int lr nc tr].
  destruct p as [px pv pb pf pi1 pi2 pij prr pr0 pr1 pdt pfq pfr pfz pfl pfr1 pfz1 pfl1 ptau pvc pnvs pivs pstt pli pint plr pnc ptr].
  unfold same in SM. pj. destruct SM as (A1 & A2 & A3 & A4 & A5 & A6 & A7 & A8 & A9 & A10 & A11 & A12 & A13 & A14 & A15 & A16 & A17 & A18).
  subst px pv pb pf pi1 pij pr0 pdt pfq pfr pfz pfl pfr1 pfz1 pfl1 pvc. subst i2 pi2.
  destruct T as [T1 T2].
  destruct (o_jac_bad o) eqn:EJ.
  { unfold evaluated, same, aborted, fsq_pre. pj. repeat split; try reflexivity; try (cbn [actions]; congruence); auto. }
  specialize (T2 eq_refl). destruct T2 as (T3 & T4 & T5 & T6 & T7).
  destruct (_ && o_tcon_err o).
  { unfold aborted. pj. cbn [actions]. repeat split; congruence. }
  destruct (o_pc_err o).
  { unfold errored, aborted. pj. cbn [actions]. repeat split; congruence. }
  unfold complete. pj.
  unfold inv_sum, pre_sum, finite3 in *.
  destruct (i =? 1) eqn:EI; pj.
  - apply Z.eqb_eq in EI.
    destruct (nlt (nZ 100) (nadd (nadd (o_r o) (o_z o)) (o_l o))) eqn:EH; pj;
    unfold evaluated, same, fsq_pre, fsq_inv; pj; repeat split; try reflexivity; try (cbn [actions]; congruence); auto; try (intros; lia); try (intros Z0 FIN; exfalso; pose proof (T4 Z0 EI FIN); congruence).
  - apply Z.eqb_neq in EI.
    unfold evaluated, same, fsq_pre, fsq_inv; pj; repeat split; try reflexivity; try (cbn [actions]; congruence); auto; try (intros; lia).
Qed.

(** ** Backups only. *)
Definition bk (s s' : st) : Prop :=
  (exists extra, actions (trace s') = extra ++ actions (trace s) /\ Forall is_backup extra /\ (extra = [] -> x s' = x s)) /\
  status s' = status s /\ liter s' = liter s /\ interrupted s' = interrupted s /\ vac s' = vac s.

Lemma bk_triv s s' : actions (trace s') = actions (trace s) -> x s' = x s -> status s' = status s -> liter s' = liter s ->
  interrupted s' = interrupted s -> vac s' = vac s -> bk s s'.
Proof. intros A B C D E H. split; [exists []; rewrite A; repeat split; auto|]. repeat split; assumption. Qed.

Lemma bk_trans a b d : bk a b -> bk b d -> bk a d.
Proof.
  intros [(e1 & A1 & A2 & A3) (A4 & A5 & A6 & A7)] [(e2 & B1 & B2 & B3) (B4 & B5 & B6 & B7)].
  split; [|repeat split; congruence].
  exists (e2 ++ e1). split; [rewrite B1, A1, app_assoc; reflexivity|]. split; [apply Forall_app; split; assumption|].
  intros E. apply app_eq_nil in E. destruct E as [E2 E1]. rewrite (B3 E2), (A3 E1). reflexivity.
Qed.

Lemma bk_restart s : bk s (restart_delt0r M s).
Proof.
  destruct s as [x0 v0 b0 f0 i1 i2 ij rr r0 r1 dt fq fr fz fl fr1 fz1 fl1 tau vc nvs ivs stt li int lr nc tr].
  unfold restart_delt0r, restart_iteration. destruct rr; pj; unfold bk; pj; (split; [|repeat split; reflexivity]).
  1, 4: cbn [actions]; destruct (actions tr) as [|[]];
    first [ exists []; split; [reflexivity|split; [apply Forall_nil|intros; reflexivity]]
          | exists [EvSave x0]; split; [reflexivity|split; [apply Forall_cons; [exact I|apply Forall_nil]|discriminate]] ].
  all: exists [EvRollback b0]; split; [reflexivity|split; [apply Forall_cons; [exact I|apply Forall_nil]|discriminate]].
Qed.

Ltac bkt := first [apply bk_restart | apply bk_triv; reflexivity].

Lemma bk_control i s : bk s (time_step_control c M i s).
Proof.
  unfold time_step_control. cbv zeta.
  set (s1 := if _ || neq (res0 s) _ then _ else _).
  assert (B1 : bk s s1) by (unfold s1; destruct (_ || _); apply bk_triv; reflexivity).
  clearbody s1. set (s2 := set_res0 _ s1). assert (B2 : bk s1 s2) by (apply bk_triv; reflexivity). clearbody s2.
  set (s3 := if c_parvmec c then _ else s2).
  assert (B3 : bk s2 s3).
  { unfold s3. destruct (c_parvmec c); [destruct (_ || _)|]; apply bk_triv; reflexivity. }
  eapply bk_trans; [exact B1|]. eapply bk_trans; [exact B2|]. eapply bk_trans; [exact B3|].
  clearbody s3. clear.
  destruct (c_parvmec c).
  - destruct (_ && _); [bkt|]. destruct (_ && _); bkt.
  - destruct (_ && _); [bkt|]. destruct (_ && _); [bkt|]. destruct (_ && _); bkt.
Qed.

Lemma bk_report i s : bk s (report c M i s).
Proof. unfold report. rewrite Hcb. cbv zeta. destruct (_ || _); apply bk_triv; reflexivity. Qed.

Definition cpp_control (i : Z) (s : st) : Z * st :=
  let s := time_step_control c M i s in
  if negb (rr_eqb (reason s) NO_RESTART) then (1, set_iter1 i (restart_delt0r M s)) else (0, report c M i s).

Lemma bk_cpp i s : bk s (snd (cpp_control i s)).
Proof.
  unfold cpp_control. cbv zeta. eapply bk_trans; [apply (bk_control i)|].
  destruct (negb _); [|apply bk_report]. cbn [snd]. eapply bk_trans; [apply bk_restart|apply bk_triv; reflexivity].
Qed.

Lemma after_evolve_eq fi bad i s : vac_eqb (vac s) VInitialized = false -> (ijacob s =? 25) || (ijacob s =? 50) = false ->
  after_evolve c M fi bad i s =
    let s := if 75 <=? ijacob s then set_liter false (set_status ST_JAC75 s) else s in
    inr (bad + fst (cpp_control i s), set_iter2 (fi - (bad + fst (cpp_control i s)) + 1) (snd (cpp_control i s))).
Proof.
  intros HV HJ. unfold after_evolve. rewrite HJ. cbv zeta.
  set (s1 := if 75 <=? _ then _ else _).
  assert (V1 : vac s1 = vac s) by (unfold s1; destruct (_ <=? _); reflexivity).
  pose proof (bk_cpp i s1) as (_ & _ & _ & _ & V2).
  revert V2. unfold cpp_control. cbv zeta. set (s2 := time_step_control c M i s1).
  destruct (negb (rr_eqb (reason s2) NO_RESTART)); cbn [fst snd]; intros V2; rewrite V2, V1, HV; [reflexivity|].
  rewrite Z.add_0_r. reflexivity.
Qed.

End Sim.
