(** One iteration of both drivers, and the loops. *)
From Coq Require Import ZArith List Bool Lia.
From Verif Require Import Base Num LoopModel PyIterModel PyIterSpec PyIterProofs.
Import ListNotations.
Open Scope Z_scope.

Section Control.
Context {K : num} {G V F : Type}.
Context (c : @cfg K) (M : @ext K G V F) (good : K -> Prop).
Local Notation st := (@st K G V F).
Hypothesis Hcb : c_cb c = false.
Hypothesis SN : sane good.

Definition fits (i : Z) (s : st) : Prop :=
  match reason s with
  | BAD_JACOBIAN => c_parvmec c = false /\ i <> 1 /\ i - iter1 s <= 10
  | HUGE_INITIAL_FORCES => i = 1
  | NO_RESTART => True
  | BAD_PROGRESS => False
  end.

Definition controlled (i : Z) (s : st) (r q : Z * st) : Prop :=
  fst r = fst q /\ same c (snd r) (snd q) /\ invtau (snd r) = invtau s /\ invtau (snd q) = invtau s /\
  (fst r = 0 /\ iter1 (snd r) = iter1 s /\ ijacob (snd r) = ijacob s \/
   fst r = 1 /\ iter1 (snd r) = i /\ ijacob s <= ijacob (snd r) /\ (i = 1 -> reason s = HUGE_INITIAL_FORCES)) /\
  fsq (snd r) = fsq s /\ fsqr (snd r) = fsqr s /\ fsqz (snd r) = fsqz s /\ fsql (snd r) = fsql s /\
  fsqr1 (snd r) = fsqr1 s /\ fsqz1 (snd r) = fsqz1 s /\ fsql1 (snd r) = fsql1 s /\
  neq (res0 (snd r)) (nZ (-1)) = false /\ (c_parvmec c = true -> neq (res1 (snd r)) (nZ (-1)) = false).

Lemma seed_ok (b : bool) (r a : K) : neq a (nZ (-1)) = false ->
  neq (nmin (if b || neq r (nZ (-1)) then a else r) a) (nZ (-1)) = false.
Proof.
  intros A. unfold nmin. destruct (nlt _ _); [exact A|]. destruct b; [exact A|]. cbn [orb]. destruct (neq r (nZ (-1))) eqn:E; assumption.
Qed.

Ltac fin := unfold controlled, same; pj;
  repeat match goal with |- _ /\ _ => split end; try reflexivity; try (intros; congruence); try assumption; auto; try (cbn [actions]; match goal with H : actions _ = actions _ |- _ => rewrite H end; reflexivity); try (left; repeat split; reflexivity);
  try (right; repeat split; try reflexivity; try lia; intros; congruence).


Definition seeded (b : bool) (r a : K) : K := nmin (if b || neq r (nZ (-1)) then a else r) a.

Lemma tsc_norm i (s : st) : time_step_control c M i s =
  let s' := set_res0 (seeded (i =? iter1 s) (res0 s) (fsq s)) s in
  if c_parvmec c then
    let s' := set_res1 (seeded (i =? iter1 s) (res1 s) (fsq_inv s)) s' in
    if nle (fsq s') (res0 s') && nle (fsq_inv s') (res1 s') then restart_delt0r M s'
    else if (10 <? i - iter1 s') && (nlt (nmul (nZ 10000) (res0 s')) (fsq s') || nlt (nmul (nZ 10000) (res1 s')) (fsq_inv s'))
    then set_reason BAD_PROGRESS s' else s'
  else if nle (fsq s') (res0 s') && (10 <? i - iter1 s') then restart_delt0r M s'
  else if nlt (nmul (nZ 100) (res0 s')) (fsq s') && (iter1 s' <? i) then set_reason BAD_JACOBIAN s'
  else if (12 <? i - iter1 s') && (50 <? i) && nlt (nfrac 1 100) (nadd (fsqr s') (fsqz s')) then set_reason BAD_PROGRESS s'
  else s'.
Proof.
  destruct s as [x0 v0 b0 f0 i1 i2 ij rr r0 r1 dt fq fr fz fl fr1 fz1 fl1 tau vc nvs ivs stt li int lr nc tr].
  unfold time_step_control, fsq_inv, seeded. pj. cbv zeta.
  change (Z.quot kPreconditionerUpdateInterval 2) with 12. change (2 * kPreconditionerUpdateInterval) with 50.
  destruct ((i =? i1) || neq r0 (nZ (-1))); pj; destruct (c_parvmec c); pj; try reflexivity;
  destruct ((i =? i1) || neq r1 (nZ (-1))); pj; reflexivity.
Qed.

Lemma seed_norm (s : st) :
  seed_both s = let b := iter2 s =? iter1 s in
    set_res0 (seeded b (res0 s) (fsq s)) (set_res1 (nmin (if b || neq (res0 s) (nZ (-1)) then fsq_inv s else res1 s) (fsq_inv s)) s).
Proof.
  destruct s as [x0 v0 b0 f0 i1 i2 ij rr r0 r1 dt fq fr fz fl fr1 fz1 fl1 tau vc nvs ivs stt li int lr nc tr].
  unfold seed_both, fsq_inv, seeded. pj. cbv zeta. destruct ((i2 =? i1) || neq r0 (nZ (-1))); pj; reflexivity.
Qed.

Lemma report_id i (s : st) : report c M i s = log (EvCount i) s.
Proof. unfold report. rewrite Hcb. cbv zeta. destruct (_ || negb _); reflexivity. Qed.

Lemma seed0_norm (s : st) :
  (let s := if (iter2 s =? iter1 s) || neq (res0 s) (nZ (-1)) then set_res0 (fsq s) s else s in set_res0 (nmin (res0 s) (fsq s)) s) =
  set_res0 (seeded (iter2 s =? iter1 s) (res0 s) (fsq s)) s.
Proof.
  destruct s as [x0 v0 b0 f0 i1 i2 ij rr r0 r1 dt fq fr fz fl fr1 fz1 fl1 tau vc nvs ivs stt li int lr nc tr].
  unfold seeded. pj. cbv zeta. destruct (_ || _); pj; reflexivity.
Qed.

Lemma control_852 (s : st) : control M Vmec852 s =
  if rr_eqb (reason s) HUGE_INITIAL_FORCES then
    let s := save_backup (seed_both s) in (1, set_iter1 (iter2 s) s)
  else
    let s := set_res0 (seeded (iter2 s =? iter1 s) (res0 s) (fsq s)) s in
    let blew_up := nlt (nmul (nZ 100) (res0 s)) (fsq s) && (iter1 s <? iter2 s) in
    if rr_eqb (reason s) BAD_JACOBIAN || blew_up then
      let s := restore_backup M s in
      (1, set_iter1 (iter2 s) (set_ijacob (ijacob s + 1) (set_delt0r (nmul (delt0r s) (nfrac 9 10)) s)))
    else if nle (fsq s) (res0 s) && (10 <? iter2 s - iter1 s) then (0, save_backup s)
    else if slow_progress s then (1, gentle M s)
    else (0, s).
Proof. unfold control. rewrite <- seed0_norm. reflexivity. Qed.

Lemma control_sim i (s p : st) :
  same c s p -> iter2 s = i -> iter2 p = i -> reason s = reason p -> invtau s = invtau p -> good (fsq s) -> 1 <= iter1 s <= i ->
  (c_parvmec c = true -> neq (fsq_inv s) (nZ (-1)) = false) ->
  (i <> 1 -> neq (res0 s) (nZ (-1)) = false /\ (c_parvmec c = true -> neq (res1 s) (nZ (-1)) = false)) ->
  fits i s ->
  controlled i s (cpp_control c M i s) (control M (style_of c) p).
Proof.
  intros SM I2 J2 RR TT GF I1 NI NR FT.
  destruct s as [x0 v0 b0 f0 i1 i2 ij rr r0 r1 dt fq fr fz fl fr1 fz1 fl1 tau vc nvs ivs stt li int lr nc tr].
  destruct p as [px pv pb pf pi1 pi2 pij prr pr0 pr1 pdt pfq pfr pfz pfl pfr1 pfz1 pfl1 ptau pvc pnvs pivs pstt pli pint plr pnc ptr].
  unfold same, fits, fsq_inv in *. pj. destruct SM as (A1 & A2 & A3 & A4 & A5 & A6 & A7 & A8 & A9 & A10 & A11 & A12 & A13 & A14 & A15 & A16 & A17 & A18).
  subst px pv pb pf pi1 pij pr0 pdt pfq pfr pfz pfl pfr1 pfz1 pfl1 pvc i2 pi2 prr ptau.
  pose proof (seed_ok (i =? i1) r0 fq (sane_minus _ SN _ GF)) as R0. fold (seeded (i =? i1) r0 fq) in R0.
  unfold cpp_control, style_of. rewrite tsc_norm. pj. unfold fsq_inv. pj. cbv zeta.
  destruct (c_parvmec c) eqn:PV; [unfold control|rewrite control_852]; rewrite seed_norm; unfold fsq_inv; pj; cbv zeta.
  - specialize (NI eq_refl). specialize (A18 eq_refl). subst pr1.
    pose proof (seed_ok (i =? i1) r1 _ NI) as R1. fold (seeded (i =? i1) r1 (nadd (nadd fr fz) fl)) in R1.
    assert (SB : (i =? i1) || neq r0 (nZ (-1)) = (i =? i1) || neq r1 (nZ (-1))).
    { destruct (Z.eqb_spec i i1); [reflexivity|]. destruct (NR ltac:(lia)) as [E1 E2]. rewrite E1, (E2 eq_refl). reflexivity. }
    rewrite SB. fold (seeded (i =? i1) r1 (nadd (nadd fr fz) fl)).
    set (Q0 := seeded (i =? i1) r0 fq) in *. set (Q1 := seeded (i =? i1) r1 (nadd (nadd fr fz) fl)) in *. clearbody Q0 Q1.
    destruct rr; [|destruct FT; discriminate|destruct FT|].
    + pj. destruct (nle fq Q0 && nle (nadd (nadd fr fz) fl) Q1) eqn:E1.
      * unfold restart_delt0r, restart_iteration, save_backup. rewrite report_id. pj. fin.
      * destruct ((10 <? i - i1) && _) eqn:E2.
        -- apply andb_prop in E2. destruct E2 as [E2 _]. apply Z.ltb_lt in E2.
           unfold restart_delt0r, restart_iteration, gentle, restore_backup. pj. fin.
        -- pj. rewrite report_id. pj. fin.
    + subst i. assert (i1 = 1) by lia. subst i1. change (10 <? 1 - 1) with false. pj.
      destruct (nle fq Q0 && nle (nadd (nadd fr fz) fl) Q1) eqn:E1; unfold restart_delt0r, restart_iteration, save_backup; pj; fin.
      all: cbn [actions]; rewrite A17; destruct (actions ptr) as [|[]]; reflexivity.
  - set (Q0 := seeded (i =? i1) r0 fq) in *. clearbody Q0.
    destruct rr; [| |destruct FT|]; pj.
    + destruct (nle fq Q0 && (10 <? i - i1)) eqn:E1.
      * apply andb_prop in E1. destruct E1 as [E1 E1']. rewrite (sane_hundred _ SN _ _ GF E1). pj.
        unfold restart_delt0r, restart_iteration, save_backup. rewrite report_id. pj. fin.
      * destruct (nlt (nmul (nZ 100) Q0) fq && (i1 <? i)) eqn:E2.
        -- apply andb_prop in E2. destruct E2 as [_ E2]. apply Z.ltb_lt in E2.
           unfold restart_delt0r, restart_iteration, restore_backup. pj. fin.
        -- unfold slow_progress. pj. change (Z.div kPreconditionerUpdateInterval 2) with 12. change (2 * kPreconditionerUpdateInterval) with 50.
           destruct ((12 <? i - i1) && (50 <? i) && nlt (nfrac 1 100) (nadd fr fz)) eqn:E3.
           ++ apply andb_prop in E3. destruct E3 as [E3 _]. apply andb_prop in E3. destruct E3 as [E3 _]. apply Z.ltb_lt in E3.
              unfold restart_delt0r, restart_iteration, gentle, restore_backup. pj. fin.
           ++ pj. rewrite report_id. pj. fin.
    + destruct FT as (_ & F1 & F2). destruct (Z.ltb_spec 10 (i - i1)); [lia|]. destruct (Z.ltb_spec 12 (i - i1)); [lia|]. rewrite andb_false_r. pj.
      destruct (nlt (nmul (nZ 100) Q0) fq && (i1 <? i)); pj; unfold restart_delt0r, restart_iteration, restore_backup; pj; fin.
    + subst i. assert (i1 = 1) by lia. subst i1. change (10 <? 1 - 1) with false. change (12 <? 1 - 1) with false. change (1 <? 1) with false. rewrite !andb_false_r. pj.
      unfold restart_delt0r, restart_iteration, save_backup. pj. fin.
Qed.
End Control.

Section Loops.
Context {K : num} {G V F : Type}.
Context (c : @cfg K) (M : @ext K G V F) (good : K -> Prop).
Local Notation st := (@st K G V F).
Hypothesis Hfb : c_lfreeb c = false.
Hypothesis Hcb : c_cb c = false.
Hypothesis Hret : c_retout c = false.
Hypothesis FS : function_of_state M.
Hypothesis SN : sane good.
Hypothesis TM : tame c good M.

Definition bad3 (s : st) : bool := bad_status s.

Lemma tail_bad ts (s : st) : bad_status s = true -> evolve_tail c M ts s = set_status ST_BAD_JACOBIAN s.
Proof. intros B. unfold evolve_tail, bad_status in *. rewrite B. reflexivity. Qed.

Lemma tail_conv ts (s : st) : bad_status s = false -> below (c_ftolv c) (fsqr s) (fsqz s) (fsql s) = true ->
  evolve_tail c M ts s = set_status ST_SUCCESS (set_liter false s).
Proof. intros B L. unfold evolve_tail, bad_status, below in *. rewrite B, L. reflexivity. Qed.

Definition stepped (i : Z) (s1 p1 s2 p2 : st) : Prop :=
  same c s2 p2 /\ iter2 s2 = i /\ iter2 p2 = i /\ reason s2 = reason s1 /\ reason p2 = reason s1 /\ invtau s2 = invtau p2 /\
  fsq s2 = fsq_pre s1 /\ iter1 s2 = iter1 s1 /\ ijacob s2 = ijacob s1 /\ status s2 = status s1 /\ liter s2 = liter s1 /\
  interrupted s2 = interrupted s1 /\ fsqr s2 = fsqr s1 /\ fsqz s2 = fsqz s1 /\ fsql s2 = fsql s1 /\ fsq_pre s2 = fsq_pre s1 /\
  res0 s2 = res0 s1 /\ res1 s2 = res1 s1 /\ vac s2 = vac s1.

Lemma step_sim i (s1 p1 : st) :
  same c s1 p1 -> iter2 s1 = i -> iter2 p1 = i -> reason s1 = reason p1 -> status s1 = ST_NORMAL -> liter s1 = true ->
  bad_status s1 = false -> below (c_ftolv c) (fsqr s1) (fsqz s1) (fsql s1) = false ->
  good (fsq_pre s1) -> iter1 s1 <= i -> (iter1 s1 < i -> invtau s1 = invtau p1 /\ good (fsq s1)) ->
  exists p2, damped_step M p1 = inr p2 /\ stepped i s1 p1 (evolve_tail c M (delt0r s1) s1) p2.
Proof.
  intros SM I2 J2 RR ST LI BS NB GP I1 IT.
  unfold evolve_tail, damped_step, bad_status, below, stepped, fsq_pre in *. rewrite BS, NB.
  destruct s1 as [x0 v0 b0 f0 i1 i2 ij rr r0 r1 dt fq fr fz fl fr1 fz1 fl1 tau vc nvs ivs stt li int lr nc tr].
  destruct p1 as [px pv pb pf pi1 pi2 pij prr pr0 pr1 pdt pfq pfr pfz pfl pfr1 pfz1 pfl1 ptau pvc pnvs pivs pstt pli pint plr pnc ptr].
  unfold same in *. pj. destruct SM as (A1 & A2 & A3 & A4 & A5 & A6 & A7 & A8 & A9 & A10 & A11 & A12 & A13 & A14 & A15 & A16 & A17 & A18).
  subst px pv pb pf pi1 pij pr0 pdt pfq pfr pfz pfl pfr1 pfz1 pfl1 pvc i2 pi2 prr stt li. pj. clear BS NB.
  rewrite (sane_zero _ SN _ GP). pj. rewrite andb_true_r.
  destruct (Z.ltb_spec i1 i) as [L|L].
  - destruct (IT L) as [ET GF]. subst ptau. pj. rewrite (sane_zero _ SN _ GF), (sane_log _ SN _ _ GP GF). pj.
    match goal with |- context [m_step M ?a ?b ?d ?e ?g ?h] => destruct (m_step M a b d e g h) as [gx gv] end.
    eexists. split; [reflexivity|]. pj. cbn [actions]. rewrite A17. repeat split; auto.
  - assert (i1 = i) by lia. subst i1. rewrite Z.eqb_refl. pj.
    match goal with |- context [m_step M ?a ?b ?d ?e ?g ?h] => destruct (m_step M a b d e g h) as [gx gv] end.
    eexists. split; [reflexivity|]. pj. cbn [actions]. rewrite A17. repeat split; auto.
Qed.

Lemma bk_close (s s' p : st) : bk s s' -> actions (trace s) = actions (trace p) -> x s = x p -> close s' p.
Proof.
  intros [(e & A & B & C) _] T X. exists e. rewrite A, T. repeat split; [exact B|]. intros E. rewrite (C E). exact X.
Qed.

(** A loop that has been told to stop stops. *)
Lemma stopped k fi bad (s : st) : liter s = false -> force_loop c M k fi bad s = LDone s.
Proof. intros L. destruct k; cbn [force_loop]; [reflexivity|]. rewrite L, andb_false_r. reflexivity. Qed.

(** The C++ loop body after a convergence or after 75 bad Jacobians. *)
Lemma wind_up k fi bad i (s p : st) : vac_eqb (vac s) VInitialized = false -> interrupted s = false ->
  actions (trace s) = actions (trace p) -> x s = x p ->
  (status s = ST_SUCCESS /\ liter s = false /\ ijacob s < 75 \/ 75 <= ijacob s /\ status s = ST_NORMAL) ->
  exists s', (match after_evolve c M fi bad i s with inl s => LRetry s | inr (b, s) => force_loop c M k (fi + 1) b s end =
              (if (ijacob s =? 25) || (ijacob s =? 50) then LRetry s' else LDone s')) /\
    close s' p /\ interrupted s' = false /\ liter s' = false /\
    status s' = (if 75 <=? ijacob s then ST_JAC75 else ST_SUCCESS).
Proof.
  intros HV HI HT HX HS.
  destruct ((ijacob s =? 25) || (ijacob s =? 50)) eqn:E.
  - assert (J : ijacob s < 75) by (apply orb_prop in E; destruct E as [E|E]; apply Z.eqb_eq in E; lia).
    destruct HS as [(S1 & S2 & _)|[S1 _]]; [|lia].
    unfold after_evolve. rewrite E. cbv zeta.
    assert (B0 : bk s (restart_delt0r M (set_reason BAD_JACOBIAN s))).
    { eapply bk_trans; [apply (bk_triv s (set_reason BAD_JACOBIAN s)); reflexivity|apply bk_restart]. }
    set (r := restart_delt0r M _) in *. clearbody r. eexists. split; [reflexivity|].
    match goal with |- close ?s' p /\ _ => assert (B : bk s s') by (eapply bk_trans; [exact B0|apply bk_triv; reflexivity]) end.
    pose proof B as (_ & B1 & B2 & B3 & _).
    split; [eapply bk_close; eassumption|]. split; [congruence|]. split; [congruence|].
    destruct (Z.leb_spec 75 (ijacob s)); [lia|]. congruence.
  - rewrite after_evolve_eq by assumption. cbv zeta.
    set (s1 := if 75 <=? ijacob s then set_liter false (set_status ST_JAC75 s) else s).
    assert (A1 : actions (trace s1) = actions (trace s) /\ x s1 = x s /\ interrupted s1 = false /\ liter s1 = false /\ status s1 = if 75 <=? ijacob s then ST_JAC75 else ST_SUCCESS).
    { unfold s1. destruct (Z.leb_spec 75 (ijacob s)); pj; repeat split; auto; destruct HS as [(S1 & S2 & S3)|[S1 S2]]; try lia; assumption. }
    clearbody s1. destruct A1 as (A1 & A2 & A3 & A4 & A5).
    pose proof (bk_cpp c M Hcb i s1) as B. pose proof B as (_ & B1 & B2 & B3 & _).
    set (s2 := snd (cpp_control c M i s1)) in *. eexists. split; [apply stopped; pj; congruence|].
    split; [eapply bk_close with (s := s1); [eapply bk_trans; [exact B|apply bk_triv; reflexivity]|congruence|congruence]|].
    pj. repeat split; congruence.
Qed.

Lemma escalate_sim fi bad i (s p : st) : same c s p -> iter2 s = i -> iter2 p = i -> (ijacob s =? 25) || (ijacob s =? 50) = true ->
  exists s', after_evolve c M fi bad i s = inl s' /\
    (let p := restore_backup M p in
     let p := set_iter1 (iter2 p) (set_ijacob (ijacob p + 1) p) in
     same c s' (set_delt0r (nmul (if ijacob p <? 50 then nfrac 98 100 else nfrac 96 100) (c_delt c)) p) /\ iter2 p = i) /\
    iter1 s' = i /\ iter2 s' = i /\ ijacob s' = ijacob s + 1 /\ reason s' = NO_RESTART /\ liter s' = liter s /\ status s' = status s /\
    interrupted s' = interrupted s /\ vac s' = vac s /\ fsq s' = fsq s /\ fsq_pre s' = fsq_pre s /\ fsqr s' = fsqr s /\ fsqz s' = fsqz s /\
    fsql s' = fsql s /\ res0 s' = res0 s /\ res1 s' = res1 s.
Proof.
  intros SM I2 J2 J.
  destruct s as [x0 v0 b0 f0 i1 i2 ij rr r0 r1 dt fq fr fz fl fr1 fz1 fl1 tau vc nvs ivs stt li int lr nc tr].
  destruct p as [px pv pb pf pi1 pi2 pij prr pr0 pr1 pdt pfq pfr pfz pfl pfr1 pfz1 pfl1 ptau pvc pnvs pivs pstt pli pint plr pnc ptr].
  unfold same in *. pj. destruct SM as (A1 & A2 & A3 & A4 & A5 & A6 & A7 & A8 & A9 & A10 & A11 & A12 & A13 & A14 & A15 & A16 & A17 & A18).
  subst px pv pb pf pi1 pij pr0 pdt pfq pfr pfz pfl pfr1 pfz1 pfl1 pvc i2 pi2.
  unfold after_evolve. pj. rewrite J. unfold restart_delt0r, restart_iteration, restore_backup, fsq_pre. pj. cbv zeta. pj.
  eexists. split; [reflexivity|]. pj. cbn [actions]. rewrite A17. repeat split; auto.
Qed.

(** The part of the loop body behind the time step. *)
Lemma body_sim k fi bad (s2 p2 : st) :
  (forall fi bad s p,
     ready c M good (fi - bad) s p -> iter2 s = fi - bad -> status s = ST_NORMAL -> liter s = true ->
     rel c M good (force_loop c M k fi bad s) (inner c M (style_of c) k fi bad p)) ->
  let i := fi - bad in
  same c s2 p2 -> iter2 s2 = i -> iter2 p2 = i -> invtau s2 = invtau p2 -> reason s2 = reason p2 -> good (fsq s2) -> good (fsq_pre s2) ->
  1 <= iter1 s2 <= i -> 0 <= ijacob s2 -> vac_eqb (vac s2) VInitialized = false -> interrupted s2 = false -> status s2 = ST_NORMAL -> liter s2 = true ->
  nfinite (fsqr s2) && nfinite (fsqz s2) && nfinite (fsql s2) = true -> below (c_ftolv c) (fsqr s2) (fsqz s2) (fsql s2) = false ->
  (c_parvmec c = true -> neq (fsq_inv s2) (nZ (-1)) = false) ->
  (i <> 1 -> neq (res0 s2) (nZ (-1)) = false /\ (c_parvmec c = true -> neq (res1 s2) (nZ (-1)) = false)) ->
  fits c i s2 -> (ijacob s2 =? 0) && rr_eqb (reason s2) HUGE_INITIAL_FORCES = false ->
  rel c M good
    match after_evolve c M fi bad i s2 with inl s => LRetry s | inr (b, s) => force_loop c M k (fi + 1) b s end
    (if (ijacob p2 =? 25) || (ijacob p2 =? 50) then
       let s' := restore_backup M p2 in
       let s' := set_iter1 (iter2 s') (set_ijacob (ijacob s' + 1) s') in
       IEscalate (set_delt0r (nmul (if ijacob s' <? 50 then nfrac 98 100 else nfrac 96 100) (c_delt c)) s')
     else if 75 <=? ijacob p2 then IFailed p2
     else let '(b, s') := control M (style_of c) p2 in inner c M (style_of c) k (fi + 1) (bad + b) s').
Proof.
  intros IH i SM2 F1 F2 F5 X1 X2 X3 X4 X5 X6 X7 X8 X9 X10 X11 X12 X13 X14 HU.
  assert (JP : ijacob p2 = ijacob s2) by (unfold same in SM2; symmetry; tauto).
  assert (TR2 : actions (trace s2) = actions (trace p2) /\ x s2 = x p2) by (unfold same in SM2; tauto). destruct TR2 as [TR2 XR2].
  rewrite JP.
  destruct ((ijacob s2 =? 25) || (ijacob s2 =? 50)) eqn:J25.
  - destruct (escalate_sim fi bad i s2 p2 SM2 F1 F2 J25) as (s' & W1 & (W2 & W3) & W4 & W5 & W6 & W7 & W8 & W9 & W10 & W11 & W12 & W13 & W14 & W15 & W16 & W17 & W18).
    rewrite W1. cbv zeta.
    assert (JG : 25 <= ijacob s2) by (apply orb_prop in J25; destruct J25 as [Q|Q]; apply Z.eqb_eq in Q; lia).
    unfold rel. split; [split|].
    + pj. exact W2.
    + rewrite W5. unfold inv. rewrite W4, W6, W10, W11, W12, W13, W14, W15, W16, W17, W18.
      split; [lia|]. split; [lia|]. split; [exact X6|]. split; [exact X7|]. split; [intros; lia|]. split; [intros; lia|].
      intros N1. destruct (X13 N1) as (Q1 & Q2). repeat split; assumption.
    + pj. rewrite W5, W7, W8, W9. repeat split; try assumption; try reflexivity; rewrite ?W6; try lia; symmetry; exact F2.
  - destruct (Z.leb_spec 75 (ijacob s2)) as [J75|J75].
    + destruct (wind_up k fi bad i s2 p2 X6 X7 TR2 XR2 (or_intror (conj J75 X8))) as (s' & W1 & W2 & W3 & W4 & W5).
      rewrite W1, J25. unfold rel. destruct (Z.leb_spec 75 (ijacob s2)); [|lia]. repeat split; assumption.
    + rewrite (after_evolve_eq c M Hcb fi bad i s2 X6 J25). cbv zeta. destruct (Z.leb_spec 75 (ijacob s2)); [lia|].
      pose proof (control_sim c M good Hcb SN i s2 p2 SM2 F1 F2 X1 F5 X2 X4 X12 X13 X14) as CS.
      pose proof (bk_cpp c M Hcb i s2) as (_ & B1 & B2 & B3 & B4).
      destruct (control M (style_of c) p2) as [b p3]. destruct (cpp_control c M i s2) as [b' s3]. cbn [fst snd] in *.
      unfold controlled in CS. cbn [fst snd] in CS.
      destruct CS as (C1 & C2 & C3 & C4 & C5 & C6 & C7 & C8 & C9 & C10 & C11 & C12 & C13 & C14). subst b'.
      apply IH.
      * split.
        -- unfold same in *. pj. exact C2.
        -- unfold inv. pj.
           assert (IX : fi + 1 - (bad + b) = i + 1 - b) by (unfold i; lia). rewrite IX.
           split; [destruct C5 as [(Q1 & Q2 & Q3)|(Q1 & Q2 & Q3 & Q4)]; rewrite Q2; lia|].
           split; [destruct C5 as [(Q1 & Q2 & Q3)|(Q1 & Q2 & Q3 & Q4)]; lia|].
           split; [rewrite B4; exact X6|]. split; [rewrite B3; exact X7|].
           split.
           { intros I0 J0. exfalso. destruct C5 as [(Q1 & Q2 & Q3)|(Q1 & Q2 & Q3 & Q4)]; [lia|].
             assert (JZ : ijacob s2 = 0) by lia. rewrite JZ in HU. rewrite (Q4 ltac:(lia)) in HU. discriminate HU. }
           split; [intros _; rewrite C3, C4; reflexivity|].
           intros _. unfold fsq_pre. pj. rewrite C6, C7, C8, C9, C10, C11, C12. fold (fsq_pre s2).
           repeat split; assumption.
      * pj. lia.
      * pj. rewrite B1. exact X8.
      * pj. rewrite B2. exact X9.
Qed.

Lemma inner_sim : forall k fi bad s p,
  ready c M good (fi - bad) s p -> iter2 s = fi - bad -> status s = ST_NORMAL -> liter s = true ->
  rel c M good (force_loop c M k fi bad s) (inner c M (style_of c) k fi bad p).
Proof.
  induction k as [|k IH]; intros fi bad s p [SM IV] I2 ST LI.
  { cbn [force_loop inner]. unfold rel. destruct SM as (A1 & _ & _ & _ & _ & _ & _ & _ & _ & _ & _ & _ & _ & _ & _ & _ & A17 & _). destruct IV as (_ & _ & _ & HI & _). repeat split; assumption. }
  cbn [force_loop inner]. rewrite LI, andb_true_r.
  destruct (fi <=? c_niterv c); cbn [negb].
  2: { unfold rel. destruct SM as (A1 & _ & _ & _ & _ & _ & _ & _ & _ & _ & _ & _ & _ & _ & _ & _ & A17 & _). destruct IV as (_ & _ & _ & HI & _). repeat split; assumption. }
  set (i := fi - bad) in *.
  destruct IV as (V1 & V2 & V3 & V4 & V5 & V6 & V7).
  assert (SM' : same c s (set_iter2 i p)) by (unfold same in *; pj; exact SM).
  pose proof (eval_sim c M good Hfb FS TM i s (set_iter2 i p) SM' I2 eq_refl) as EV.
  rewrite evolve_split by exact Hfb.
  destruct (update c M (set_reason NO_RESTART s)) as [[e s1]|[s1 nr]]; destruct (evaluate c M (set_iter2 i p)) as [p1|p1]; try (exfalso; exact EV).
  { unfold rel. destruct EV as (E1 & E2 & E3). repeat split; congruence. }
  destruct EV as (SM1 & E1 & E2 & E3 & E4 & E5 & E6 & E7 & E8 & E9 & E10 & E11 & E12 & E13 & E14 & E15 & E16 & E17 & E18).
  assert (BS : bad_status p1 = bad_status s1).
  { unfold bad_status. destruct SM1 as (_ & _ & _ & _ & _ & _ & _ & _ & _ & A10 & A11 & A12 & _). rewrite E1, E2, E6, A10, A11, A12. reflexivity. }
  assert (BL : nle (fsqr p1) (c_ftolv c) && nle (fsqz p1) (c_ftolv c) && nle (fsql p1) (c_ftolv c) = below (c_ftolv c) (fsqr s1) (fsqz s1) (fsql s1)).
  { unfold below. destruct SM1 as (_ & _ & _ & _ & _ & _ & _ & _ & _ & A10 & A11 & A12 & _). rewrite A10, A11, A12. reflexivity. }
  rewrite BS.
  assert (TR : actions (trace s1) = actions (trace p1) /\ x s1 = x p1 /\ ijacob s1 = ijacob p1) by (unfold same in SM1; tauto).
  destruct TR as (TR & XR & JR).
  assert (FIN : i <> 1 -> nfinite (fsqr s1) && nfinite (fsqz s1) && nfinite (fsql s1) = true).
  { intros N1. destruct (reason s1); try (apply E18; exact N1). destruct E18 as (_ & Q1 & Q2 & Q3 & _). rewrite Q1, Q2, Q3. apply V7, N1. }
  destruct (bad_status s1) eqn:BB; cbn [negb andb orb].
  - (* bad Jacobian or non-finite *)
    assert (I1 : i = 1).
    { destruct (Z.eq_dec i 1) as [|N1]; [assumption|exfalso]. unfold bad_status in BB. rewrite (FIN N1), E1 in BB. destruct (Z.eqb_spec i 1); [lia|]. discriminate BB. }
    rewrite tail_bad by exact BB. pj. rewrite <- JR.
    destruct (ijacob s1 =? 0) eqn:J0; cbn [andb].
    + destruct (3 <=? c_ns c).
      * apply Z.eqb_eq in J0. unfold rel, ready. pj. unfold inv. pj.
        assert (HV0 : v s1 = m_vzero M) by (rewrite E5; apply V5; congruence).
        split; [split|].
        -- unfold same in *. pj. tauto.
        -- split; [lia|]. split; [lia|]. split; [congruence|]. split; [congruence|]. split; [intros; exact HV0|]. split; [lia|]. intros; lia.
        -- repeat split; try congruence; try discriminate; try exact HV0.
      * rewrite Hret. unfold rel. pj. repeat split; congruence.
    + rewrite Hret. unfold rel. pj. repeat split; congruence.
  - rewrite BL. destruct (below (c_ftolv c) (fsqr s1) (fsqz s1) (fsql s1)) eqn:BE.
    + (* converged *)
      rewrite tail_conv by assumption.
      assert (HU : (ijacob s1 =? 0) && rr_eqb (reason s1) HUGE_INITIAL_FORCES = false).
      { destruct (Z.eqb_spec (ijacob s1) 0) as [J0|]; [|reflexivity]. cbn [andb].
        assert (FN : nfinite (fsqr s1) && nfinite (fsqz s1) && nfinite (fsql s1) = true).
        { unfold bad_status in BB. apply orb_false_elim in BB. destruct BB as [_ BB]. apply negb_false_iff in BB. exact BB. }
        destruct (reason s1); try reflexivity. destruct E18 as (_ & Q & _). specialize (Q ltac:(congruence) FN). discriminate Q. }
      assert (J75 : ijacob s1 < 75).
      { destruct (Z.ltb_spec (ijacob s1) 75) as [|J]; [assumption|exfalso]. rewrite E4 in J.
        destruct (reason s1) eqn:RS.
        - destruct E18 as (_ & _ & Q & _). specialize (Q J). congruence.
        - destruct E18 as (QQ & Q1 & Q2 & Q3 & _). rewrite Q1, Q2, Q3 in BE.
          assert (N1 : i <> 1).
          { intros N1. unfold bad_status in BB. rewrite E1, N1, RS in BB. cbn in BB. discriminate BB. }
          destruct (V7 N1) as (_ & _ & _ & _ & _ & NB). congruence.
        - destruct E18 as (_ & _ & Q & _). specialize (Q J). congruence.
        - destruct E18 as (_ & _ & Q & _). specialize (Q J). congruence. }
      pj. cbn [st_eqb]. rewrite HU. cbn [andb].
      destruct (wind_up k fi bad i (set_status ST_SUCCESS (set_liter false s1)) p1) as (s' & W1 & W2 & W3 & W4 & W5); pj; try congruence.
      { left. repeat split; assumption. }
      rewrite W1. destruct (Z.leb_spec 75 (ijacob s1)); [lia|]. destruct (_ || _); unfold rel; repeat split; assumption.
    + (* a time step *)
      cbn [andb].
      assert (NJ : reason s1 = BAD_JACOBIAN -> i <> 1).
      { intros RS N1. unfold bad_status in BB. rewrite E1, N1, RS in BB. cbn in BB. discriminate BB. }
      assert (GP : good (fsq_pre s1)).
      { destruct (reason s1) eqn:RS; try (apply E18). destruct E18 as (_ & _ & _ & _ & Q). rewrite Q. apply V7. apply NJ. reflexivity. }
      destruct (step_sim i s1 p1) as (p2 & D1 & D2); try assumption; try congruence; try lia.
      { intros L. rewrite E3 in L. split; [rewrite E7, E8; apply V6; exact L|]. rewrite E12. apply V7. lia. }
      rewrite D1. rewrite <- E15 in *.
      set (s2 := evolve_tail c M (delt0r s1) s1) in *. clearbody s2.
      destruct D2 as (SM2 & F1 & F2 & F3 & F4 & F5 & F6 & F7 & F8 & F9 & F10 & F11 & F12 & F13 & F14 & F15 & F16 & F17 & F18).
      assert (FN : nfinite (fsqr s1) && nfinite (fsqz s1) && nfinite (fsql s1) = true).
      { unfold bad_status in BB. apply orb_false_elim in BB. destruct BB as [_ B2]. apply negb_false_iff in B2. exact B2. }
      assert (HU : (ijacob s2 =? 0) && rr_eqb (reason s2) HUGE_INITIAL_FORCES = false).
      { destruct (Z.eqb_spec (ijacob s2) 0) as [J0|]; [|reflexivity]. cbn [andb]. rewrite F3.
        destruct (reason s1); try reflexivity. destruct E18 as (_ & Q & _). specialize (Q ltac:(congruence) FN). discriminate Q. }
      assert (JP : ijacob p2 = ijacob s2) by (unfold same in SM2; symmetry; tauto).
      assert (TR2 : actions (trace s2) = actions (trace p2) /\ x s2 = x p2) by (unfold same in SM2; tauto). destruct TR2 as [TR2 XR2].
      assert (SN2 : st_eqb (status s2) ST_BAD_JACOBIAN = false) by (rewrite F9, E9, ST; reflexivity).
      rewrite SN2. rewrite JP, F4, <- F3. cbn [orb]. rewrite HU. cbn [andb].
      assert (SN3 : negb (st_eqb (status s2) ST_NORMAL) = false) by (rewrite F9, E9, ST; reflexivity).
      rewrite SN3. cbn [andb]. clear SN2 SN3 BL BS.
      assert (X1 : reason s2 = reason p2) by (rewrite F3, F4; reflexivity).
      assert (X2 : good (fsq s2)) by (rewrite F6; exact GP).
      assert (X3 : good (fsq_pre s2)) by (rewrite F15; exact GP).
      assert (X4 : 1 <= iter1 s2 <= i) by (rewrite F7, E3; exact V1).
      assert (X5 : 0 <= ijacob s2) by (rewrite F8, E4; exact V2).
      assert (X6 : vac_eqb (vac s2) VInitialized = false) by (rewrite F18, E16; exact V3).
      assert (X7 : interrupted s2 = false) by (rewrite F11, E11; exact V4).
      assert (X8 : status s2 = ST_NORMAL) by (rewrite F9, E9; exact ST).
      assert (X9 : liter s2 = true) by (rewrite F10, E10; exact LI).
      assert (X10 : nfinite (fsqr s2) && nfinite (fsqz s2) && nfinite (fsql s2) = true) by (rewrite F12, F13, F14; exact FN).
      assert (X11 : below (c_ftolv c) (fsqr s2) (fsqz s2) (fsql s2) = false) by (rewrite F12, F13, F14; exact BE).
      assert (X12 : c_parvmec c = true -> neq (fsq_inv s2) (nZ (-1)) = false).
      { intros PV. unfold fsq_inv. rewrite F12, F13, F14. destruct (reason s1) eqn:RS; try (apply E18).
        destruct E18 as ([Q|[Q _]] & _); [exfalso; apply NJ; [reflexivity|exact Q]|rewrite Q in PV; discriminate PV]. }
      assert (X13 : i <> 1 -> neq (res0 s2) (nZ (-1)) = false /\ (c_parvmec c = true -> neq (res1 s2) (nZ (-1)) = false)).
      { intros N1. rewrite F16, F17, E13, E14. destruct (V7 N1) as (_ & _ & Q1 & Q2 & _). split; assumption. }
      assert (X14 : fits c i s2).
      { unfold fits. rewrite F3, F7, E3. destruct (reason s1) eqn:RS; [exact I| | |].
        + destruct E18 as ([Q|[Q Q']] & _); [exfalso; apply NJ; [reflexivity|exact Q]|]. split; [exact Q|]. split; [apply NJ; reflexivity|exact Q'].
        + destruct E18 as (_ & _ & _ & _ & _ & [Q|Q]); discriminate Q.
        + destruct E18 as (Q & _). destruct (Z.eq_dec i 1) as [|N1]; [assumption|]. destruct (Q N1) as [_ Q2]. discriminate Q2. }
      clear - Hcb SN IH SM2 F1 F2 F5 X1 X2 X3 X4 X5 X6 X7 X8 X9 X10 X11 X12 X13 X14 HU JP.
      rewrite <- JP. apply body_sim; assumption.
Qed.

(** What a caller compares. *)
Definition agree (r : @stage_result K G V F) (q : @py_result K G V F) : Prop :=
  cpp_verdict r = py_verdict q /\
  exists extra, actions (trace (cpp_state r)) = extra ++ actions (trace (py_state q)) /\ Forall is_backup extra /\
    (cpp_verdict r = Unfinished -> extra = []) /\ (extra = [] -> x (cpp_state r) = x (py_state q)).

Definition entry (pending : bool) (s p : st) : Prop :=
  liter s = true /\
  if pending then
    ready c M good 1 s p /\ iter2 s = 1 /\ iter2 p = 1 /\ ijacob s = 1 /\ v s = m_vzero M /\ lreset s = true /\
    reason s = BAD_JACOBIAN /\ status s <> ST_SUCCESS /\ status s <> ST_JAC75
  else ready c M good (iter2 s) s p /\ iter2 s = iter2 p /\ reason s = NO_RESTART /\ status s = ST_NORMAL.

Lemma agree_exact r q : cpp_verdict r = py_verdict q -> actions (trace (cpp_state r)) = actions (trace (py_state q)) ->
  x (cpp_state r) = x (py_state q) -> agree r q.
Proof. intros A B D. split; [exact A|]. exists []. repeat split; try assumption; [apply Forall_nil|intros _; assumption]. Qed.

Lemma agree_close r q : cpp_verdict r = py_verdict q -> cpp_verdict r <> Unfinished -> close (cpp_state r) (py_state q) -> agree r q.
Proof.
  intros A N (e & B & D & E). split; [exact A|]. exists e. repeat split; try assumption. intros U. contradiction.
Qed.

Lemma prelude s p : entry true s p ->
  let s1 := restart_delt0r M (set_reason NO_RESTART (log (EvReinit (m_reguess M)) (set_x (m_reguess M) (set_x (m_gzero M) s)))) in
  let p1 := save_backup (reinitialize M p) in
  ready c M good 1 (set_status ST_NORMAL (set_liter true s1)) p1 /\ iter2 s1 = 1 /\ iter2 p1 = 1.
Proof.
  intros (LI & (SM & IV) & I2 & J2 & IJ & HV & LR & RR & _).
  destruct s as [x0 v0 b0 f0 i1 i2 ij rr r0 r1 dt fq fr fz fl fr1 fz1 fl1 tau vc nvs ivs stt li int lr nc tr].
  destruct p as [px pv pb pf pi1 pi2 pij prr pr0 pr1 pdt pfq pfr pfz pfl pfr1 pfz1 pfl1 ptau pvc pnvs pivs pstt pli pint plr pnc ptr].
  intros s1 p1.
  assert (E1 : s1 = ltac:(let r := eval vm_compute in s1 in exact r)) by (vm_cast_no_check (eq_refl s1)).
  assert (E2 : p1 = ltac:(let r := eval vm_compute in p1 in exact r)) by (vm_cast_no_check (eq_refl p1)).
  clearbody s1 p1. subst s1 p1.
  unfold ready, same, inv, fsq_pre in *. pj.
  destruct SM as (A1 & A2 & A3 & A4 & A5 & A6 & A7 & A8 & A9 & A10 & A11 & A12 & A13 & A14 & A15 & A16 & A17 & A18).
  destruct IV as (V1 & V2 & V3 & V4 & V5 & V6 & V7).
  cbn [actions]. rewrite A17. repeat split; try assumption; try reflexivity; try lia; try congruence.
Qed.

Lemma loop_reset (s : st) : reason s = BAD_JACOBIAN -> lreset s = true ->
  solve_equilibrium_loop c M s =
    let s1 := restart_delt0r M (set_reason NO_RESTART (log (EvReinit (m_reguess M)) (set_x (m_reguess M) (set_x (m_gzero M) s)))) in
    let s2 := set_status ST_NORMAL (set_liter true s1) in
    force_loop c M (Z.to_nat (c_niterv c - iter2 s2 + 1)) (iter2 s2) 0 s2.
Proof.
  intros RR LR. unfold solve_equilibrium_loop. rewrite RR. change (lreset (set_x (m_gzero M) s)) with (lreset s). rewrite LR. reflexivity.
Qed.

Lemma loop_plain (s : st) : reason s = NO_RESTART -> liter s = true -> status s = ST_NORMAL ->
  solve_equilibrium_loop c M s = force_loop c M (Z.to_nat (c_niterv c - iter2 s + 1)) (iter2 s) 0 s.
Proof.
  intros RR LI ST. unfold solve_equilibrium_loop. rewrite RR.
  assert (E : set_status ST_NORMAL (set_liter true s) = s) by (clear - LI ST; destruct s as [x0 v0 b0 f0 i1 i2 ij rr r0 r1 dt fq fr fz fl fr1 fz1 fl1 tau vc nvs ivs stt li int lr nc tr]; cbn [liter status] in LI, ST; rewrite LI, ST; reflexivity).
  cbv zeta. rewrite E. reflexivity.
Qed.

Lemma enter pending s p : entry pending s p ->
  exists s' p', ready c M good (iter2 s') s' p' /\ iter2 s' = iter2 p' /\ liter s' = true /\ status s' = ST_NORMAL /\
    solve_equilibrium_loop c M s = force_loop c M (Z.to_nat (c_niterv c - iter2 s' + 1)) (iter2 s') 0 s' /\
    (if pending then save_backup (reinitialize M p) else p) = p'.
Proof.
  intros EN. destruct pending.
  - pose proof (prelude s p EN) as P.
    destruct EN as (LI & (SM & IV) & I2 & J2 & IJ & HV & LR & RR & _).
    rewrite (loop_reset s RR LR). revert P.
    generalize (restart_delt0r M (set_reason NO_RESTART (log (EvReinit (m_reguess M)) (set_x (m_reguess M) (set_x (m_gzero M) s))))).
    generalize (save_backup (reinitialize M p)). intros p1 s1 P. cbv zeta in P. destruct P as (P1 & P2 & P3).
    exists (set_status ST_NORMAL (set_liter true s1)), p1.
    assert (I3 : iter2 (set_status ST_NORMAL (set_liter true s1)) = 1) by exact P2.
    split; [rewrite I3; exact P1|]. split; [rewrite I3; symmetry; exact P3|]. repeat split; reflexivity.
  - destruct EN as (LI & (SM & IV) & I2 & RR & ST). exists s, p. rewrite (loop_plain s RR LI ST).
    split; [exact (conj SM IV)|]. repeat split; assumption.
Qed.

Lemma outer_sim : forall k pending s p, entry pending s p ->
  agree (finish_stage c (retry_loop c M k s)) (outer c M (style_of c) k pending p).
Proof.
  induction k as [|k IH]; intros pending s p EN.
  { cbn [retry_loop outer finish_stage].
    destruct EN as (LI & EN).
    assert (Q : same c s p /\ interrupted s = false /\ status s <> ST_SUCCESS /\ status s <> ST_JAC75).
    { destruct pending.
      - destruct EN as ((SM & _ & _ & _ & V4 & _) & _ & _ & _ & _ & _ & _ & N1 & N2). exact (conj SM (conj V4 (conj N1 N2))).
      - destruct EN as ((SM & _ & _ & _ & V4 & _) & _ & _ & N1). split; [exact SM|]. split; [exact V4|]. rewrite N1. split; discriminate. }
    destruct Q as (SM & IN & N1 & N2). rewrite IN. unfold same in SM. apply agree_exact; cbn [cpp_verdict py_verdict cpp_state py_state]; [|tauto|tauto].
    destruct (status s); try reflexivity; contradiction. }
  cbn [retry_loop outer]. rewrite (proj1 EN).
  destruct (enter pending s p EN) as (s' & p' & RD & I2 & LI & ST & E1 & E2). rewrite E1, E2, <- I2.
  assert (RS : rel c M good (force_loop c M (Z.to_nat (c_niterv c - iter2 s' + 1)) (iter2 s') 0 s')
                 (inner c M (style_of c) (Z.to_nat (c_niterv c - iter2 s' + 1)) (iter2 s') 0 p')).
  { apply inner_sim; rewrite ?Z.sub_0_r; try assumption; reflexivity. }
  destruct (force_loop _ _ _ _ _ _) as [e sf|sf|sf]; destruct (inner _ _ _ _ _ _ _) as [q|q|q|q|q|q]; unfold rel in RS; try (exfalso; exact RS).
  - destruct RS as (IN & A & B). cbn [finish_stage]. rewrite IN, Hret. apply agree_exact; [reflexivity|exact A|exact B].
  - destruct RS as (IN & A & B). cbn [finish_stage]. rewrite IN, Hret. apply agree_exact; [reflexivity|exact A|exact B].
  - destruct RS as (A & ST' & L' & IN). destruct k; cbn [retry_loop]; rewrite ?L'; cbn [finish_stage]; rewrite IN;
      (apply agree_close; cbn [cpp_verdict py_verdict cpp_state py_state]; rewrite ?ST'; [reflexivity|discriminate|exact A]).
  - apply IH. destruct RS as (A1 & A2 & A3 & A4 & A5 & A6 & A7 & A8 & A9 & A10). split; [exact A8|]. split; [exact A1|]. repeat split; assumption.
  - apply IH. destruct RS as (A1 & A2 & A3 & A4 & A5). split; [exact A4|]. split; [exact A1|]. repeat split; assumption.
  - destruct RS as (A & ST' & IN). cbn [finish_stage]. rewrite IN. apply agree_close; cbn [cpp_verdict py_verdict cpp_state py_state]; rewrite ?ST'; [reflexivity|discriminate|exact A].
  - destruct RS as (A & ST' & IN). cbn [finish_stage]. rewrite IN. apply agree_close; cbn [cpp_verdict py_verdict cpp_state py_state]; rewrite ?ST'; [reflexivity|discriminate|exact A].
  - destruct RS as (A & B & ST' & IN). cbn [finish_stage]. rewrite IN. apply agree_exact; cbn [cpp_verdict py_verdict cpp_state py_state]; rewrite ?ST'; [reflexivity|exact A|exact B].
Qed.

Lemma solve_sim (g : G) (s : st) :
  1 <= c_niterv c -> interrupted s = false -> vac_eqb (vac s) VInitialized = false ->
  agree (solve_equilibrium c M (init_stage c M g s)) (py_solve c M (style_of c) (init_stage c M g s)).
Proof.
  intros NI IN VC. unfold solve_equilibrium, py_solve.
  destruct (Z.to_nat (c_niterv c)) as [|k] eqn:EK; [lia|].
  set (s0 := set_lreset false (set_liter true (init_stage c M g s))).
  assert (RS : retry_loop c M (S k) s0 = retry_loop c M (S k) (set_status ST_NORMAL s0)).
  { unfold s0. cbn [retry_loop]. pj. unfold solve_equilibrium_loop. destruct s. unfold init_stage, restart_iteration. pj. reflexivity. }
  rewrite RS. apply outer_sim. unfold s0. clear RS s0.
  destruct s as [x0 v0 b0 f0 i1 i2 ij rr r0 r1 dt fq fr fz fl fr1 fz1 fl1 tau vc nvs ivs stt li int lr nc tr].
  unfold entry, ready, same, inv, init_stage, restart_iteration in *. pj. cbv zeta. pj. repeat split; try assumption; try reflexivity; try lia; try congruence.
Qed.

End Loops.
