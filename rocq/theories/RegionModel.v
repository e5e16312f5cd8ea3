(** Control skeleton of the parallel region of the solver: every barrier, every
    single region, every branch that decides whether a thread meets them, of
    Vmec::SolveEquilibrium (vmec.cc:774-844), SolveEquilibriumLoop (881-1236),
    RestartIteration (1239-1305), Evolve (1307-1425), UpdateForwardModel
    (1465-1498), Printout (1427-1463), PerformTimeStep (1500-1517),
    performTimeStep (1520-1797) and IdealMhdModel::update
    (ideal_mhd_model.cc:559-1116) with the routines it calls.

    What the threads compute (geometry, forces) is not modelled here: the
    control data they produce - local Jacobian test, local failure of
    constraintForceMultiplier, residuals, currents, interrupt request - are
    arbitrary functions of the thread and of the number of barriers passed, in
    the record [world].  Calls are inlined; a return jumps to the code after
    the call.  applyRZPreconditioner's internal-error return (3073-3077) is left
    out: num_basis is by construction the number of basis functions counted
    there. *)
From Coq Require Import ZArith List Bool.
From Verif Require Import Base Num TeamModel PartModel.
Import ListNotations.
Open Scope Z_scope.

Section Region.
  Context {K : num}.

  Inductive val := VI (z : Z) | VD (l : list K).
  Definition zi (v : val) : Z := match v with VI z => z | VD _ => 0 end.
  Definition dk (i : nat) (v : val) : K := match v with VD l => nth i l (nZ 0) | VI _ => nZ 0 end.
  Definition a0 (l : list val) : val := nth 0 l (VI 0).
  Definition a1 (l : list val) : val := nth 1 l (VI 0).
  Definition a2 (l : list val) : val := nth 2 l (VI 0).
  Definition a3 (l : list val) : val := nth 3 l (VI 0).
  Definition vb (b : bool) : val := VI (if b then 1 else 0).

  (** Settings of the run, the same for all threads.  [ck n] is
      [checkpoint == n] (VmecCheckpoint, common/util/util.h:75-140, numbered in
      the order the checkpoints are met below). *)
  Record settings := {
    lthreed : bool; lasym : bool; lfreeb : bool; parvmec : bool; ret_out : bool;
    niterv : Z; nstep : Z; ns : Z; ck : Z -> bool; ibc : Z; delt : K; ftolv : K }.

  (** What the threads compute. *)
  Record world := {
    bad_tau : Z -> nat -> bool;           (* computeJacobian: localBadJacobian *)
    fails : Z -> nat -> bool;             (* constraintForceMultiplier returns an error *)
    new_fsq : Z -> nat -> list K;         (* fsqr, fsqz, fsql *)
    new_fsq1 : Z -> nat -> list K;        (* fsqr1, fsqz1, fsql1 *)
    new_rbtor : Z -> nat -> K; new_ctor : Z -> nat -> K;
    new_bsubu : Z -> nat -> K; new_bsubv : Z -> nat -> K; vac_ck : Z -> nat -> bool;
    interrupt : nat -> bool }.

  Context (S : settings) (w : world) (T : Z).

  (** Shared variables. *)
  Definition vRestart := 0.  Definition vVac := 1.     Definition vFsq := 2.   Definition vFsq1 := 3.
  Definition vFsqB := 4.     Definition vRes0 := 5.    Definition vRes1 := 6.  Definition vRB := 7.
  Definition vCT := 8.       Definition vBU := 9.      Definition vBV := 10.   Definition vVck := 11.
  Definition vIter1 := 12.   Definition vIter2 := 13.  Definition vStatus := 14. Definition vLiter := 15.
  Definition vIjac := 16.    Definition vDelt := 17.   Definition vLastPre := 18. Definition vLastNes := 19.
  Definition vInt := 20.     Definition vRetries := 21. Definition vInvTau := 22. Definition vAcc := 23.
  Definition vAny := 24.
  (** Private variables. *)
  Definition pI1 := 0.   Definition pI2 := 1.   Definition pFail := 2.  Definition pSkip := 3.
  Definition pNskip := 4. Definition pNeed := 5. Definition pRc := 6.   Definition pForce := 7.
  Definition pBad := 8.  Definition pIt2 := 9.  Definition pRR := 10.   Definition pReset := 11.
  Definition pS := 12.   Definition pTries := 13. Definition pTs := 14. Definition pFix := 15.
  Definition pEdge := 16.

  (** RestartReason, flow_control.h:17-32; VacuumPressureState, util.h:161-180;
      VmecStatus, util.h:148-159. *)
  Definition NO_RESTART := 1. Definition BAD_JAC := 2. Definition BAD_PROGRESS := 3. Definition HUGE := 4.
  Definition kOff := -1. Definition kInitializing := 0. Definition kInitialized := 1. Definition kActive := 2.
  Definition st_NORMAL := 0. Definition st_BADJAC := 1. Definition st_75 := 4. Definition st_SUCCESS := 11.

  (** Labels. *)
  Definition L0 := 0. Definition L_retry := 1. Definition L_exit := 2. Definition L_sel := 3.
  Definition L_selreset := 4. Definition L_sel1 := 5. Definition L_for := 6. Definition L_norm := 7.
  Definition L_selret := 8. Definition L_evolve := 9. Definition L_upd := 10. Definition L_rzcon := 11.
  Definition L_upd2 := 12. Definition L_inivol := 13. Definition L_upd3 := 14. Definition L_prec := 15.
  Definition L_upd4 := 16. Definition L_fb := 17. Definition L_fb_on := 18. Definition L_fb1 := 19.
  Definition L_fb_ext := 20. Definition L_fb2 := 21. Definition L_fb_soft := 22. Definition L_fb3 := 23.
  Definition L_upd5 := 24. Definition L_true := 25. Definition L_false := 26. Definition L_err := 27.
  Definition L_ufm := 28. Definition L_need := 29. Definition L_need1 := 30. Definition L_ev1 := 31.
  Definition L_evfalse := 32. Definition L_evret := 33. Definition L_selck := 34. Definition L_selerr := 35.
  Definition L_selbad := 36. Definition L_selout := 37. Definition L_reguess := 38. Definition L_25 := 39.
  Definition L_25b := 40. Definition L_75 := 41. Definition L_ctl := 42. Definition L_par := 43.
  Definition L_save := 44. Definition L_grow := 45. Definition L_slow := 46. Definition L_rr := 47.
  Definition L_restart := 48. Definition L_restart1 := 49. Definition L_print := 50. Definition L_end := 51.
  Definition L_need2 := 52.

  Definition code_t := list (instr val).
  Notation store := (@TeamModel.store val).
  Definition cst (v : Z) (x : val) : Z * (Z -> nat -> store -> store -> option val) := (v, fun _ _ _ _ => Some x).
  Definition single (ws : list (Z * (Z -> nat -> store -> store -> option val))) : code_t := [Sg ws; Bar].
  Definition setp (p : Z) (x : val) : instr val := Up p [] [] (fun _ _ => x).
  Definition goto_if (rs rp : list Z) (c : list val -> list val -> bool) (l : Z) : instr val := Br rs rp c l.

  (** [if (checkpoint == n && iter2 >= iterations_before_checkpointing) return true;] *)
  Definition chk (n : Z) : instr val := Br [] [pI2] (fun _ p => ck S n && (ibc S <=? zi (a0 p))) L_true.

  (** A reduction: single reset, barrier, critical add, barrier
      (e.g. ideal_mhd_model.cc:1728-1742). *)
  Definition add_acc : instr val := Wr vAcc (fun _ _ s _ => Some (VD (match s vAcc with VD l => nZ 1 :: l | VI _ => [] end))).
  Definition accumulate : code_t := single [cst vAcc (VD [])] ++ [Bar; add_acc; Bar].

  (** RestartIteration, vmec.cc:1239-1305, as blocks [base], [base+1], [base+2];
      then to label [k].  [loc]: the time step argument is a local variable of the
      caller (UpdateForwardModel), not fc_.delt0r. *)
  Definition restart_iteration (base : Z) (loc : bool) (k : Z) : list (Z * code_t) :=
    let d (f : K -> K) := if loc then [] else [(vDelt, fun _ _ (s : store) (_ : store) => Some (VD [f (dk 0 (s vDelt))]))] in
    [ (base, [Bar; Br [vRestart] [] (fun s _ => zi (a0 s) =? BAD_JAC) (base + 1);
              Br [vRestart] [] (fun s _ => zi (a0 s) =? BAD_PROGRESS) (base + 2);
              Bar; Jm k]);
      (base + 1, [Bar] ++ single (d (fun x => nmul x (nfrac 9 10)) ++
              [(vIjac, fun _ _ s _ => Some (VI (zi (s vIjac) + 1)));
               (vIter1, fun _ _ s _ => Some (s vIter2)); cst vRestart (VI NO_RESTART)]) ++ [Bar; Jm k]);
      (base + 2, [Bar] ++ single (d (fun x => ndiv x (nfrac 103 100)) ++ [cst vRestart (VI NO_RESTART)]) ++ [Bar; Jm k]) ].

  (** 1.0e-3, 0.01, ... as literals. *)
  Definition fsq_rz (v : val) : K := nadd (dk 0 v) (dk 1 v).
  Definition fsq_all (v : val) : K := nadd (nadd (dk 0 v) (dk 1 v)) (dk 2 v).

  (** ** Vmec::SolveEquilibrium, vmec.cc:790-844.  The loop condition
      [s.ok() && *s == MUST_RETRY && liter_flag] is evaluated in this order, so
      liter_flag is only read after MUST_RETRY: returns with another status jump
      to the end of the loop ([L_selout]). *)
  Definition blk_eqsolve : list (Z * code_t) :=
    [ (L0, [setp pReset (VI 0); setp pS (VI 0); setp pTries (VI 0); Jm L_retry]);
      (L_retry, [Br [] [pTries] (fun _ p => negb (zi (a0 p) <? niterv S)) L_exit;
                 Br [vLiter] [] (fun s _ => zi (a0 s) =? 0) L_exit; Bar; Jm L_sel]);
      (L_exit, [Sg [(vRetries, fun _ _ s p => Some (VI (zi (s vRetries) + zi (p pTries))))];
                Wr vAny (fun _ _ s p => if zi (p pS) =? 2 then Some (VI 1) else None);
                Bar; Rt]);
      (L_selret, [Up pTries [] [pTries] (fun _ p => VI (zi (a0 p) + 1)); Jm L_retry]);
      (L_selout, [Up pTries [] [pTries] (fun _ p => VI (zi (a0 p) + 1)); Jm L_exit]) ].

  (** ** SolveEquilibriumLoop, vmec.cc:881-1236. *)
  Definition blk_loop : list (Z * code_t) :=
    [ (L_sel, [Br [vRestart] [] (fun s _ => zi (a0 s) =? BAD_JAC) L_selreset; Jm L_sel1]);
      (L_selreset, [Bar] ++ single [cst vRestart (VI NO_RESTART)] ++ [Jm 100]) ]
    ++ restart_iteration 100 false L_sel1 ++
    [ (L_sel1, single [cst vLiter (VI 1); cst vStatus (VI st_NORMAL)]
               ++ [Up pForce [vIter2] [] (fun s _ => a0 s); setp pBad (VI 0); Jm L_for]);
      (L_for, [Br [vLiter] [pForce] (fun s p => negb ((zi (a0 p) <=? niterv S) && (zi (a0 s) =? 1))) L_norm;
               Up pIt2 [] [pForce; pBad] (fun _ p => VI (zi (a0 p) - zi (a1 p)));
               Up pTs [vDelt] [] (fun s _ => a0 s); Jm L_evolve]);
      (L_norm, [setp pS (VI 1); Jm L_selout]);
      (* after Evolve, 928-1010 *)
      (L_evret, [Br [] [pRc] (fun _ p => zi (a0 p) =? 2) L_selerr;
                 Br [] [pRc] (fun _ p => zi (a0 p) =? 1) L_selck;
                 Br [vIjac; vStatus; vRestart] []
                    (fun s _ => (zi (a0 s) =? 0) && ((zi (a1 s) =? st_BADJAC) || (zi (a2 s) =? HUGE)) && (3 <=? ns S)) L_reguess;
                 Br [vStatus] [] (fun s _ => negb (zi (a0 s) =? st_NORMAL) && negb (zi (a0 s) =? st_SUCCESS)) L_selbad;
                 Br [] [pIt2] (fun _ p => ck S 30 && (ibc S <=? zi (a0 p))) L_selck;
                 Bar;
                 Br [vIjac] [] (fun s _ => (zi (a0 s) =? 25) || (zi (a0 s) =? 50)) L_25;
                 Br [vIjac] [] (fun s _ => 75 <=? zi (a0 s)) L_75;
                 Jm L_ctl]);
      (L_selerr, [setp pS (VI 3); Jm L_selout]);
      (L_selck, [setp pS (VI 2); Jm L_selout]);
      (L_selbad, [setp pS (VI (if ret_out S then 1 else 3)); Jm L_selout]);
      (L_reguess, [Bar] ++ single [cst vIjac (VI 1); cst vRestart (VI BAD_JAC)]
                  ++ [setp pReset (VI 1); setp pS (VI 0); Jm L_selret]);
      (L_25, single [cst vRestart (VI BAD_JAC)] ++ [Jm 110]) ]
    ++ restart_iteration 110 false L_25b ++
    [ (L_25b, single [(vDelt, fun _ _ s _ => Some (VD [nmul (if zi (s vIjac) <? 50 then nfrac 98 100 else nfrac 96 100) (delt S)]));
                      cst vRestart (VI NO_RESTART)]
              ++ [setp pS (VI 0); Jm L_selret]);
      (L_75, single [cst vStatus (VI st_75); cst vLiter (VI 0)] ++ [Jm L_ctl]);
      (* time step control, 1076-1142 *)
      (L_ctl, single [(vRes0, fun _ _ s p =>
                         let r := if (zi (p pIt2) =? zi (s vIter1)) || neq (dk 0 (s vRes0)) (nsub (nZ 0) (nZ 1)) then s vFsqB else s vRes0 in
                         Some (VD [nmin (dk 0 r) (dk 0 (s vFsqB))]));
                      (vRes1, fun _ _ s p => if parvmec S then
                         let f := fsq_all (s vFsq) in
                         let r := if (zi (p pIt2) =? zi (s vIter1)) || neq (dk 0 (s vRes1)) (nsub (nZ 0) (nZ 1)) then f else dk 0 (s vRes1) in
                         Some (VD [nmin r f]) else None)]
              ++ [Br [] [] (fun _ _ => parvmec S) L_par;
                  Br [vFsqB; vRes0; vIter1] [pIt2]
                     (fun s p => nle (dk 0 (a0 s)) (dk 0 (a1 s)) && (10 <? zi (a0 p) - zi (a2 s))) L_save;
                  Br [vFsqB; vRes0; vIter1] [pIt2]
                     (fun s p => nlt (nmul (nZ 100) (dk 0 (a1 s))) (dk 0 (a0 s)) && (zi (a2 s) <? zi (a0 p))) L_grow;
                  Br [vIter1; vFsq] [pIt2]
                     (fun s p => (12 <? zi (a0 p) - zi (a0 s)) && (50 <? zi (a0 p)) && nlt (nfrac 1 100) (fsq_rz (a1 s))) L_slow;
                  Jm L_rr]);
      (L_par, [Br [vFsqB; vRes0; vFsq; vRes1] []
                  (fun s _ => nle (dk 0 (a0 s)) (dk 0 (a1 s)) && nle (fsq_all (a2 s)) (dk 0 (a3 s))) L_save;
               Br [vFsqB; vRes0; vFsq; vRes1; vIter1] [pIt2]
                  (fun s p => (10 <? zi (a0 p) - zi (nth 4 s (VI 0))) &&
                     (nlt (nmul (nZ 10000) (dk 0 (a1 s))) (dk 0 (a0 s)) || nlt (nmul (nZ 10000) (dk 0 (a3 s))) (fsq_all (a2 s)))) L_slow;
               Jm L_rr]);
      (L_save, [Jm 120]) ]
    ++ restart_iteration 120 false L_rr ++
    [ (L_grow, single [cst vRestart (VI BAD_JAC)] ++ [Jm L_rr]);
      (L_slow, single [cst vRestart (VI BAD_PROGRESS)] ++ [Jm L_rr]);
      (* 1144-1229 *)
      (L_rr, [Up pRR [vRestart] [] (fun s _ => a0 s); Bar;
              Br [] [pRR] (fun _ p => negb (zi (a0 p) =? NO_RESTART)) L_restart;
              Br [vLiter] [pIt2] (fun s p => (zi (a0 p) mod nstep S =? 0) || (zi (a0 p) =? 1) || (zi (a0 s) =? 0)) L_print;
              Jm L_end]);
      (L_restart, [Jm 130]) ]
    ++ restart_iteration 130 false L_restart1 ++
    [ (L_restart1, [Up pBad [] [pBad] (fun _ p => VI (zi (a0 p) + 1));
                    Sg [(vIter1, fun _ _ _ p => Some (p pIt2))]; Jm L_end]);
      (* Printout 1427-1441, with the reduction of radial_profiles.cc:1277-1283 *)
      (L_print, single [cst vAcc (VD [])] ++ [add_acc; Bar; Bar;
                 Wr vLiter (fun t n _ _ => if (t =? 0) && interrupt w n then Some (VI 0) else None);
                 Wr vInt (fun t n _ _ => if (t =? 0) && interrupt w n then Some (VI 1) else None);
                 Br [] [pIt2] (fun _ p => ck S 31 && (ibc S <=? zi (a0 p))) L_selck;
                 Jm L_end]);
      (L_end, [Bar] ++ single [(vVac, fun _ _ s _ => if zi (s vVac) =? kInitialized then Some (VI kActive) else None)]
              ++ [Wr vIter2 (fun _ _ _ p => Some (VI (zi (p pIt2) + 1)));
                  Up pForce [] [pForce] (fun _ p => VI (zi (a0 p) + 1)); Jm L_for]) ].

  (** ** Evolve and UpdateForwardModel, vmec.cc:1307-1425, 1465-1498. *)
  Definition blk_evolve : list (Z * code_t) :=
    [ (L_evolve, single [cst vRestart (VI NO_RESTART)]
         ++ [setp pNeed (VI 0); Up pI1 [vIter1] [] (fun s _ => a0 s); Up pI2 [vIter2] [] (fun s _ => a0 s); Jm L_upd]);
      (L_true, [setp pRc (VI 1); Jm L_ufm]);
      (L_false, [setp pRc (VI 0); Jm L_ufm]);
      (L_err, [setp pRc (VI 2); Jm L_ufm]);
      (L_ufm, [Br [] [pRc] (fun _ p => zi (a0 p) =? 2) L_evret;
               Br [] [pNeed] (fun _ p => zi (a0 p) =? 1) L_need; Jm L_need2]);
      (L_need, [Jm 140]) ]
    ++ restart_iteration 140 true L_need1 ++
    [ (L_need1, [Sg [cst vRestart (VI NO_RESTART)]; Jm L_need2]);
      (L_need2, [Bar; Jm L_ev1]);
      (L_ev1, [Br [] [pRc] (fun _ p => zi (a0 p) =? 1) L_evret]
         ++ single [(vStatus, fun _ _ s _ =>
               let f := s vFsq in
               let fin := nfinite (dk 0 f) && nfinite (dk 1 f) && nfinite (dk 2 f) in
               if ((zi (s vIter2) =? 1) && (zi (s vRestart) =? BAD_JAC)) || negb fin then Some (VI st_BADJAC)
               else if nle (dk 0 f) (ftolv S) && nle (dk 1 f) (ftolv S) && nle (dk 2 f) (ftolv S) then Some (VI st_SUCCESS) else None);
             (vLiter, fun _ _ s _ => if zi (s vStatus) =? st_SUCCESS then Some (VI 0) else None)]
         ++ [Br [vStatus; vLiter] [] (fun s _ => negb (zi (a0 s) =? st_NORMAL) || (zi (a1 s) =? 0)) L_evfalse]
         ++ single [(vInvTau, fun _ _ s _ => Some (s vInvTau)); (vFsqB, fun _ _ s _ => Some (VD [fsq_all (s vFsq1)]))]
         (* PerformTimeStep 1503, performTimeStep 1712, 1795, PerformTimeStep 1513 *)
         ++ [Bar; Bar; Bar; Bar; Jm L_evfalse]);
      (L_evfalse, [setp pRc (VI 0); Jm L_evret]) ].

  (** ** IdealMhdModel::update, ideal_mhd_model.cc:559-1116. *)
  Definition blk_update : list (Z * code_t) :=
    [ (L_upd, [chk 1]
         (* geometryFromFourier: the 2d transforms have a barrier (1247, 1417) *)
         ++ (if lthreed S then [] else Bar :: (if lasym S then [Bar] else []))
         ++ [chk 2;
             Br [vVac] [pI1; pI2] (fun s p => (zi (a0 p) =? zi (a1 p)) && ((zi (a0 s) =? kOff) || (zi (a0 s) =? kInitializing))) L_rzcon;
             Jm L_upd2]);
      (L_rzcon, [Bar; Jm L_upd2]);
      (L_upd2, [Wr vRestart (fun t n _ _ => if bad_tau w t n then Some (VI BAD_JAC) else None); Bar; chk 3;
                Br [vRestart] [] (fun s _ => zi (a0 s) =? BAD_JAC) L_false; chk 4;
                Br [] [pI2] (fun _ p => zi (a0 p) =? 1) L_inivol; Jm L_upd3]);
      (L_inivol, accumulate ++ [Jm L_upd3]);
      (L_upd3, [chk 5; chk 6; chk 7]
         (* pressureAndEnergies 1961-1991 *)
         ++ accumulate ++ single [cst vAcc (VD [])] ++ [Bar; chk 8; chk 9;
             Wr vRB (fun t n _ _ => if t =? T - 1 then Some (VD [new_rbtor w t n]) else None);
             Wr vCT (fun t n _ _ => if t =? T - 1 then Some (VD [new_ctor w t n]) else None);
             (* hybridLambdaForce 2043, 2059 *)
             Bar; Bar; chk 10;
             Br [] [pI1; pI2] (fun _ p => Z.rem (zi (a1 p) - zi (a0 p)) 25 =? 0) L_prec; Jm L_upd4]);
      (L_prec, [Sg [(vLastPre, fun _ _ _ p => Some (p pI2))]; chk 11]
         (* updateVolume 1758-1772, computeForceNorms 2098-2134 *)
         ++ accumulate ++ accumulate ++ single [cst vAcc (VD [])] ++ [Bar; chk 12;
             Lp pFail (fun t n => vb (fails w t n)); Br [] [pFail] (fun _ p => zi (a0 p) =? 1) L_err; chk 13; Jm L_upd4]);
      (L_upd4, [Br [] [pI2] (fun _ p => (ck S 11 || ck S 12 || ck S 13) && (ibc S <=? zi (a0 p))) L_true;
                Br [vVac] [pI2] (fun s p => lfreeb S && ((1 <? zi (a0 p)) || (zi (a0 s) =? kInitialized))) L_fb; Jm L_upd5]);
      (* free boundary, 742-966 *)
      (L_fb, [Bar; Up pSkip [] [pI1; pI2; pNskip] (fun _ p => VI (Z.rem (zi (a1 p) - zi (a0 p)) (zi (a2 p))));
              Br [vVac; vFsq] [] (fun s _ => negb (zi (a0 s) =? kActive) && nlt (fsq_rz (a1 s)) (nfrac 1 1000)) L_fb_on; Jm L_fb1]);
      (L_fb_on, [Bar; setp pSkip (VI 0)] ++ single [(vVac, fun _ _ s _ => Some (VI (zi (s vVac) + 1)))] ++ [Jm L_fb1]);
      (L_fb1, [Br [] [pSkip] (fun _ p => zi (a0 p) =? 0) L_fb_ext; Jm L_fb2]);
      (L_fb_ext, [Up pNskip [vFsq] [pNskip] (fun s p => VI (Z.max (zi (a0 p))
                     (ntrunc (ndiv (nZ 1 : K) (nmax (nfrac 1 10) (nmul (nZ (10 ^ 11)) (fsq_rz (a0 s))))))));
                  Sg [(vLastNes, fun _ _ _ p => Some (p pI2))]; Jm L_fb2]);
      (L_fb2, [Bar; Br [vVac] [] (fun s _ => zi (a0 s) =? kOff) L_upd5; Bar]
         (* one thread runs the nested vacuum solve, 825-856 *)
         ++ single [(vVck, fun t n _ _ => Some (vb (vac_ck w t n))); (vBU, fun t n _ _ => Some (VD [new_bsubu w t n]));
                    (vBV, fun t n _ _ => Some (VD [new_bsubv w t n]))]
         ++ [Br [vVck] [] (fun s _ => zi (a0 s) =? 1) L_true]
         ++ single [(vVac, fun _ _ s _ => if zi (s vVac) =? kInitializing then Some (VI kInitialized) else None)]
         ++ [Br [vRB; vBV] [] (fun s _ => nlt (nmul (dk 0 (a0 s)) (dk 0 (a1 s))) (nZ 0)) L_err;
             Br [vCT; vBU; vRB] [] (fun s _ => nlt (nfrac 1 100) (nabs (ndiv (nsub (dk 0 (a0 s)) (dk 0 (a1 s))) (dk 0 (a2 s))))) L_err;
             Br [vVac] [] (fun s _ => zi (a0 s) =? kInitialized) L_fb_soft;
             setp pNeed (VI 0); Jm L_fb3]);
      (L_fb_soft, single [cst vRestart (VI BAD_JAC)] ++ [setp pNeed (VI 1); Jm L_fb3]);
      (L_fb3, [chk 14; Jm L_upd5]);
      (L_upd5, [chk 15; Bar; chk 16] (* assembleTotalForces 2509 *)
         ++ (if lthreed S then [] else [Bar]) (* dft_ForcesToFourier_2d_symm 2634 *)
         ++ [chk 17;
             Up pFix [vFsq] [pI2] (fun s p => vb (nlt (dk 1 (a0 s)) (nfrac 1 1000000) || (zi (a0 p) <? 2)));
             chk 18;
             Up pEdge [vFsq; vVac] [pI1; pI2] (fun s p => vb ((zi (a1 p) - zi (a0 p) <? 50) &&
                 (nlt (fsq_rz (a0 s)) (nfrac 1 1000000) || ((zi (a1 p) =? 1) && (zi (a1 s) =? kInitialized)))))]
         (* evalFResInvar 488-525 *)
         ++ single [cst vAcc (VD [])] ++ [add_acc; Bar] ++ single [(vFsq, fun t n _ _ => Some (VD (new_fsq w t n)))]
         ++ [chk 19] ++ (if lthreed S || lasym S then [Bar] else []) (* applyM1Preconditioner 2896 *)
         ++ [chk 20; Bar; chk 21; Bar; Bar; chk 22] (* 3040, 3104, 3140 *)
         ++ single [cst vAcc (VD [])] ++ [add_acc; Bar] ++ single [(vFsq1, fun t n _ _ => Some (VD (new_fsq1 w t n)))]
         ++ [chk 23]
         ++ single [(vRestart, fun _ _ s p => if (zi (p pI2) =? 1) && nlt (nZ 100) (fsq_all (s vFsq)) then Some (VI HUGE) else None)]
         ++ [Jm L_false]) ].

  Definition blocks : list (Z * code_t) := blk_eqsolve ++ blk_loop ++ blk_evolve ++ blk_update.

  Definition region (l : Z) : code_t :=
    match find (fun b => fst b =? l) blocks with Some b => snd b | None => [Rt] end.
End Region.

Arguments val : clear implicits.
Arguments settings : clear implicits.
Arguments world : clear implicits.

(** When constraintForceMultiplier (ideal_mhd_model.cc:2427-2487) returns an
    error on a thread: norms of dR/dtheta and dZ/dtheta over each of the force
    surfaces of this thread, the axis left out.  [ru], [zu] are indexed by the
    surface and the angular point; the local arrays ruFull, zuFull hold the rows
    nsMinF.. of them.  Values of tcon are not modelled. *)
Section Multiplier.
  Context {K : num}.

  Definition surface_norm (nZnT nThetaEff : Z) (wInt : Z -> K) (u : Z -> Z -> K) (jF : Z) : K :=
    for_up 0 nZnT (fun kl s => nadd s (nmul (nmul (u jF kl) (u jF kl)) (wInt (kl mod nThetaEff)))) (nZ 0).

  Definition constraintForceMultiplier_fails (nZnT nThetaEff : Z) (wInt : Z -> K) (ru zu : Z -> Z -> K) (r : rpart) : bool :=
    let jMin := if nsMinF r =? 0 then 1 else 0 in
    existsb (fun jF => neq (surface_norm nZnT nThetaEff wInt ru jF) (nZ 0) ||
                       neq (surface_norm nZnT nThetaEff wInt zu jF) (nZ 0))
            (zrange (Z.max jMin (nsMinF r)) (nsMaxF r)).
End Multiplier.
