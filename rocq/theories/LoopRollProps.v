(** C12: roll-backs and time steps. *)
From Coq Require Import ZArith List Bool Lia Reals Lra.
From Verif Require Import Base Num LoopModel LoopSpec LoopCases LoopRoll.
Import ListNotations.
Open Scope Z_scope.

(** Every roll-back during a stage returns to the geometry saved last (the state at
    the start of the stage at the earliest, since a stage starts by saving);
    every pseudo-time step taken is positive and at most delt; the step after a
    roll-back starts at rest from the restored geometry.  Exact arithmetic; the
    history before the stage may be any history with the same property, e.g. the
    empty one or that of earlier stages. *)
Theorem C12_rollbacks_and_time_steps :
  forall (G V F : Type) (c : @cfg num_R) (M : @ext num_R G V F) (g : G) s,
    (0 < c_delt c)%R ->
    (forall g, m_mask M (m_mask M g) = m_mask M g) ->
    let ok := roll_ok (m_vzero M) (m_mask M)
                (fun dt : num_R => (0 < dt <= c_delt c)%R) in
    always ok (trace s) ->
    match solve_equilibrium c M (init_stage c M g s) with
    | StageCancelled s' | StageError s' | StageOk s' => always ok (trace s')
    end.
Proof.
  intros G V F c M g s HD HM ok H.
  assert (X : match solve_equilibrium c M (init_stage c M g s) with
    | StageCancelled s' | StageError s' | StageOk s' =>
        W M (fun dt : num_R => (0 < dt <= c_delt c)%R) s' end).
  { apply stage_W; auto; unfold nfrac; cbn.
    - lra.
    - intros d. lra.
    - intros d Hd. replace (d / (103 / 100))%R with (d * (100 / 103))%R by field. lra.
    - lra.
    - lra. }
  destruct (solve_equilibrium _ _ _); apply X.
Qed.
Print Assumptions C12_rollbacks_and_time_steps.

(** The same without the bound on the time step, for any arithmetic. *)
Theorem C12_rollbacks_any_arithmetic :
  forall (K : num) (G V F : Type) (c : @cfg K) (M : @ext K G V F) (g : G) s,
    (forall g, m_mask M (m_mask M g) = m_mask M g) ->
    let ok := roll_ok (m_vzero M) (m_mask M) (fun _ => True) in
    always ok (trace s) ->
    match solve_equilibrium c M (init_stage c M g s) with
    | StageCancelled s' | StageError s' | StageOk s' => always ok (trace s')
    end.
Proof.
  intros K G V F c M g s HM ok H.
  assert (X : match solve_equilibrium c M (init_stage c M g s) with
    | StageCancelled s' | StageError s' | StageOk s' => W M (fun _ => True) s' end)
    by (apply stage_W; auto).
  destruct (solve_equilibrium _ _ _); apply X.
Qed.
Print Assumptions C12_rollbacks_any_arithmetic.

(** Instance: a stage with bad Jacobians at the third and fourth evaluation rolls
    back twice and takes time steps before and after. *)
Definition C12_case : @ext num_f64 num_f64 unit unit :=
  lc_ext (fun s => let n := evals (trace s) in
    if Nat.eqb n 2 || Nat.eqb n 3 then lc_bad else lc_out (x s)) (fun _ => false).
Example C12_instance :
  let s := lc_final (lc_run (lc_cfg 50 (nfrac 1 1000) false false false) C12_case VOff 1) in
  (status s,
   length (filter (fun e => match e with EvRollback _ => true | _ => false end) (trace s)),
   length (filter (fun e => match e with EvStep _ _ _ => true | _ => false end) (trace s)))
  = (ST_SUCCESS, 2%nat, 14%nat).
Proof. vm_compute. reflexivity. Qed.
