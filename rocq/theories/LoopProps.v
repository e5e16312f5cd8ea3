(** Properties of one multigrid stage. *)
From Coq Require Import ZArith List Bool Lia Reals SpecFloat.
From Verif Require Import Base Num LoopModel LoopSpec LoopCases LoopProofs LoopConv.
Import ListNotations.
Open Scope Z_scope.

(** The state a stage result carries. *)
Definition result_state {K : num} {G V F : Type} (r : @stage_result K G V F) : @st K G V F :=
  match r with StageCancelled s | StageError s | StageOk s => s end.

(** C10. One stage performs at most [4 niter] force evaluations, whatever the
    forward model reports, in whatever arithmetic, and returns (the model is a
    total function). *)
Theorem C10_stage_terminates :
  forall (K : num) (G V F : Type) (c : @cfg K) (M : @ext K G V F) (g : G) s,
    1 <= c_niterv c ->
    let s0 := init_stage c M g s in
    Z.of_nat (evals (trace (result_state (solve_equilibrium c M s0)))) <=
    Z.of_nat (evals (trace s0)) + 4 * c_niterv c.
Proof.
  intros K G V F c M g s HN s0.
  assert (H : iter2 s0 = 1 /\ ijacob s0 = 0) by (split; reflexivity).
  destruct H as [H1 H2].
  pose proof (stage_count c M s0) as HC. 
  specialize (HC ltac:(lia) H2).
  destruct (solve_equilibrium c M s0); unfold result_state; lia.
Qed.
Print Assumptions C10_stage_terminates.

(** C11 (residuals).  Successful termination means: a complete evaluation during
    this stage produced exactly the reported residuals, they are finite and
    within the tolerance, and it was the last evaluation of the stage. *)
Theorem C11_convergence_is_genuine :
  forall (K : num) (G V F : Type) (c : @cfg K) (M : @ext K G V F) (g : G) s s',
    1 <= c_niterv c ->
    let s0 := init_stage c M g s in
    solve_equilibrium c M s0 = StageOk s' -> status s' = ST_SUCCESS ->
    exists new g', trace s' = new ++ trace s0 /\
      last_eval new = Some (g', true, fsqr s', fsqz s', fsql s') /\
      within (c_ftolv c) (fsqr s') (fsqz s') (fsql s') = true.
Proof.
  intros K G V F c M g s s' HN s0 HE HS.
  eapply stage_genuine; eauto.
Qed.
Print Assumptions C11_convergence_is_genuine.

(** Instances.  A relaxing stage converges in both styles; so does one whose
    first evaluation finds a bad Jacobian (axis re-guess); an oracle that always
    reports a bad Jacobian stops too. *)
Example C10_C11_converges :
  forallb (fun p => lc_ok (@lc_run num_f64 (lc_cfg 50 (nfrac 1 1000) p false false)
                           (lc_ext lc_relax (fun _ => false)) VOff 1))
    [false; true] = true.
Proof. vm_compute. reflexivity. Qed.

Example C10_C11_converges_after_reguess :
  let s := lc_final (@lc_run num_f64 (lc_cfg 50 (nfrac 1 1000) false false false)
                      (lc_ext (lc_relax_bad 1) (fun _ => false)) VOff 1) in
  (status s, evals (trace s), existsb (fun e => match e with EvReinit _ => true | _ => false end) (trace s))
  = (ST_SUCCESS, 12%nat, true).
Proof. vm_compute. reflexivity. Qed.

Example C10_always_bad :
  let s := lc_final (@lc_run num_f64 (lc_cfg 50 (nfrac 1 1000) false false false)
                      (lc_ext (fun _ => lc_bad) (fun _ => false)) VOff 1) in
  (status s, evals (trace s)) = (ST_BAD_JACOBIAN, 2%nat).
Proof. vm_compute. reflexivity. Qed.
