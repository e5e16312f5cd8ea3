(** C47: the interrupt callback. *)
From Coq Require Import ZArith List Bool Lia.
From Verif Require Import Base Num LoopModel LoopSpec LoopCases LoopInt.
Import ListNotations.
Open Scope Z_scope.

(** With a callback installed, for every history of a stage: fewer than nstep
    iterations are counted between two questions to the callback, so a request
    is noticed within nstep counted iterations; after a request nothing more is
    evaluated, and the stage ends as cancelled; it ends as cancelled only if the
    callback requested it. *)
Theorem C47_interrupt_honoured :
  forall (K : num) (G V F : Type) (c : @cfg K) (M : @ext K G V F) g s,
    c_cb c = true -> 1 <= c_nstep c -> interrupted s = false ->
    match solve_equilibrium c M (init_stage c M g s) with
    | StageCancelled s' => exists history, trace s' = history ++ trace s /\
        always (interrupt_ok (c_nstep c)) history /\ requested history = true
    | StageError s' | StageOk s' => exists history, trace s' = history ++ trace s /\
        always (interrupt_ok (c_nstep c)) history /\ requested history = false
    end.
Proof.
  intros K G V F c M g s HC HN HI. pose proof (stage_int c M g s HC HN HI) as H.
  destruct (solve_equilibrium _ _ _) as [s'|s'|s'];
    destruct H as ((new & A & B & C & _) & E); exists new; repeat split; auto; congruence.
Qed.
Print Assumptions C47_interrupt_honoured.

(** Instance: nstep = 10, requests from the third question on; the stage is
    cancelled after 20 counted iterations, with two bad Jacobians before. *)
Example C47_instance :
  let M : @ext num_f64 num_f64 unit unit :=
    lc_ext (fun s => let n := evals (trace s) in
      if Nat.eqb n 2 || Nat.eqb n 3 then lc_bad else lc_out (x s)) (fun n => 2 <=? n) in
  match lc_run (lc_cfg 500 (nfrac 1 1000000000000000) false false true) M VOff 1 with
  | StageCancelled s => (evals (trace s), counted (trace s), interrupted s) = (22%nat, 20, true)
  | _ => False
  end.
Proof. vm_compute. reflexivity. Qed.
