(** Specification vocabulary for runs: only the list of stages (newest first) and
    the outcome. *)
From Coq Require Import ZArith List Bool.
From Verif Require Import Base Num LoopModel RunModel.
Import ListNotations.
Open Scope Z_scope.

Section Spec.
Context {K : num}.
Notation stage_log := (@stage_log K).

(** A stage that neither converged nor merely used up its iterations. *)
Definition hard_failed (l : stage_log) : bool :=
  match l_out l with
  | OStatus ST_NORMAL | OStatus ST_SUCCESS => false
  | _ => true
  end.

(** Only the last stage may have failed hard. *)
Definition only_last_fails (l : list stage_log) : Prop :=
  match l with
  | [] => True
  | _ :: earlier => Forall (fun e => hard_failed e = false) earlier
  end.

Definition last_converged (l : list stage_log) : Prop :=
  match l with
  | e :: _ => l_out e = OStatus ST_SUCCESS
  | [] => False
  end.

End Spec.

Definition run_state {K : num} {G V F : Type} (x : @run_result K G V F) : @rst K G V F :=
  match x with RunCancelled r | RunError r | RunOk r => r end.

Definition returned_outputs {K : num} {G V F : Type} (x : @run_result K G V F) : bool :=
  match x with RunOk _ => true | _ => false end.
Definition was_cancelled {K : num} {G V F : Type} (x : @run_result K G V F) : bool :=
  match x with RunCancelled _ => true | _ => false end.
