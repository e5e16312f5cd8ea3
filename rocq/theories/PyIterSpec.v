(** Vocabulary for comparing the two drivers of a stage. *)
From Coq Require Import ZArith List Bool.
From Verif Require Import Base Num LoopModel PyIterModel.
Import ListNotations.
Open Scope Z_scope.

Section Spec.
Context {K : num} {G V F : Type}.
Local Notation st := (@st K G V F).
Local Notation event := (@event K G V).

(** The actions on the physical state: force evaluations, time steps, saves,
    roll-backs, re-initialisations.  Iteration counts and the interrupt callback are
    no actions; saving twice in a row is saving once. *)
Fixpoint actions (t : list event) : list event :=
  match t with
  | [] => []
  | e :: t =>
      match e with
      | EvCount _ | EvCallback _ => actions t
      | EvSave g => match actions t with
                    | (EvSave _ :: _) as t' => t'
                    | t' => EvSave g :: t'
                    end
      | _ => e :: actions t
      end
  end.

Definition is_backup (e : event) : Prop :=
  match e with EvSave _ | EvRollback _ => True | _ => False end.

(** Two situations the forward model cannot tell apart: same geometry, counters,
    residuals, time step and history of actions. *)
Definition looks_same (s s' : st) : Prop :=
  x s = x s' /\ v s = v s' /\ bak s = bak s' /\ f s = f s' /\ iter1 s = iter1 s' /\ iter2 s = iter2 s' /\
  ijacob s = ijacob s' /\ delt0r s = delt0r s' /\ fsqr s = fsqr s' /\ fsqz s = fsqz s' /\ fsql s = fsql s' /\
  fsqr1 s = fsqr1 s' /\ fsqz1 s = fsqz1 s' /\ fsql1 s = fsql1 s' /\ vac s = vac s' /\
  actions (trace s) = actions (trace s').

Definition function_of_state (M : @ext K G V F) : Prop :=
  forall s s', looks_same s s' -> m_eval M s = m_eval M s'.

Definition pre_sum (o : @evalout K F) : K := nadd (nadd (o_r1 o) (o_z1 o)) (o_l1 o).
Definition inv_sum (o : @evalout K F) : K := nadd (nadd (o_r o) (o_z o)) (o_l o).
Definition finite3 (o : @evalout K F) : bool := nfinite (o_r o) && nfinite (o_z o) && nfinite (o_l o).
Definition below (tol a b d : K) : bool := nle a tol && nle b tol && nle d tol.

(** Values for which the comparisons and divisions of the two drivers agree: e.g.
    positive numbers of moderate size. *)
Record sane (good : K -> Prop) : Prop := mkSane {
  sane_zero : forall a, good a -> neq a (nZ 0) = false;
  sane_minus : forall a, good a -> neq a (nZ (-1)) = false;
  sane_log : forall a b, good a -> good b -> nle (ndiv a b) (nZ 0) = false;
  sane_hundred : forall a b, good a -> nle a b = true -> nlt (nmul (nZ 100) b) a = false
}.

(** A forward model that avoids the situations in which the drivers differ:
    surfaces overlap only at the start or (8.52 only) at most 10 iterations after
    a restart; non-finite residuals only at the start; the residuals of the initial
    guess are not huge; no convergence after 75 bad Jacobians; the
    preconditioned residuals are positive. *)
Definition tame (c : @cfg K) (good : K -> Prop) (M : @ext K G V F) : Prop :=
  forall s, let o := m_eval M s in
  (o_jac_bad o = true -> iter2 s = 1 \/ (c_parvmec c = false /\ iter2 s - iter1 s <= 10)) /\
  (o_jac_bad o = false ->
     (iter2 s <> 1 -> finite3 o = true) /\
     (ijacob s = 0 -> iter2 s = 1 -> finite3 o = true -> nlt (nZ 100) (inv_sum o) = false) /\
     (75 <= ijacob s -> below (c_ftolv c) (o_r o) (o_z o) (o_l o) = false) /\
     good (pre_sum o) /\ neq (inv_sum o) (nZ (-1)) = false).

(** Outcome as seen by the caller. *)
Inductive verdict : Type := Converged | Failed | Unfinished.

Definition cpp_verdict (r : @stage_result K G V F) : verdict :=
  match r with
  | StageOk s => match status s with
                 | ST_SUCCESS => Converged | ST_JAC75 => Failed | _ => Unfinished
                 end
  | StageError _ | StageCancelled _ => Failed
  end.
Definition cpp_state (r : @stage_result K G V F) : st :=
  match r with StageCancelled s | StageError s | StageOk s => s end.

Definition py_verdict (r : @py_result K G V F) : verdict :=
  match r with
  | PyRaise _ => Failed
  | PyReturn true _ _ => Converged
  | PyReturn false true _ => Failed
  | PyReturn false false _ => Unfinished
  end.
Definition py_state (r : @py_result K G V F) : st :=
  match r with PyRaise s | PyReturn _ _ s => s end.

(** The style selected by the input. *)
Definition style_of (c : @cfg K) : style := if c_parvmec c then Parvmec else Vmec852.

End Spec.
