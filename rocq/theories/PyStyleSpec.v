(** Vocabulary for comparing the iteration styles of the Python driver. *)
From Coq Require Import ZArith List Bool.
From Verif Require Import Base Num LoopModel PyIterModel.
Import ListNotations.
Open Scope Z_scope.

Section Spec.
Context {K : num} {G V F : Type}.
Local Notation st := (@st K G V F).
Local Notation event := (@event K G V).

(** Everything but the saves, which leave the iteration itself alone. *)
Definition is_move (e : event) : bool := match e with EvSave _ => false | _ => true end.
Definition moves (t : list event) : list event := filter is_move t.

Definition never_reverts (s : st) : Prop := forall g, ~ In (EvRollback g) (trace s).

(** Two situations with the same geometry, velocity, forces, counters, time step,
    residuals and history of evaluations and steps; backup and running minima may
    differ. *)
Definition alike (s p : st) : Prop :=
  x s = x p /\ v s = v p /\ f s = f p /\ iter1 s = iter1 p /\ iter2 s = iter2 p /\ ijacob s = ijacob p /\ reason s = reason p /\
  delt0r s = delt0r p /\ fsq s = fsq p /\ fsqr s = fsqr p /\ fsqz s = fsqz p /\ fsql s = fsql p /\ fsqr1 s = fsqr1 p /\
  fsqz1 s = fsqz1 p /\ fsql1 s = fsql1 p /\ invtau s = invtau p /\ vac s = vac p /\ moves (trace s) = moves (trace p).

(** A forward model that does not see the backup nor the running minima. *)
Definition blind_to_control (M : @ext K G V F) : Prop :=
  forall s p, alike s p -> m_eval M s = m_eval M p.
End Spec.
