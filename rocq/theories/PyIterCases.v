(** Concrete forward models used beside the theorems on the Python driver. *)
From Coq Require Import ZArith List Bool SpecFloat.
From Verif Require Import Base Num LoopModel LoopSpec LoopCases PyIterModel PyIterSpec.
Import ListNotations.
Open Scope Z_scope.

Section Cases.
Context {K : num}.

(** Number of force evaluations so far, read off the actions. *)
Definition pi_evals (s : @lc_state K) : nat := evals (actions (trace s)).

(** The residual is the geometry, which each step halves; the Jacobian is bad in the
    evaluations selected by [bad]. *)
Definition pi_eval (bad : nat -> bool) : @lc_state K -> @evalout K unit :=
  fun s => if bad (pi_evals s) then lc_bad else lc_out (x s).

(** The surfaces overlap as soon as the geometry comes closer than 1/10. *)
Definition pi_wall : @lc_state K -> @evalout K unit :=
  fun s => if nlt (x s) (nfrac 1 10) then lc_bad else lc_out (x s).

(** Steps of a geometry with a velocity: the velocity counts the steps. *)
Definition pi_vext (huge : bool) : @ext K K Z unit :=
  @mkExt K K Z unit
    (fun s => if huge && Nat.eqb (evals (actions (trace s))) 0
              then @mkOut K unit false false false false (nZ 1000) (nZ 1000) (nZ 1000) (nZ 1) (nZ 1) (nZ 1) tt
              else @mkOut K unit false false false false (x s) (x s) (x s) (x s) (x s) (x s) tt)
    (fun _ _ _ _ w g => (ndiv g (nZ 2), w + 1)%Z)
    0 (nZ 0) (nZ 1) (fun g => g) (fun _ => false).

Definition pi_vraw : @st K K Z unit :=
  let z := nZ 0 in
  @mkSt K K Z unit z 0 z tt 0 0 0 NO_RESTART z z z z z z z z z z
        (repeat z 10) VOff 1 0 ST_NORMAL true false false 0 [].

(** A run that starts with overlapping surfaces, re-guesses the axis, and converges. *)
Definition pi_tame : @lc_state K -> @evalout K unit :=
  fun s => if (ijacob s =? 0) && (iter2 s =? 1) then lc_bad
           else if (ijacob s <? 75) && (15 <? iter2 s) then lc_out3 (nZ 0) (nZ 0) (nZ 1)
           else lc_out3 (nZ 1) (nZ 1) (nZ 1).

End Cases.

(** Comparing lists of actions by shape. *)
Definition shape {K : num} {G V : Type} (e : @event K G V) : Z :=
  match e with
  | EvEval _ true _ _ _ => 1 | EvEval _ false _ _ _ => 2 | EvStep _ _ _ => 3 | EvSave _ => 4
  | EvRollback _ => 5 | EvReinit _ => 6 | _ => 0
  end.
Definition velocities {K : num} {G : Type} (t : list (@event K G Z)) : list Z :=
  flat_map (fun e => match e with EvStep _ w _ => [w] | _ => [] end) t.
