From Coq Require Import ZArith List Reals.
Import ListNotations.
Open Scope R_scope.
(** relative change of the energy in step i; the first entry is the energy itself *)
Definition relative_change (E : Z -> R) (i : Z) : R := if (i =? 0)%Z then E 0%Z else (E i - E (i - 1)%Z) / E i.
(** pieces covering the n - 1 assigned coefficients *)
Definition pieces (n : Z) (lens : list Z) : Prop := Forall (fun l => (1 <= l)%Z) lens /\ fold_right Z.add 0%Z lens = (n - 1)%Z.
