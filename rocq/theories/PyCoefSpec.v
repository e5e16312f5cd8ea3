(** Boundary arrays in Python: what a user expects. [shaped], [coef], [resized],
    [last_entry], [no_entry], [padded] are those of the C++ input object. *)
From Coq Require Import ZArith List Bool.
From Verif Require Import Base Num IndataModel IndataSpec.
Import ListNotations.
Open Scope Z_scope.

Section Spec.
  Context {K : num}.

  (** Equal arrays, except that an entry comparing equal to zero may have become
      the literal zero (a negative zero loses its sign). *)
  Definition same_up_to_zero (b b' : mat K) (mpol ntor : Z) : Prop :=
    shaped b' mpol (2 * ntor + 1) /\
    forall m n, 0 <= m < mpol -> - ntor <= n <= ntor ->
      coef ntor b' m n = coef ntor b m n \/ (neq (coef ntor b m n) (nZ 0) = true /\ coef ntor b' m n = nZ 0).

  (** Every element of the array that compares equal to zero is the literal zero. *)
  Definition only_plus_zero (b : mat K) : Prop := forall row x, In row (m_body b) -> In x row -> neq x (nZ 0) = true -> x = nZ 0.

  (** The sparse list mentions exactly the non-zero modes, each once, in order. *)
  Definition lists_nonzero (b : mat K) (mpol ntor : Z) (l : list (coefficient K)) : Prop :=
    (forall m n v, In (mkCoef m n v) l <->
       0 <= m < mpol /\ - ntor <= n <= ntor /\ v = coef ntor b m n /\ neq v (nZ 0) = false) /\
    NoDup (map (fun e => (c_m e, c_n e)) l).

  Definition inside (mpol ntor : Z) (e : coefficient K) : Prop := 0 <= c_m e < mpol /\ - ntor <= c_n e <= ntor.
End Spec.
