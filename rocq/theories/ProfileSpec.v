(** Specifications for the radial profiles, independent of the model. *)
From Coq Require Import ZArith List Reals.
From Coquelicot Require Import Coquelicot.
From Verif Require Import SumLemmas.
Import ListNotations.
Open Scope R_scope.

(** The polynomial with coefficients [c]. *)
Definition polynomial (c : list R) (x : R) : R :=
  zsum 0 (Z.of_nat (length c)) (fun i => nth (Z.to_nat i) c 0 * x ^ Z.to_nat i).

(** [F] is the integral of [f] that vanishes at [a], on [[a,b]]. *)
Definition integral_from (f F : R -> R) (a b : R) : Prop :=
  forall x, a <= x <= b -> is_RInt f a x (F x).

(** Strictly increasing knots. *)
Definition increasing (xs : list R) : Prop :=
  forall i j, (i < j < length xs)%nat -> nth i xs 0 < nth j xs 0.

(** The interpolation property. *)
Definition interpolates (f : R -> R) (xs ys : list R) : Prop :=
  forall i, (i < length xs)%nat -> f (nth i xs 0) = nth i ys 0.

(** Piecewise linear interpolation: on each segment the value lies on the chord. *)
Definition piecewise_linear (f : R -> R) (xs ys : list R) : Prop :=
  forall i x, (S i < length xs)%nat -> nth i xs 0 <= x <= nth (S i) xs 0 ->
    f x = nth i ys 0 + (nth (S i) ys 0 - nth i ys 0)
                       * ((x - nth i xs 0) / (nth (S i) xs 0 - nth i xs 0)).

(** [f] agrees with the cubics [P i] on the closed segments, and neighbouring
    cubics have the same value and slope at the common knot; with [k = 2] also
    the same second derivative. *)
Record cubic_pieces (f : R -> R) (xs : list R) (k : nat) : Prop := {
  cp_poly : exists P : nat -> R * R * R * R,
    let ev i x := let '(a, b, c, d) := P i in a + b * x + c * x ^ 2 + d * x ^ 3 in
    let d1 i x := let '(a, b, c, d) := P i in b + 2 * c * x + 3 * d * x ^ 2 in
    let d2 i x := let '(a, b, c, d) := P i in 2 * c + 6 * d * x in
    (forall i x, (S i < length xs)%nat -> nth i xs 0 <= x <= nth (S i) xs 0 -> f x = ev i x) /\
    (forall i, (S (S i) < length xs)%nat -> d1 i (nth (S i) xs 0) = d1 (S i) (nth (S i) xs 0)) /\
    ((2 <= k)%nat -> forall i, (S (S i) < length xs)%nat ->
       d2 i (nth (S i) xs 0) = d2 (S i) (nth (S i) xs 0)) }.

(** The mirror image of a data set. *)
Definition mirror (xs : list R) : list R := rev (map Ropp xs).

(** [rel x v]: the profile has the (finite) value [v] at [x]. Continuity up to the
    edge: there is one value at 1 and it is the limit from inside. *)
Definition edge_continuous (rel : R -> R -> Prop) : Prop :=
  exists v1, rel 1 v1 /\ (forall v, rel 1 v -> v = v1) /\
    forall eps, 0 < eps -> exists d, 0 < d /\
      forall x, 1 - d < x < 1 -> exists v, rel x v /\ Rabs (v - v1) < eps.

(** A profile that decreases from [top] on the axis to zero at the edge. *)
Definition peaked (rel : R -> R -> Prop) (top : R) : Prop :=
  rel 0 top /\ rel 1 0 /\
  forall x y, 0 <= x <= y -> y <= 1 ->
    exists vx vy, rel x vx /\ rel y vy /\ 0 <= vy <= vx /\ vx <= top.
