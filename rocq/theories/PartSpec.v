(** What a caller expects from work sharing, stated without reference to how
    the ranges are computed. *)
From Coq Require Import ZArith.
Open Scope Z_scope.

(** The ranges [lo t <= j < hi t] of threads [0 <= t < T] distribute the
    indices [0 <= j < n]: every index has exactly one owner and no thread owns
    an index outside. *)
Definition distributes (T n : Z) (lo hi : Z -> Z) : Prop :=
  (forall j, 0 <= j < n ->
     exists t, (0 <= t < T /\ lo t <= j < hi t) /\
       forall t', 0 <= t' < T /\ lo t' <= j < hi t' -> t' = t) /\
  (forall t j, 0 <= t < T -> lo t <= j < hi t -> 0 <= j < n).

(** Earlier threads own smaller indices. *)
Definition ordered (T : Z) (lo hi : Z -> Z) : Prop :=
  forall t u i j, 0 <= t -> t < u -> u < T ->
    lo t <= i < hi t -> lo u <= j < hi u -> i < j.

(** The loads of any two threads differ by at most one. *)
Definition balanced (T : Z) (lo hi : Z -> Z) : Prop :=
  forall t u, 0 <= t < T -> 0 <= u < T ->
    Z.abs ((hi t - lo t) - (hi u - lo u)) <= 1.

(** Every thread has something to do. *)
Definition nobody_idle (T : Z) (lo hi : Z -> Z) : Prop :=
  forall t, 0 <= t < T -> lo t < hi t.
