(** Specification of the analytic singular integrals, independent of the
    model: the integrals and coefficients themselves. *)
From Coq Require Import ZArith Reals Factorial.
From Coquelicot Require Import Coquelicot.
Open Scope R_scope.

(** The metric of a regular surface point: the quadratic form
    [a u^2 + b2 u v + c v^2] is positive definite. *)
Definition regular_metric (a b2 c : R) : Prop := 0 < a /\ 0 < c /\ b2 * b2 < 4 * a * c.

(** Square of the distance, along the segment that joins the two directions
    [u - v] and [u + v]: [a (1-t)^2 -/+ b2 (1-t)(1+t) + c (1+t)^2]. *)
Definition form_plus (a b2 c t : R) : R :=
  a * (1 - t) * (1 - t) - b2 * (1 - t) * (1 + t) + c * (1 + t) * (1 + t).
Definition form_minus (a b2 c t : R) : R := form_plus a (- b2) c t.

(** T_l: the integral of [t^l / sqrt q(t)] over [-1, 1]. *)
Definition is_T (q : R -> R) (l : nat) (v : R) : Prop :=
  is_RInt (fun t => t ^ l / sqrt (q t)) (-1) 1 v.

(** S_l: the integral of [t^l r(t) / q(t)^{3/2}] over [-1, 1]. *)
Definition is_S (q r : R -> R) (l : nat) (v : R) : Prop :=
  is_RInt (fun t => t ^ l * r t / (q t * sqrt (q t))) (-1) 1 v.

(** Closed form of the coefficient of t^(m+n-2s) for mode (m, n), a Zernike
    radial polynomial up to the sign (-1)^n:
    (-1)^(n+s) (m+n-s)! / (s! (m-s)! (n-s)!). *)
Definition zernike (m n s : nat) : R :=
  (-1) ^ (n + s) * INR (fact (m + n - s)) / (INR (fact s) * INR (fact (m - s)) * INR (fact (n - s))).
