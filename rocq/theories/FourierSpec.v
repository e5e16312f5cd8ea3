(** Specification of the Fourier representations, independent of the loops. *)
From Coq Require Import ZArith List Bool Reals.
From Verif Require Import SumLemmas.
Open Scope R_scope.

(** Documented order of the combined-basis coefficients (vmecpp documentation,
    "m = 0: n = 0..ntor; m > 0: n = -ntor..ntor"). *)
Definition mode_pos (ntor m n : Z) : Z :=
  (if m =? 0 then n else (ntor + 1) + (m - 1) * (2 * ntor + 1) + (n + ntor))%Z.
Definition valid_mode (mpol ntor m n : Z) : Prop :=
  (0 <= m < mpol /\ - ntor <= n <= ntor /\ (m = 0 -> 0 <= n))%Z.
Definition n_modes (mpol ntor : Z) : Z := (ntor + 1 + (mpol - 1) * (2 * ntor + 1))%Z.

(** sum over all modes of f_mn trig(m theta - n zeta). *)
Definition combined_series (trig : R -> R) (mpol ntor : Z) (f : Z -> R) (theta zeta : R) : R :=
  zsum 0 (ntor + 1) (fun n => f (mode_pos ntor 0 n) * trig (- (IZR n * zeta))) +
  zsum 1 mpol (fun m => zsum (- ntor) (ntor + 1) (fun n =>
    f (mode_pos ntor m n) * trig (IZR m * theta - IZR n * zeta))).

(** sqrt 2 for non-zero mode numbers: normalisation of the product basis. *)
Definition s2 (m : Z) : R := if (m =? 0)%Z then 1 else sqrt 2.
(** sum over m < mpol, 0 <= n <= ntor of c_mn (s2 m) (s2 n) t1(m theta) t2(n zeta);
    [at_ m n] is the position of the coefficient in the array. *)
Definition product_series (t1 t2 : R -> R) (mpol ntor : Z) (at_ : Z -> Z -> Z) (c : Z -> R) (theta zeta : R) : R :=
  zsum 0 mpol (fun m => zsum 0 (ntor + 1) (fun n =>
    c (at_ m n) * (s2 m * s2 n * (t1 (IZR m * theta) * t2 (IZR n * zeta))))).
