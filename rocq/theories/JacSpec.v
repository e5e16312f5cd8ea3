(** Vocabulary for the Jacobian test: the half-grid Jacobian (without the factor
    R) of the flux-surface geometry, written out over the reals, and what it
    means that it changes sign. *)
From Coq Require Import ZArith Reals.
From Verif Require Import Base Num PartModel KernelModel KernelSpec.
Open Scope Z_scope.

(** At half-grid point [h], between surfaces [h] and [h + 1]: with even and odd
    parts X = Xe + sqrt(s) Xo, the discretisation of R_u Z_s - R_s Z_u, where
    the s-derivative of sqrt(s) contributes the terms with the factor
    [kdSHalfDsInterp] (1/4 in the code). *)
Definition half_jacobian (c : @kcfg num_R) (f : @fields num_R) (h kl : Z) : R :=
  let i := f_geo f h kl in
  let o := f_geo f (h + 1) kl in
  let s := f_sqrtSH f h in
  let avg e e' d d' := ((e + e') / 2 + s * ((d + d') / 2))%R in
  let der e e' d d' := ((e' - e + s * (d' - d)) / kdeltaS c)%R in
  (avg (rue i) (rue o) (ruo i) (ruo o) * der (z1e i) (z1e o) (z1o i) (z1o o)
   - der (r1e i) (r1e o) (r1o i) (r1o o) * avg (zue i) (zue o) (zuo i) (zuo o)
   + kdSHalfDsInterp c *
     ((ruo o * z1o o - zuo o * r1o o) + (ruo i * z1o i - zuo i * r1o i) +
      ((rue o * z1o o - zue o * r1o o) + (rue i * z1o i - zue i * r1o i)) / s))%R.

(** [J] takes a negative and a positive value on half-grid points lo <= h < hi. *)
Definition changes_sign (lo hi nZnT : Z) (J : Z -> Z -> R) : Prop :=
  (exists h kl, lo <= h < hi /\ 0 <= kl < nZnT /\ (J h kl < 0)%R) /\
  (exists h kl, lo <= h < hi /\ 0 <= kl < nZnT /\ (0 < J h kl)%R).

(** The local arrays of the thread with range [p] holding fields [f]. *)
Definition localise {K : num} (n : Z) (p : rpart) (f : @fields K) : @kin K :=
  let F1 {A} (g : Z -> A) := fun i => g (nsMinF1 p + i) in
  let H {A} (g : Z -> A) := fun i => g (nsMinH p + i) in
  mkKin (fun i => f_geo f (nsMinF1 p + i / n) (i mod n))
        (fun i => f_lam f (nsMinF1 p + i / n) (i mod n))
        (F1 (f_sqrtSF f)) (H (f_sqrtSH f)) (F1 (f_blend f))
        (F1 (f_phipF f)) (H (f_phipH f)) (H (f_currH f)) (H (f_massH f)) (H (f_chipH f)) (H (f_iotaH f)).
