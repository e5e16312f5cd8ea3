(** Projection of a field on the resolved Fourier modes. *)
From Coq Require Import ZArith List Bool Reals.
From Verif Require Import SizesModel SumLemmas DftModel DftSpec.
Import ListNotations.
Open Scope R_scope.

(** Field with the coefficients [x], and the same with the basis functions
    replaced by [D] (their derivatives). *)
Definition synth (s : sizes) (ks : list bk) (x : bk -> Z -> Z -> R) (D : Z -> bk -> Z -> Z -> R -> R -> R) (theta phi : R) : R :=
  rsum ks (fun b => zsum 0 (sz_mpol s) (fun m => zsum 0 (sz_ntor s + 1) (fun n =>
    x b m n * D (sz_nfp s) b m n theta phi))).
(** Component of a field on the grid along a basis function. *)
Definition component (s : sizes) (f : Z -> Z -> R) (b : bk) (m n : Z) : R :=
  grid_avg s (fun k l => f k l * Phi (sz_nfp s) b m n (theta_pt s l) (phi_pt s k)).
(** Basis functions of a field even (true) or odd under (theta, phi) -> (-theta,
    -phi) in a symmetric run; all of them otherwise. *)
Definition parity_kinds (lasym even : bool) : list bk := kinds lasym (if even then cR else cZ).
(** Row [j] of an array on the grid. *)
Definition surface (s : sizes) (a : Z -> R) (j k l : Z) : R := a (at_pt s j k l).
