(** A field on a surface split into its average and its variation. *)
From Coq Require Import ZArith Reals.
From Verif Require Import Base SumLemmas SizesModel.
Open Scope R_scope.

(** Average of [f] over the grid of angles with the integration weights; [l] is
    the fast index. *)
Definition average (s : sizes) (f : Z -> Z -> R) : R :=
  zsum 0 (sz_nZeta s) (fun k => zsum 0 (sz_nThetaEff s) (fun l => f k l * sz_wInt s l)).
(** Row [j] of a matrix. *)
Definition row (s : sizes) (a : Z -> R) (j k l : Z) : R := a (j * sz_nZnT s + (k * sz_nThetaEff s + l))%Z.
Definition variation (s : sizes) (a : Z -> R) (j k l : Z) : R := row s a j k l - average s (row s a j).
