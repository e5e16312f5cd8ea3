(** The functions of the angles which the wout file describes. *)
From Coq Require Import ZArith List Bool Reals.
From Verif Require Import SizesModel SumLemmas FourierSpec.
Open Scope R_scope.

(** Sum over the modes m < mpol, |n| <= ntor of c_mn cos(m theta - n nfp phi), and
    of the sines; the coefficient of (m, n) is at [mode_pos]. *)
Definition out_cos (s : sizes) (c : Z -> R) (theta phi : R) : R :=
  combined_series cos (sz_mpol s) (sz_ntor s) c theta (IZR (sz_nfp s) * phi).
Definition out_sin (s : sizes) (c : Z -> R) (theta phi : R) : R :=
  combined_series sin (sz_mpol s) (sz_ntor s) c theta (IZR (sz_nfp s) * phi).
(** A quantity with cosine (sine) coefficients [a] and, in asymmetric runs, sine
    (cosine) coefficients [b] *)
Definition out_even (s : sizes) (a b : Z -> R) (theta phi : R) : R :=
  out_cos s a theta phi + (if sz_lasym s then out_sin s b theta phi else 0).
Definition out_odd (s : sizes) (a b : Z -> R) (theta phi : R) : R :=
  out_sin s a theta phi + (if sz_lasym s then out_cos s b theta phi else 0).
