(** Specification for the spectra of derived quantities in the output. *)
From Coq Require Import ZArith List Bool Reals.
From Verif Require Import SumLemmas SizesModel FourierSpec DftSpec.
Open Scope R_scope.

(** The value at (-theta, -phi) of a field [F] on the whole angular grid (toroidal
    index first). *)
Definition mirrored (s : sizes) (F : Z -> Z -> R) (k l : Z) : R :=
  F ((sz_nZeta s - k) mod sz_nZeta s)%Z ((sz_nThetaEven s - l) mod sz_nThetaEven s)%Z.

(** [f] holds on its surface [j] the field [F]; in runs with stellarator symmetry
    the array covers half the poloidal range only and [F] has the parity [sgn]. *)
Definition holds_field (s : sizes) (sgn : R) (f : Z -> R) (j : Z) (F : Z -> Z -> R) : Prop :=
  (forall k l, (0 <= k < sz_nZeta s)%Z -> (0 <= l < sz_nThetaEff s)%Z -> f (at_pt s j k l) = F k l) /\
  (sz_lasym s = false -> forall k l, (0 <= k < sz_nZeta s)%Z -> (0 <= l < sz_nThetaEven s)%Z -> mirrored s F k l = sgn * F k l).

(** The number of toroidal points is even or one, or the field has no component of
    the highest toroidal mode number. *)
Definition nyquist_free (s : sizes) (F : Z -> Z -> R) : Prop :=
  Z.Even (sz_nZeta s) \/ sz_nZeta s = 1%Z \/
  forall l, (0 <= l < sz_nThetaEven s)%Z ->
    zsum 0 (sz_nZeta s) (fun k => F k l * cos (IZR (sz_nnyq s) * (2 * PI * IZR k / IZR (sz_nZeta s)))) = 0 /\
    zsum 0 (sz_nZeta s) (fun k => F k l * sin (IZR (sz_nnyq s) * (2 * PI * IZR k / IZR (sz_nZeta s)))) = 0.

(** Value at grid point (k, l) of the Fourier series with the coefficients in
    column [j] of the matrix [w]; modes 0 <= m <= mnyq, |n| <= nnyq. *)
Definition series_at (s : sizes) (trig : R -> R) (w : Z -> Z -> R) (j k l : Z) : R :=
  combined_series trig (sz_mnyq s + 1) (sz_nnyq s) (fun mn => w mn j) (theta_pt s l) (IZR (sz_nfp s) * phi_pt s k).
