(** Specification of the angular transforms: Fourier series, their derivatives
    and grid inner products, independent of the transform loops. *)
From Coq Require Import ZArith List Bool Reals.
From Verif Require Import PartModel SizesModel SumLemmas FourierSpec DftModel.
Import ListNotations.
Open Scope R_scope.

(** Basis function of kind [b] with mode numbers (m, n): product of a sine or
    cosine of m theta and a sine or cosine of n nfp phi, normalised by sqrt 2 per
    non-zero mode number. *)
Definition in_theta (b : bk) : R -> R := match b with b_cc | b_cs => cos | b_ss | b_sc => sin end.
Definition in_zeta (b : bk) : R -> R := match b with b_cc | b_sc => cos | b_ss | b_cs => sin end.
Definition Phi (nfp : Z) (b : bk) (m n : Z) (theta phi : R) : R :=
  s2 m * s2 n * (in_theta b (IZR m * theta) * in_zeta b (IZR n * (IZR nfp * phi))).
(** its derivatives in theta and phi ([C54_basis] proves that they are) *)
Definition d_in_theta (b : bk) (x : R) : R := match b with b_cc | b_cs => - sin x | b_ss | b_sc => cos x end.
Definition d_in_zeta (b : bk) (x : R) : R := match b with b_cc | b_sc => - sin x | b_ss | b_cs => cos x end.
Definition Phi_theta (nfp : Z) (b : bk) (m n : Z) (theta phi : R) : R :=
  s2 m * s2 n * (IZR m * d_in_theta b (IZR m * theta) * in_zeta b (IZR n * (IZR nfp * phi))).
Definition Phi_phi (nfp : Z) (b : bk) (m n : Z) (theta phi : R) : R :=
  s2 m * s2 n * (in_theta b (IZR m * theta) * (IZR (n * nfp) * d_in_zeta b (IZR n * (IZR nfp * phi)))).

(** Which kinds represent each component: R is cos-like, Z and lambda sin-like
    under (theta, phi) -> (-theta, -phi); lasym adds the other two. *)
Definition kinds (lasym : bool) (c : comp) : list bk :=
  match c with
  | cR => [b_cc; b_ss] ++ (if lasym then [b_sc; b_cs] else [])
  | cZ | cL => [b_sc; b_cs] ++ (if lasym then [b_cc; b_ss] else [])
  end.

(** Number of poloidal modes on surface [j]: the axis carries m = 0, 1 only. *)
Definition n_pol (mpol j : Z) : Z := if (j =? 0)%Z then 2%Z else mpol.

(** The even-m ([e = true]) or odd-m part of the series of one component on one
    surface, as a function of (theta, phi). *)
Definition series (nfp : Z) (ks : list bk) (M ntor : Z) (e : bool) (x : bk -> Z -> Z -> R)
  (theta phi : R) : R :=
  rsum ks (fun b => zsum 0 M (fun m => if Bool.eqb e (Z.even m)
    then zsum 0 (ntor + 1) (fun n => x b m n * Phi nfp b m n theta phi) else 0)).

(** Angular grid points. *)
Definition theta_pt (s : sizes) (l : Z) : R := 2 * PI * IZR l / IZR (sz_nThetaEven s).
Definition phi_pt (s : sizes) (k : Z) : R := 2 * PI * IZR k / IZR (sz_nZeta s) / IZR (sz_nfp s).
(** Position of grid point (k, l) of the [j]-th surface of an array, and of
    coefficient (m, n). *)
Definition at_pt (s : sizes) (j k l : Z) : Z := ((j * sz_nZeta s + k) * sz_nThetaEff s + l)%Z.
Definition at_mn (s : sizes) (j m n : Z) : Z := ((j * sz_mpol s + m) * (sz_ntor s + 1) + n)%Z.

(** Average over the angular grid: integral over theta and phi divided by 4 pi^2
    (trapezoidal rule). *)
Definition grid_avg (s : sizes) (f : Z -> Z -> R) : R :=
  zsum 0 (sz_nZeta s) (fun k => zsum 0 (sz_nThetaEff s) (fun l => sz_wInt s l * f k l)).

(** Grid inner product of a force density (A, B, C) with the basis function of
    kind [b], modes (m, n): A acts on the function, B on its theta derivative and
    -C on its phi derivative. *)
Definition work (s : sizes) (A B C : Z -> Z -> R) (b : bk) (m n : Z) : R :=
  grid_avg s (fun k l => let th := theta_pt s l in let ph := phi_pt s k in let nfp := sz_nfp s in
    A k l * Phi nfp b m n th ph + B k l * Phi_theta nfp b m n th ph - C k l * Phi_phi nfp b m n th ph).

(** Mode numbers for which the basis function of kind [b] is not identically 0. *)
Definition live (b : bk) (m n : Z) : bool :=
  match b with
  | b_cc => true
  | b_ss => negb (m =? 0)%Z && negb (n =? 0)%Z
  | b_sc => negb (m =? 0)%Z
  | b_cs => negb (n =? 0)%Z
  end.
