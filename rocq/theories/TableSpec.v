(** What the columns of the radial table mean. *)
From Coq Require Import ZArith Reals.
From Verif Require Import Base SumLemmas SizesModel.
Open Scope R_scope.

(** flux-surface sum of a half-grid field with the angular weights *)
Definition surf_sum (s : sizes) (f : Z -> R) (jH : Z) : R :=
  zsum 0 (sz_nZnT s) (fun kl => f (jH * sz_nZnT s + kl)%Z * sz_wInt s (kl mod sz_nThetaEff s)%Z).
(** difference quotient and mean across full-grid surface jF *)
Definition slope (ds : R) (H : Z -> R) (jF : Z) : R := (H jF - H (jF - 1)%Z) / ds.
Definition across (H : Z -> R) (jF : Z) : R := (H jF + H (jF - 1)%Z) / 2.
(** flux-surface averaged force balance: three terms *)
Definition force_terms (s : sizes) (sgn ds : R) (presH dVdsH chip phip bsubu bsubv : Z -> R) (jF : Z) : R * R * R :=
  (chip jF * (sgn * slope ds (surf_sum s bsubu) jF), phip jF * (sgn * slope ds (surf_sum s bsubv) jF), slope ds presH jF * across dVdsH jF).
(** affine continuation at both ends of a full-grid profile *)
Definition continued (ns : Z) (f : Z -> R) : Prop :=
  f 0%Z = 2 * f 1%Z - f 2%Z /\ f (ns - 1)%Z = 2 * f (ns - 2)%Z - f (ns - 3)%Z.
(** half-grid and full-grid samples of the affine function a + b j *)
Definition affine_half (ns : Z) (a b : R) (H : Z -> R) : Prop := forall jH, (0 <= jH < ns - 1)%Z -> H jH = a + b * (IZR jH + / 2).
