(** What the projected singular integrals should be: Fourier integrals over the
    grid points [lo, hi) of one thread (or of all threads, lo = 0). Grid point kl
    has poloidal angle 2 pi (kl / nZeta) / nTheta and toroidal angle
    2 pi (kl mod nZeta) / nZeta. *)
From Coq Require Import ZArith Reals Bool.
From Verif Require Import SumLemmas.
Open Scope R_scope.

(** Phase of the mode (m, n) at grid point kl. *)
Definition mode_phase (nTheta nZeta m n kl : Z) : R :=
  IZR m * (2 * PI * IZR (kl / nZeta) / IZR nTheta) - IZR n * (2 * PI * IZR (kl mod nZeta) / IZR nZeta).

(** The integrals of the two signs belong to n > 0 and n < 0. Modes with m = 0
    or n = 0 take their sum; the redundant modes m = 0, n < 0 are left out. *)
Definition by_sign (m n : Z) (plus minus : R) : R :=
  if ((m =? 0) || (n =? 0))%Z%bool then if (n <? 0)%Z then 0 else plus + minus
  else if (0 <? n)%Z then plus else minus.

(** Source term of mode (m, n): coefficients [C l |n| m], weights [w] per
    poloidal index, normal field [bn], integrals [Tp], [Tm] of orders 0 .. L. *)
Definition mode_source (trig : R -> R) (nTheta nZeta L : Z) (C : Z -> Z -> Z -> R) (w bn : Z -> R)
  (Tp Tm : Z -> Z -> R) (lo hi m n : Z) : R :=
  zsum 0 (L + 1) (fun l => zsum lo hi (fun kl =>
    C l (Z.abs n) m * by_sign m n (Tp l kl) (Tm l kl) * bn kl * w (kl / nZeta)%Z
    * trig (mode_phase nTheta nZeta m n kl))).

(** Kernel of mode (m, n) at the grid point kl. *)
Definition mode_kernel (trig : R -> R) (nTheta nZeta L : Z) (C : Z -> Z -> Z -> R)
  (Sp Sm : Z -> Z -> R) (kl m n : Z) : R :=
  zsum 0 (L + 1) (fun l =>
    C l (Z.abs n) m * by_sign m n (Sp l kl) (Sm l kl) * trig (mode_phase nTheta nZeta m n kl)).
