(** What a refinement of the radial grid should do, without threads. *)
From Coq Require Import ZArith List Bool Reals.
From Verif Require Import Base.
Import ListNotations.
Open Scope Z_scope.

(** [g j]: value of one coefficient on coarse surface [j]. For odd poloidal mode
    number the axis value is replaced by the straight line through the next two
    surfaces. *)
Definition axis_line (odd : bool) (g : Z -> R) (j : Z) : R :=
  if odd && (j =? 0) then (2 * g 1%Z - g 2%Z)%R else g j.

(** Normalised radial position of surface [j] out of [ns]. *)
Definition pos (ns j : Z) : R := (IZR j / IZR (ns - 1))%R.

(** Values of a polynomial of degree at most 3. *)
Definition cubic (a b c d x : R) : R := (a + b * x + c * (x * x) + d * (x * x * x))%R.
