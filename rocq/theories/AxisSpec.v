(** Specifications for the axis guess. *)
From Coq Require Import ZArith List Bool Reals.
From Coquelicot Require Import Coquelicot.
From Verif Require Import SumLemmas.
Open Scope R_scope.

(** The magnetic axis with coefficients (rc, rs, zs, zc), as a curve. *)
Definition axis_R (lasym : bool) (ntor : Z) (rc rs : Z -> R) (ze : R) : R :=
  zsum 0 (ntor + 1) (fun n => rc n * cos (IZR n * ze)) + (if lasym then zsum 0 (ntor + 1) (fun n => - rs n * sin (IZR n * ze)) else 0).
Definition axis_Z (lasym : bool) (ntor : Z) (zs zc : Z -> R) (ze : R) : R :=
  zsum 0 (ntor + 1) (fun n => - zs n * sin (IZR n * ze)) + (if lasym then zsum 0 (ntor + 1) (fun n => zc n * cos (IZR n * ze)) else 0).

(** [x] lies between two values of [f]. *)
Definition within (f : R -> R) (x : R) : Prop := exists th1 th2, f th1 <= x <= f th2.

(** The point lies in the bounding box of the cross section (Rb, Zb). *)
Definition in_box (Rb Zb : R -> R) (r z : R) : Prop := within Rb r /\ within Zb z.

(** Stellarator-symmetric surface with coefficients c (cos cos / sin cos) and, in
    three dimensions, d (sin sin / cos sin). *)
Definition Rser (l3 : bool) (mpol ntor : Z) (c d : Z -> Z -> R) (th ze : R) : R :=
  zsum 0 mpol (fun m => zsum 0 (ntor + 1) (fun n =>
    c m n * (cos (IZR m * th) * cos (IZR n * ze)) + (if l3 then d m n * (sin (IZR m * th) * sin (IZR n * ze)) else 0))).
Definition Zser (l3 : bool) (mpol ntor : Z) (c d : Z -> Z -> R) (th ze : R) : R :=
  zsum 0 mpol (fun m => zsum 0 (ntor + 1) (fun n =>
    c m n * (sin (IZR m * th) * cos (IZR n * ze)) + (if l3 then d m n * (cos (IZR m * th) * sin (IZR n * ze)) else 0))).

(** Coefficients at normalised toroidal flux w between an axis and a boundary: m = 0
    linear in w, m > 0 proportional to w^(m/2). *)
Definition blend (w : R) (ax : Z -> R) (c : Z -> Z -> R) (m n : Z) : R :=
  if (m =? 0)%Z then w * c m n + (1 - w) * ax n else sqrt w ^ Z.to_nat m * c m n.

(** Jacobian between the boundary (Rb, Zb) and the surface (Rm, Zm) at flux w in one
    cross section, after the axis has been moved from (Ra, Za) to (r, z): R_theta Z_s
    - Z_theta R_s with the theta derivative averaged over the two surfaces. *)
Definition jacobian (sgn w : R) (Rb Zb Rm Zm : R -> R) (Ra Za r z th : R) : R :=
  sgn * ((Derive Rb th + Derive Rm th) / 2 * ((Zb th - Zm th) / (1 - w) + (Za - z))
       - (Derive Zb th + Derive Zm th) / 2 * ((Rb th - Rm th) / (1 - w) + (Ra - r))).

(** Equidistant search grid with 61 points. *)
Definition grid (lo hi : R) (i : Z) : R := lo + IZR i * ((hi - lo) / 60).
