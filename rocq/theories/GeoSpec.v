(** Specification of the geometric quantities of a toroidal surface
    (R(theta, phi), Z(theta, phi)), phi the toroidal angle. *)
From Coq Require Import ZArith Reals.
From Coquelicot Require Import Coquelicot.
Open Scope R_scope.

(** Area enclosed by the cross section at phi (Green's theorem), with sign. *)
Definition section_area (Rb Zb : R -> R -> R) (phi : R) : R :=
  RInt (fun th => Rb th phi * Derive (fun y => Zb y phi) th) 0 (2 * PI).
(** Its average over the toroidal angle. *)
Definition mean_area (Rb Zb : R -> R -> R) : R := Rabs (RInt (section_area Rb Zb) 0 (2 * PI)) / (2 * PI).
(** Enclosed volume: the integral of R over the cross section, integrated over phi. *)
Definition section_moment (Rb Zb : R -> R -> R) (phi : R) : R :=
  RInt (fun th => Rb th phi * Rb th phi / 2 * Derive (fun y => Zb y phi) th) 0 (2 * PI).
Definition volume (Rb Zb : R -> R -> R) : R := Rabs (RInt (section_moment Rb Zb) 0 (2 * PI)).
