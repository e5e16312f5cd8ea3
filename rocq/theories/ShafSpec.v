(** The same plasma in other units of length and field. *)
From Coq Require Import ZArith Reals.
From Verif Require Import GeoModel ShafModel.
Open Scope R_scope.
Definition sc (c : R) (f : Z -> R) : Z -> R := fun i => c * f i.
(** lengths times [L] *)
Definition geo_units (L : R) (g : full_geo) : full_geo :=
  mkGeo (sc L (r_e g)) (sc L (r_o g)) (sc L (z_e g)) (sc L (z_o g)) (sc L (zu_e g)) (sc L (zu_o g))
    (sc L (rv_e g)) (sc L (rv_o g)) (sc L (zv_e g)) (sc L (zv_o g)) (sc L (ruFull g)) (sc L (zuFull g)).
(** fields times [t], pressures times t^2; B^v is a field over a length, the Jacobian a
    volume *)
Definition half_units (L t : R) (h : half_fields) : half_fields :=
  mkHalf (sc (L * L * L) (gsqrt h)) (sc L (r12 h)) (sc (t / L) (bsupv h)) (sc (t * t) (total_pressure h)) (sc (L * L * L) (dVdsH h)) (sc (t * t) (presH h)).
Definition hand_units (L t : R) (d : handover) : handover :=
  mkHand (t * L * rBtor d) (t * L * bSubVVac d) (sc (t * t) (vac_p d)) (sc t (vac_b_phi d)) (t * L * currv d) (L * rcen d).
