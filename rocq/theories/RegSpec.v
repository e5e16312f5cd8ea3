(** Specification of the regularised Green's function of the vacuum problem. *)
From Coq Require Import ZArith Reals Bool.
From Verif Require Import SurfSpec.
Open Scope R_scope.

Definition vadd (a b : vec) : vec := mkVec (vx a + vx b) (vy a + vy b) (vz a + vz b).
Definition vsub (a b : vec) : vec := mkVec (vx a - vx b) (vy a - vy b) (vz a - vz b).
Definition dist2 (a b : vec) : R := dot (vsub a b) (vsub a b).

(** Potential at the surface point (t, p) of a unit charge, and of a unit dipole
    along the normal, at the surface point (t', p'). *)
Definition charge (F : R -> R -> vec) (t p t' p' : R) : R := / sqrt (dist2 (F t p) (F t' p')).
Definition dipole (sign : R) (F : R -> R -> vec) (t p t' p' : R) : R :=
  dot (vsub (F t p) (F t' p')) (normal sign F t' p') / (dist2 (F t p) (F t' p') * sqrt (dist2 (F t p) (F t' p'))).

(** 2 tan (d/2), a periodic stand-in for the angle d; the pole is replaced by a
    large number. *)
Definition hat (d : R) : R := if Req_EM_T (cos (d / 2)) 0 then 10 ^ 50 else 2 * tan (d / 2).

(** Second-order expansion of the surface at (t', p') in the displacement
    (u, v / per), where [per] converts the toroidal variable to the geometric
    angle. *)
Definition near_dist2 (F : R -> R -> vec) (per t' p' u v : R) : R :=
  let w := vadd (scale u (d_t F t' p')) (scale (v / per) (d_p F t' p')) in dot w w.
Definition near_lift (sign : R) (F : R -> R -> vec) (per t' p' u v : R) : R :=
  let w := vadd (vadd (scale (u * u / 2) (d_t (d_t F) t' p')) (scale (u * (v / per)) (d_p (d_t F) t' p')))
                (scale (v / per * (v / per) / 2) (d_p (d_p F) t' p')) in
  dot w (normal sign F t' p').
Definition near_charge (F : R -> R -> vec) (per t' p' u v : R) : R := / sqrt (near_dist2 F per t' p' u v).
Definition near_dipole (sign : R) (F : R -> R -> vec) (per t' p' u v : R) : R :=
  / sqrt (near_dist2 F per t' p' u v) * (near_lift sign F per t' p' u v / near_dist2 F per t' p' u v).
