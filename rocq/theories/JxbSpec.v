(** Vectors of a flux coordinate system at one point: [es], [eu], [ev] are the
    tangent vectors in s, theta and zeta. *)
From Coq Require Import ZArith Reals.
From Verif Require Import SizesModel SumLemmas SurfSpec DftSpec.
Open Scope R_scope.

Record frame := mkFrame { es : vec; eu : vec; ev : vec }.
Definition vplus (a b : vec) : vec := mkVec (vx a + vx b) (vy a + vy b) (vz a + vz b).
(** Jacobian and gradient of s. *)
Definition jac (f : frame) : R := dot (es f) (cross (eu f) (ev f)).
Definition grad_s (f : frame) : vec := scale (/ jac f) (cross (eu f) (ev f)).
(** A field tangential to the surface with contravariant components (bu, bv). *)
Definition field (f : frame) (bu bv : R) : vec := vplus (scale bu (eu f)) (scale bv (ev f)).
(** The current density across [B] that balances the pressure gradient p' grad s:
    J x B = grad p, J . B = 0. *)
Definition j_perp (f : frame) (B : vec) (dp : R) : vec := scale (dp / dot B B) (cross B (grad_s f)).
(** Flux surface average of [a] for the differential volume V' (over 4 pi^2) of a
    coordinate system whose Jacobian has the given sign. *)
Definition fsa (s : sizes) (sign dV : R) (F : Z -> Z -> frame) (a : Z -> Z -> R) : R :=
  sign / dV * grid_avg s (fun k l => jac (F k l) * a k l).

(** A state near one full-grid surface: both half-grid surfaces next to it carry
    the frames [F], the tangential field (bu, bv) and the pressures p_in, p_out
    (times mu_0), so that interpolation between them is exact. *)
Record local_state := mkLocal { ls_F : Z -> Z -> frame; ls_bu : Z -> Z -> R; ls_bv : Z -> Z -> R }.
Definition ls_B (L : local_state) (k l : Z) : vec := field (ls_F L k l) (ls_bu L k l) (ls_bv L k l).
