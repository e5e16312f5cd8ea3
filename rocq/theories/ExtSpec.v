(** Specification of the external field: coils plus the Biot-Savart field of a
    closed polygon along the magnetic axis. *)
From Coq Require Import ZArith Reals Bool.
From Coquelicot Require Import Coquelicot.
From Verif Require Import SumLemmas SurfSpec RegSpec.
Open Scope R_scope.

(** Vertex j of the axis polygon with [per] copies of nz points; the radius and
    height of the axis have period nz in j. *)
Definition axis_vertex (nz per : Z) (rAxis zAxis : Z -> R) (j : Z) : vec :=
  let phi := 2 * PI * IZR j / (IZR per * IZR nz) in
  let k := (j mod nz)%Z in
  mkVec (rAxis k * cos phi) (rAxis k * sin phi) (zAxis k).

Definition mu0 : R := 4 * PI * (1 / 10 ^ 7).

(** Biot-Savart integral of the straight segment from [a] to [b] carrying a
    unit current, at the point x. *)
Definition segment_field (a b x : vec) : vec :=
  let d := vsub b a in
  let r u := vsub x (vadd a (scale u d)) in
  let comp (pr : vec -> R) := RInt (fun u => pr (cross d (r u)) / (sqrt (dot (r u) (r u))) ^ 3) 0 1 in
  scale (mu0 / (4 * PI)) (mkVec (comp vx) (comp vy) (comp vz)).

(** The point x is not on the segment. *)
Definition off_segment (a b x : vec) : Prop :=
  forall u, 0 <= u <= 1 -> x <> vadd a (scale u (vsub b a)).

(** Field of the closed polygon with N vertices [v 0 .. v (N - 1)]. *)
Definition polygon_field (current : R) (N : Z) (v : Z -> vec) (x : vec) : vec :=
  let comp (pr : vec -> R) := current * zsum 0 N (fun i => pr (segment_field (v i) (v ((i + 1) mod N)%Z) x)) in
  mkVec (comp vx) (comp vy) (comp vz).

(** A vector with the cylindrical components br, bp, bz at toroidal angle p, and
    the total external field: coils plus axis current. *)
Definition cyl_vec (p br bp bz : R) : vec := vadd (scale br (e_R p)) (vadd (scale bp (e_phi p)) (scale bz e_Z)).
Definition total_field (current : R) (N : Z) (v : Z -> vec) (x : vec) (p br bp bz : R) : vec :=
  vadd (polygon_field current N v x) (cyl_vec p br bp bz).
