(** Physics the response table and coil fields are measured against. *)
From Coq Require Import ZArith Reals List Lra.
From Verif Require Import Base Num MgridModel MgridSpec MakegridModel.
Import ListNotations.
Open Scope R_scope.

Definition R3 : Type := R * R * R.
Definition cx (v : R3) := fst (fst v).
Definition cy (v : R3) := snd (fst v).
Definition cz (v : R3) := snd v.

(** The real functions behind libm. *)
Definition libm_R (mu : R) : libm num_R :=
  mkLibm num_R cos sin PI (fun x y z => sqrt (x * x + y * y + z * z)) mu.

(** Rotation about the z axis; half turn about the x axis. *)
Definition rot (a : R) (v : R3) : R3 := (cx v * cos a - cy v * sin a, cx v * sin a + cy v * cos a, cz v).
Definition flip (v : R3) : R3 := (cx v, - cy v, - cz v).

(** A field with [nfp] periods and stellarator symmetry: under the half turn the
    field goes over into its negative. *)
Definition symmetric_field (nfp : Z) (F : R3 -> R3) : Prop :=
  (forall x, F (flip x) = (- cx (F x), cy (F x), cz (F x))) /\
  (forall x, F (rot (2 * PI / IZR nfp) x) = rot (2 * PI / IZR nfp) (F x)).

(** Cylindrical components (R, phi, Z) at toroidal angle [a] of a Cartesian vector. *)
Definition cylindrical (a : R) (b : R3) : R3 := (cx b * cos a + cy b * sin a, cy b * cos a - cx b * sin a, cz b).

(** Grid point of plane [k] (of [n] planes per period), row [j], column [i]. *)
Definition angle (nfp nphi k : Z) : R := IZR k * (2 * PI / IZR (nfp * nphi)).
Definition place (p : params num_R) (k j i : Z) : R3 :=
  let r := grid_node (p_minr p) (p_maxr p) (num_r p) i in
  let z := grid_node (p_minz p) (p_maxz p) (num_z p) j in
  let a := angle (nfp p) (num_phi p) k in (r * cos a, r * sin a, z).

(** Vector algebra. *)
Definition dot (a b : R3) : R := cx a * cx b + cy a * cy b + cz a * cz b.
Definition cross (a b : R3) : R3 := (cy a * cz b - cz a * cy b, cz a * cx b - cx a * cz b, cx a * cy b - cy a * cx b).
Definition vsub (a b : R3) : R3 := (cx a - cx b, cy a - cy b, cz a - cz b).
Definition vscale (s : R) (a : R3) : R3 := (s * cx a, s * cy a, s * cz a).
Definition plus3 (a b : R3) : R3 := (cx a + cx b, cy a + cy b, cz a + cz b).
Definition norm2 (a : R3) : R := dot a a.

(** Ampere's law for a straight wire through [o] along [d] (not necessarily of
    unit length), with [x] off the wire: mu0 I / (2 pi) (d x rho) / (|d| |rho|^2),
    [rho] the part of [x - o] perpendicular to [d]; |rho|^2 = |d x (x-o)|^2 / |d|^2. *)
Definition wire (mu cur : R) (o d x : R3) : R3 :=
  let c := cross d (vsub x o) in
  vscale (mu * cur / (2 * PI) * sqrt (norm2 d) / norm2 c) c.
