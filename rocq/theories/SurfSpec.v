(** Specification of the boundary surface geometry in Cartesian space, with
    genuine partial derivatives. [t] is the poloidal angle, [p] the geometric
    toroidal angle. *)
From Coq Require Import ZArith Reals Bool.
From Coquelicot Require Import Coquelicot.
From Verif Require Import SumLemmas FourierSpec SurfModel.
Open Scope R_scope.

(** A Fourier series with product basis; coefficients indexed by (m, n) and
    normalised by sqrt 2 for every non-zero mode number. *)
Definition series (nfp mpol ntor : Z) (cc ss sc cs : Z -> Z -> R) (t p : R) : R :=
  zsum 0 (ntor + 1) (fun n => zsum 0 mpol (fun m => s2 m * s2 n *
    (cc m n * cos (IZR m * t) * cos (IZR (n * nfp) * p) + ss m n * sin (IZR m * t) * sin (IZR (n * nfp) * p)
     + sc m n * sin (IZR m * t) * cos (IZR (n * nfp) * p) + cs m n * cos (IZR m * t) * sin (IZR (n * nfp) * p)))).

Record vec := mkVec { vx : R; vy : R; vz : R }.
Definition dot (a b : vec) : R := vx a * vx b + vy a * vy b + vz a * vz b.
Definition cross (a b : vec) : vec :=
  mkVec (vy a * vz b - vz a * vy b) (vz a * vx b - vx a * vz b) (vx a * vy b - vy a * vx b).
Definition scale (c : R) (a : vec) : vec := mkVec (c * vx a) (c * vy a) (c * vz a).

(** Partial derivatives of a vector field on the surface. *)
Definition d_t (F : R -> R -> vec) (t p : R) : vec :=
  mkVec (Derive (fun u => vx (F u p)) t) (Derive (fun u => vy (F u p)) t) (Derive (fun u => vz (F u p)) t).
Definition d_p (F : R -> R -> vec) (t p : R) : vec :=
  mkVec (Derive (fun u => vx (F t u)) p) (Derive (fun u => vy (F t u)) p) (Derive (fun u => vz (F t u)) p).

(** The surface given by R(t, p) and Z(t, p), in Cartesian coordinates, and the
    cylindrical unit vectors. *)
Definition surface (Rs Zs : R -> R -> R) (t p : R) : vec :=
  mkVec (Rs t p * cos p) (Rs t p * sin p) (Zs t p).
Definition e_R (p : R) : vec := mkVec (cos p) (sin p) 0.
Definition e_phi (p : R) : vec := mkVec (- sin p) (cos p) 0.
Definition e_Z : vec := mkVec 0 0 1.

(** Normal vector, oriented by [sign]. *)
Definition normal (sign : R) (F : R -> R -> vec) (t p : R) : vec :=
  scale sign (cross (d_p F t p) (d_t F t p)).

(** The boundary surface that a coefficient set describes. *)
Definition boundary (lasym : bool) (nfp mpol ntor : Z) (X : coef -> Z -> R) : R -> R -> vec :=
  let coefs x m n := X x (n * mpol + m)%Z in
  let asym x := if lasym then coefs x else fun _ _ => 0 in
  surface (series nfp mpol ntor (coefs rCC) (coefs rSS) (asym rSC) (asym rCS))
          (series nfp mpol ntor (asym zCC) (asym zSS) (coefs zSC) (coefs zCS)).
