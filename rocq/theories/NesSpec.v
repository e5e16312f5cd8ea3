(** Specification of the vacuum field on the boundary. *)
From Coq Require Import ZArith Reals Bool.
From Verif Require Import SumLemmas SurfSpec.
Open Scope R_scope.

(** Scalar potential on the boundary; t poloidal, p geometric toroidal angle. *)
Definition potential (nfp mf nf : Z) (ps pc : Z -> Z -> R) (t p : R) : R :=
  zsum (- nf) (nf + 1) (fun n => zsum 0 (mf + 1) (fun m =>
    ps m n * sin (IZR m * t - IZR n * (IZR nfp * p)) + pc m n * cos (IZR m * t - IZR n * (IZR nfp * p)))).

(** Cylindrical components of a vector. *)
Definition from_cylindrical (p br bp bz : R) : vec :=
  mkVec (br * cos p - bp * sin p) (br * sin p + bp * cos p) bz.
