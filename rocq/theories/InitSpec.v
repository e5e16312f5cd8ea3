(** Specification of the initial guess: nested surfaces between the given axis and
    the given boundary. *)
From Coq Require Import ZArith Bool Reals.
From Verif Require Import SumLemmas BoundaryModel AxisSpec.
Open Scope R_scope.

(** The terms of poloidal mode number [m] of a boundary. *)
Definition row_out (ntor : Z) (t1 t2 : R -> R) (c : Z -> R) (th ze : R) (m : Z) : R :=
  zsum 0 (ntor + 1) (fun n => c (m * (ntor + 1) + n)%Z * (t1 (IZR m * th) * t2 (IZR n * ze))).
Definition R_mode (lasym lthreed : bool) (ntor : Z) (b : bdy) (th ze : R) (m : Z) : R :=
  row_out ntor cos cos (rbcc b) th ze m + (if lthreed then row_out ntor sin sin (rbss b) th ze m else 0)
  + (if lasym then row_out ntor sin cos (rbsc b) th ze m + (if lthreed then row_out ntor cos sin (rbcs b) th ze m else 0) else 0).
Definition Z_mode (lasym lthreed : bool) (ntor : Z) (b : bdy) (th ze : R) (m : Z) : R :=
  row_out ntor sin cos (zbsc b) th ze m + (if lthreed then row_out ntor cos sin (zbcs b) th ze m else 0)
  + (if lasym then row_out ntor cos cos (zbcc b) th ze m + (if lthreed then row_out ntor sin sin (zbss b) th ze m else 0) else 0).

(** The radial law: m = 0 is interpolated linearly in s between axis and boundary,
    mode m > 0 grows like the m-th power of the minor radius sqrt(s). *)
Definition weight (rho : R) (m : Z) : R := if (m =? 0)%Z then rho * rho else rho ^ Z.to_nat m.
Definition guess_R (lasym lthreed : bool) (mpol ntor : Z) (b : bdy) (rc rs : Z -> R) (rho th ze : R) : R :=
  zsum 0 mpol (fun m => weight rho m * R_mode lasym lthreed ntor b th ze m) + (1 - rho * rho) * axis_R lasym ntor rc rs ze.
Definition guess_Z (lasym lthreed : bool) (mpol ntor : Z) (b : bdy) (zs zc : Z -> R) (rho th ze : R) : R :=
  zsum 0 mpol (fun m => weight rho m * Z_mode lasym lthreed ntor b th ze m) + (1 - rho * rho) * axis_Z lasym ntor zs zc ze.
