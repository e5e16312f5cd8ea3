(** Specification of boundary surfaces as functions of the angles. *)
From Coq Require Import ZArith List Bool Reals.
From Verif Require Import SumLemmas BoundaryModel.
Open Scope R_scope.

(** The surface given by the input file:
    R = sum rbc cos(m th - n ze) + rbs sin(m th - n ze),
    Z = sum zbs sin(m th - n ze) + zbc cos(m th - n ze), the second terms only
    for lasym; m = 0..mpol-1, n = -ntor..ntor; column ntor + n. *)
Definition series_in (mpol ntor : Z) (t : R -> R) (c : Z -> Z -> R) (th ze : R) : R :=
  zsum 0 mpol (fun m => zsum (- ntor) (ntor + 1) (fun n =>
    c m (ntor + n)%Z * t (IZR m * th - IZR n * ze))).
Definition R_input (lasym : bool) (mpol ntor : Z) (id : indata_bdy) (th ze : R) : R :=
  series_in mpol ntor cos (in_rbc id) th ze + (if lasym then series_in mpol ntor sin (in_rbs id) th ze else 0).
Definition Z_input (lasym : bool) (mpol ntor : Z) (id : indata_bdy) (th ze : R) : R :=
  series_in mpol ntor sin (in_zbs id) th ze + (if lasym then series_in mpol ntor cos (in_zbc id) th ze else 0).

(** The surface described by the internal product-basis arrays. *)
Definition series_out (mpol ntor : Z) (t1 t2 : R -> R) (c : Z -> R) (th ze : R) : R :=
  zsum 0 mpol (fun m => zsum 0 (ntor + 1) (fun n =>
    c (m * (ntor + 1) + n)%Z * (t1 (IZR m * th) * t2 (IZR n * ze)))).
Definition R_internal (lasym lthreed : bool) (mpol ntor : Z) (b : bdy) (th ze : R) : R :=
  series_out mpol ntor cos cos (rbcc b) th ze
  + (if lthreed then series_out mpol ntor sin sin (rbss b) th ze else 0)
  + (if lasym then series_out mpol ntor sin cos (rbsc b) th ze
       + (if lthreed then series_out mpol ntor cos sin (rbcs b) th ze else 0) else 0).
Definition Z_internal (lasym lthreed : bool) (mpol ntor : Z) (b : bdy) (th ze : R) : R :=
  series_out mpol ntor sin cos (zbsc b) th ze
  + (if lthreed then series_out mpol ntor cos sin (zbcs b) th ze else 0)
  + (if lasym then series_out mpol ntor cos cos (zbcc b) th ze
       + (if lthreed then series_out mpol ntor sin sin (zbss b) th ze else 0) else 0).

(** Two coefficient sets agree at flat index i in all eight R and Z arrays. *)
Definition same_at (i : Z) (b b' : bdy) : Prop :=
  rbcc b i = rbcc b' i /\ zbsc b i = zbsc b' i /\ rbss b i = rbss b' i /\ zbcs b i = zbcs b' i /\
  rbsc b i = rbsc b' i /\ zbcc b i = zbcc b' i /\ rbcs b i = rbcs b' i /\ zbss b i = zbss b' i.

(** Orientation sum of a boundary: (sum_n R_1n)(sum_n Z_1n), the product of the
    slopes of R along cos and Z along sin at zeta = 0. *)
Definition orientation (ntor : Z) (b : bdy) : R :=
  zsum 0 (ntor + 1) (fun n => rbcc b (ntor + 1 + n)%Z) * zsum 0 (ntor + 1) (fun n => zbsc b (ntor + 1 + n)%Z).
