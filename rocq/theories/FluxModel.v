(** The magnetic flux profiles of the output file, output_quantities.cc. Exact
    arithmetic. Indices are global: the gathering of the shares of the threads
    is in GatherModel. *)
From Coq Require Import ZArith List Bool Reals.
From Verif Require Import Base ProfileModel.
Open Scope R_scope.

(** fc.deltaS, vmec.cc: the distance of two surfaces in s. *)
Definition deltaS (ns : Z) : R := 1 / (IZR ns - 1).

(** RecomputeToroidalFlux, output_quantities.cc:1887-1902; wout.phi is this
    array (4496). [old] is the zero vector made at 1587 in the code. *)
Definition recomputeToroidalFlux (sign : R) (ns : Z) (phipF old : Z -> R) : Z -> R :=
  let phi := for_up 1 ns (fun jF f => upd f jF (f (jF - 1)%Z + phipF (jF - 1)%Z)) (upd old 0 0) in
  for_up 0 ns (fun jF f => upd f jF (f jF * (sign * 2 * PI * deltaS ns))) phi.

(** chi1 and chi, output_quantities.cc:3300-3316; wout.chi is chi (4497). *)
Definition fluxProfileChi (ns : Z) (phipH iotaH : Z -> R) (old : Z -> R) : (Z -> R) * (Z -> R) :=
  for_up 1 ns (fun jF c =>
    let jHi := (jF - 1)%Z in
    let chi1 := upd (fst c) jF (fst c (jF - 1)%Z + phipH jHi * iotaH jHi * deltaS ns) in
    (chi1, upd (snd c) jF (2 * PI * chi1 jF))) (upd old 0 0, old).

(** phi1, same loop: printed in threed1, not in wout. *)
Definition fluxProfilePhi1 (ns : Z) (phipH : Z -> R) (old : Z -> R) : Z -> R :=
  for_up 1 ns (fun jF f => upd f jF (f (jF - 1)%Z + phipH (jF - 1)%Z * deltaS ns)) (upd old 0 0).

(** chi' on the half grid with prescribed iota, ideal_mhd_model.cc:1848-1857,
    and on the full grid, 1859-1870. With prescribed current the code divides
    (1842-1845), which gives the same relation when phi' is not zero. *)
Definition chipHalf (ns : Z) (phipH iotaH old : Z -> R) : Z -> R :=
  for_up 0 (ns - 1) (fun jH f => upd f jH (iotaH jH * phipH jH)) old.
Definition chipFull (ns : Z) (chipH old : Z -> R) : Z -> R :=
  let f := for_up 1 (ns - 1) (fun jFi f => upd f jFi (1 / 2 * (chipH jFi + chipH (jFi - 1)%Z))) old in
  upd f (ns - 1) (2 * chipH (ns - 2)%Z - chipH (ns - 3)%Z).

(** wout.phipf and wout.chipf, output_quantities.cc:4483-4492. *)
Definition woutDeriv (sign : R) (ns : Z) (xF old : Z -> R) : Z -> R :=
  for_up 0 ns (fun jF f => upd f jF (sign * 2 * PI * xF jF)) old.

(** Vmec::kSignOfJacobian, vmec.h:106. *)
Definition kSignOfJacobian : R := -1.
