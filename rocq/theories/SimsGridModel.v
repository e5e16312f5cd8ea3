(** Radial grids and scalar results of the SIMSOPT wrapper, simsopt_compat.py,
    over the real numbers.  Arrays are functions of the index; a negative index of
    Python counts from the end. *)
From Coq Require Import Reals List Arith.
Open Scope R_scope.

(** np.linspace(0, 1, ns) *)
Definition linspace01 (ns j : nat) : R := INR j / INR (ns - 1).
(** _set_grid, 287-292 *)
Definition s_full_grid (ns : nat) : nat -> R := linspace01 ns.
Definition grid_ds (ns : nat) : R := s_full_grid ns 1 - s_full_grid ns 0.
Definition s_half_grid (ns : nat) (i : nat) : R := s_full_grid ns (i + 1) - / 2 * grid_ds ns.
Fixpoint rsum (n : nat) (f : nat -> R) : R := match n with O => 0 | S n => rsum n f + f n end.
(** np.mean(wout.iotas[1:]), 318-325 *)
Definition mean_iota (ns : nat) (iotas : nat -> R) : R := rsum (ns - 1) (fun i => iotas (i + 1)%nat) / INR (ns - 1).
(** vacuum_well, 370-408; [g] is gmnc[0, :] *)
Definition vacuum_well (ns : nat) (g : nat -> R) : R :=
  let dVds i := 4 * PI * PI * Rabs (g (i + 1)%nat) in
  let n := (ns - 1)%nat in
  let dVds_s0 := 15 / 10 * dVds 0%nat - 5 / 10 * dVds 1%nat in
  let dVds_s1 := 15 / 10 * dVds (n - 1)%nat - 5 / 10 * dVds (n - 2)%nat in
  (dVds_s0 - dVds_s1) / dVds_s0.
(** external_current, 410-424 *)
Definition external_current (ns : nat) (bvco : nat -> R) : R :=
  let b := bvco (ns - 1)%nat * (15 / 10) - bvco (ns - 2)%nat * (5 / 10) in
  let mu0 := 4 * PI * (1 / 10 ^ 7) in
  2 * PI * b / mu0.
