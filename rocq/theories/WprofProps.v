(** C119: relations between the radial profiles of the wout file; C120: its energy trace. *)
From Coq Require Import ZArith List Reals Lia Lra.
From Verif Require Import Base SizesModel JxbModel TableModel TableSpec WprofModel WprofSpec WprofProofs TableMain JxbMain.
Import ListNotations.
Open Scope R_scope.

Theorem C119_half_grid : forall ns H, (1 <= ns)%Z -> w_shifted ns H 0 = 0 /\ forall j, (1 <= j < ns)%Z -> w_shifted ns H j = H (j - 1)%Z /\ w_shifted_per_mu0 ns H j = H (j - 1)%Z / MU_0.
Proof. intros ns H N. split; [exact (shifted_0 ns H N)|]. intros j J. split; [exact (shifted_at ns H j J)|exact (shifted_mu_at ns H j J)]. Qed.
Print Assumptions C119_half_grid.

Theorem C119_q : forall ns big iotaf j, (0 <= j < ns)%Z ->
  (iotaf j <> 0 -> q_factor ns big iotaf j * iotaf j = 1) /\ (iotaf j = 0 -> q_factor ns big iotaf j = big).
Proof. exact q_ok. Qed.
Print Assumptions C119_q.

Theorem C119_ampere : forall s ns sgn ds bsubu bsubv, (3 <= ns)%Z -> forall j, (1 <= j < ns - 1)%Z -> ds <> 0 ->
  w_per_mu0 ns (jcurv s ns sgn ds bsubu) j * MU_0 * ds = sgn * (w_shifted ns (bucoH s bsubu) (j + 1) - w_shifted ns (bucoH s bsubu) j) /\
  w_per_mu0 ns (jcuru s ns sgn ds bsubv) j * MU_0 * ds = - (sgn * (w_shifted ns (bvcoH s bsubv) (j + 1) - w_shifted ns (bvcoH s bsubv) j)).
Proof. intros s ns sgn ds bsubu bsubv N. apply rel_ampere. Qed.
Print Assumptions C119_ampere.

Theorem C119_presf : forall ns presH, (3 <= ns)%Z -> forall j, (1 <= j < ns - 1)%Z ->
  w_per_mu0 ns (presf ns presH) j = (w_shifted_per_mu0 ns presH j + w_shifted_per_mu0 ns presH (j + 1)) / 2.
Proof. intros ns presH N. apply rel_presf. Qed.
Print Assumptions C119_presf.

(** the radial force column from chipf, phipf, jcuru, jcurv, pres and vp of the same file *)
Theorem C119_force : forall s ns sgn ds presH dVdsH chipF phipF bsubu bsubv, (3 <= ns)%Z -> forall j, (1 <= j < ns - 1)%Z -> ds <> 0 -> sgn = 1 \/ sgn = -1 ->
  let pres := w_shifted_per_mu0 ns presH in let vp := w_shifted ns dVdsH in
  vp j + vp (j + 1)%Z <> 0 ->
  let x := w_flux_deriv ns sgn chipF j * w_per_mu0 ns (jcurv s ns sgn ds bsubu) j in
  let y := - (w_flux_deriv ns sgn phipF j * w_per_mu0 ns (jcuru s ns sgn ds bsubv) j) in
  let z := sgn * (2 * PI) * ((pres (j + 1)%Z - pres j) / ds) * ((vp j + vp (j + 1)%Z) / 2) in
  Rabs x + Rabs y + Rabs z <> 0 ->
  radial_force s ns sgn ds presH dVdsH chipF phipF bsubu bsubv j = sgn * (x + y + z) / (Rabs x + Rabs y + Rabs z).
Proof. exact rel_force. Qed.
Print Assumptions C119_force.

(** chi: its increments are signgs times iota times the increments of the toroidal flux *)
Theorem C119_chi : forall ns sgn ds phipH iotaH, (3 <= ns)%Z -> sgn = 1 \/ sgn = -1 -> forall j, (1 <= j < ns)%Z ->
  chi ns ds phipH iotaH j - chi ns ds phipH iotaH (j - 1) =
  sgn * (w_shifted ns iotaH j * (toroidal_flux ns sgn ds phipH iotaH j - toroidal_flux ns sgn ds phipH iotaH (j - 1))).
Proof. exact chi_relation. Qed.
Print Assumptions C119_chi.

(** so with the sign -1 of this program chi decreases although iota, chipf and the toroidal flux increments are positive *)
Theorem C119_chi_sign_refuted : exists phipH iotaH chipF : Z -> R,
  (forall j, (0 <= j < 5)%Z -> chipF j = phipH j * iotaH j) /\
  (forall j, (1 <= j < 5)%Z -> 0 < toroidal_flux 5 (-1) (/ 4) phipH iotaH j - toroidal_flux 5 (-1) (/ 4) phipH iotaH (j - 1)) /\
  (forall j, (1 <= j < 5)%Z -> 0 < w_shifted 5 iotaH j /\ 0 < w_flux_deriv 5 (-1) chipF j) /\
  forall j, (1 <= j < 5)%Z -> chi 5 (/ 4) phipH iotaH j - chi 5 (/ 4) phipH iotaH (j - 1) < 0.
Proof. exact chi_bad. Qed.
Print Assumptions C119_chi_sign_refuted.

Theorem C120_first_piece_partial : forall n a rest E i, pieces n (a :: rest) -> (0 <= i <= a)%Z -> wdot (a :: rest) E i = relative_change E i.
Proof. exact first_piece. Qed.
Print Assumptions C120_first_piece_partial.

(** however the assignment is cut into pieces, if there are at least two, a constant energy is
    reported with relative change 1 at the first coefficient of the second piece *)
Theorem C120_wdot_refuted : forall n a b rest, pieces n (a :: b :: rest) ->
  relative_change (fun _ => 1) (a + 1) = 0 /\ wdot (a :: b :: rest) (fun _ => 1) (a + 1) = 1.
Proof. exact wdot_constant_bad. Qed.
Print Assumptions C120_wdot_refuted.

(** in general the previous relative change is subtracted instead of the previous energy *)
Theorem C120_second_piece : forall n a b rest E, pieces n (a :: b :: rest) -> wdot (a :: b :: rest) E (a + 1) = (E (a + 1)%Z - relative_change E a) / E (a + 1)%Z.
Proof. exact second_piece. Qed.
Print Assumptions C120_second_piece.

(** coefficient by coefficient, and a packet of two after one peeled coefficient *)
Example C120_case : pieces 5 [1; 1; 1; 1]%Z /\ pieces 6 [1; 2; 2]%Z /\
  wdot [1; 1; 1; 1]%Z (fun _ => 1) 2 = 1 /\ wdot [1; 1; 1; 1]%Z (fun _ => 1) 3 = 0 /\ wdot [1; 1; 1; 1]%Z (fun _ => 1) 4 = 1.
Proof.
  split; [split; [repeat constructor; lia|reflexivity]|]. split; [split; [repeat constructor; lia|reflexivity]|].
  unfold wdot. cbn. unfold wdot_piece. cbn. repeat split; lra.
Qed.
Example C119_case : exists (ns : Z) (ds sgn : R) (presH dVdsH : Z -> R), (3 <= ns)%Z /\ ds <> 0 /\ sgn = -1 /\
  w_shifted ns dVdsH 1 + w_shifted ns dVdsH 2 <> 0 /\ (w_shifted_per_mu0 ns presH 2 - w_shifted_per_mu0 ns presH 1) <> 0.
Proof.
  exists 5%Z, (/ 4), (-1), (fun j => - IZR j), (fun _ => 1). pose proof mu_pos. split; [lia|]. split; [lra|]. split; [reflexivity|].
  rewrite !shifted_at, !shifted_mu_at by lia. split; [lra|]. cbn. intros Q. apply Rmult_eq_compat_r with (r := MU_0) in Q. field_simplify in Q; lra.
Qed.
