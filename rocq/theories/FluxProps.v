(** Property theorems C91 and C92: the flux profiles of the output file. *)
From Coq Require Import ZArith List Bool Reals Lra Lia.
From Verif Require Import Base BaseLemmas SumLemmas ProfileModel PolyProofs FluxModel FluxSpec FluxProofs FluxFinal.
Import ListNotations.
Open Scope R_scope.

(** C91: the toroidal flux array of the output file is the enclosed flux, which
    is phiedge at the boundary. *)
Definition reported_phi (sign phiedge : R) (aphi : list R) (ns : Z) (g : grid_in) : Z -> R :=
  recomputeToroidalFlux sign ns (phipF g ns) (fun _ => 0).
(** The run [g] has the flux profile [aphi] and the edge flux [phiedge]. *)
Definition flux_of (sign phiedge : R) (aphi : list R) (g : grid_in) : Prop :=
  gi_mtf g = maxToroidalFlux sign phiedge aphi /\ gi_aphi g = aphi.

(** It is false in general: with the flux profile s^2 the last entry is
    phiedge (ns - 2) / (ns - 1). *)
Theorem C91_edge_refuted : exists aphi, torflux aphi 1 = 1 /\
  forall sign phiedge ns g, sign * sign = 1 -> phiedge <> 0 -> (2 <= ns)%Z -> flux_of sign phiedge aphi g ->
    reported_phi sign phiedge aphi ns g (ns - 1) = phiedge * (IZR ns - 2) / (IZR ns - 1) /\
    reported_phi sign phiedge aphi ns g (ns - 1) <> phiedge.
Proof. exact edge_refuted. Qed.
Print Assumptions C91_edge_refuted.

(** What holds: it is exact when the flux label is linear in s, and for every
    profile the error is at most the Lipschitz constant of the flux derivative
    over the number of intervals. *)
Theorem C91_uniform_partial sign phiedge aphi ns g : sign * sign = 1 -> (2 <= ns)%Z ->
  torflux aphi 1 <> 0 -> (forall x, torflux aphi x = x * torflux aphi 1) -> flux_of sign phiedge aphi g ->
  enclosed ns phiedge (torflux aphi) (reported_phi sign phiedge aphi ns g) /\
  reported_phi sign phiedge aphi ns g (ns - 1) = phiedge.
Proof. intros H1 H2 H3 H4 (G1 & G2). exact (uniform sign phiedge aphi ns g H1 H2 H3 H4 G1 G2). Qed.
Print Assumptions C91_uniform_partial.
Theorem C91_error_partial sign phiedge aphi ns g L j : sign * sign = 1 -> (2 <= ns)%Z -> (0 <= j < ns)%Z ->
  torflux aphi 1 <> 0 -> flux_of sign phiedge aphi g ->
  (forall x y, 0 <= x <= 1 -> 0 <= y <= 1 -> Rabs (torfluxDeriv aphi x - torfluxDeriv aphi y) <= L * Rabs (x - y)) ->
  Rabs (reported_phi sign phiedge aphi ns g j - phiedge * (torflux aphi (pos ns j) / torflux aphi 1))
    <= Rabs (phiedge / torflux aphi 1) * L * pos ns j / (IZR ns - 1).
Proof. intros H1 H2 H3 H4 (G1 & G2). exact (flux_error sign phiedge aphi ns g L j H1 H2 H3 H4 G1 G2). Qed.
Print Assumptions C91_error_partial.
Example C91_case : torflux [1] 1 <> 0 /\ (forall x, torflux [1] x = x * torflux [1] 1) /\
  (forall x y, 0 <= x <= 1 -> 0 <= y <= 1 -> Rabs (torfluxDeriv [0; 1] x - torfluxDeriv [0; 1] y) <= 2 * Rabs (x - y)).
Proof. exact flux_case. Qed.

(** C92: the array chipf is the radial derivative of the array chi, for the
    sign of the Jacobian the program uses. *)
Definition reported_chi (ns : Z) (phipH iotaH : Z -> R) : Z -> R := snd (fluxProfileChi ns phipH iotaH (fun _ => 0)).
Definition reported_chipf (sign : R) (ns : Z) (phipH iotaH chipH0 chipF0 : Z -> R) : Z -> R :=
  woutDeriv sign ns (chipFull ns (chipHalf ns phipH iotaH chipH0) chipF0) (fun _ => 0).

(** It is false: the sign is the opposite one on every surface whenever chipf is not zero. *)
Theorem C92_sign_refuted ns phipH iotaH chipH0 chipF0 j : (0 < j < ns - 1)%Z ->
  let chipf := reported_chipf kSignOfJacobian ns phipH iotaH chipH0 chipF0 in
  (reported_chi ns phipH iotaH (j + 1)%Z - reported_chi ns phipH iotaH (j - 1)%Z) / (pos ns (j + 1) - pos ns (j - 1)) = - chipf j /\
  (chipf j <> 0 -> ~ radial_derivative ns (reported_chi ns phipH iotaH) chipf).
Proof. exact (sign_refuted ns phipH iotaH chipH0 chipF0 j). Qed.
Print Assumptions C92_sign_refuted.
(** What holds: chi would be the integral of chipf for a positive Jacobian, and
    with the sign as a factor for either; chi starts from zero on the axis. *)
Theorem C92_up_to_sign_partial sign ns phipH iotaH chipH0 chipF0 : sign * sign = 1 ->
  radial_derivative ns (fun j => sign * reported_chi ns phipH iotaH j) (reported_chipf sign ns phipH iotaH chipH0 chipF0) /\
  reported_chi ns phipH iotaH 0 = 0.
Proof. exact (up_to_sign sign ns phipH iotaH chipH0 chipF0). Qed.
Print Assumptions C92_up_to_sign_partial.
(** The toroidal flux array does not have the defect: its forward differences
    are phipf, so that chi and phi advance in the ratio minus iota. *)
Theorem C92_ratio_partial sign ns phip iotaH j : sign * sign = 1 -> (0 <= j < ns - 1)%Z ->
  let phi := recomputeToroidalFlux sign ns (fun _ => phip) (fun _ => 0) in
  let chi := reported_chi ns (fun _ => phip) iotaH in
  (phi (j + 1)%Z - phi j) / (pos ns (j + 1) - pos ns j) = woutDeriv sign ns (fun _ => phip) (fun _ => 0) j /\
  chi (j + 1)%Z - chi j = sign * iotaH j * (phi (j + 1)%Z - phi j).
Proof. exact (ratio sign ns phip iotaH j). Qed.
Print Assumptions C92_ratio_partial.
(** At the edge chipf is not the derivative either: for a derivative that is a
    straight line in s the inner values are on the line and the edge value is the
    one of the line half a step outside of the plasma. *)
Theorem C92_edge_refuted sign ns phipH iotaH chipH0 chipF0 a b : (3 <= ns)%Z -> sign <> 0 -> b <> 0 ->
  line_between ns a b (fun j => iotaH j * phipH j) ->
  let chipf := reported_chipf sign ns phipH iotaH chipH0 chipF0 in
  (forall j, (0 < j < ns - 1)%Z -> chipf j = sign * 2 * PI * (a + b * pos ns j)) /\
  chipf (ns - 1)%Z = sign * 2 * PI * (a + b * (1 + 1 / (2 * (IZR ns - 1)))) /\
  chipf (ns - 1)%Z <> sign * 2 * PI * (a + b * 1).
Proof. exact (edge_line sign ns phipH iotaH chipH0 chipF0 a b). Qed.
Print Assumptions C92_edge_refuted.
Example C92_edge_case : line_between 3 1 (-1 / 2) (fun j => (1 - (2 * IZR j + 1) / 8) * 1).
Proof. exact line_case. Qed.
Example C92_case : exists ns phipH iotaH j, (0 < j < ns - 1)%Z /\
  reported_chipf kSignOfJacobian ns phipH iotaH (fun _ => 0) (fun _ => 0) j <> 0.
Proof.
  exists 3%Z, (fun _ => 1), (fun _ => 1), 1%Z. split; [lia|]. unfold reported_chipf. rewrite deriv_at, chipFull_at, !chipHalf_at by lia.
  unfold kSignOfJacobian. pose proof PI_RGT_0. lra.
Qed.
