(** C116: the radial profile table of the threed1 output. *)
From Coq Require Import ZArith Reals Lia Lra.
From Verif Require Import Base SumLemmas SizesModel JxbModel TableModel TableSpec TableMain.
Open Scope R_scope.

Theorem C116_radial_force : forall s ns sgn ds presH dVdsH chipF phipF bsubu bsubv, (3 <= ns)%Z ->
  forall jF, (1 <= jF < ns - 1)%Z -> across dVdsH jF <> 0 ->
  forall x y z, force_terms s sgn ds presH dVdsH chipF phipF bsubu bsubv jF = (x, y, z) ->
  let f := radial_force s ns sgn ds presH dVdsH chipF phipF bsubu bsubv jF in
  f = (x + y + z) / (Rabs x + Rabs y + Rabs z) /\ (Rabs x + Rabs y + Rabs z <> 0 -> Rabs f <= 1 /\ (f = 0 <-> x + y + z = 0)).
Proof. exact force. Qed.
Print Assumptions C116_radial_force.

Theorem C116_ends_partial : forall s ns sgn ds presH dVdsH chipF phipF bsubu bsubv, (4 <= ns)%Z ->
  continued ns (radial_force s ns sgn ds presH dVdsH chipF phipF bsubu bsubv) /\ continued ns (vpphi ns dVdsH) /\
  continued ns (presgrad ns ds presH) /\ continued ns (jcurv s ns sgn ds bsubu) /\ continued ns (jcuru s ns sgn ds bsubv).
Proof. intros s ns sgn ds presH dVdsH chipF phipF bsubu bsubv N. assert (3 <= ns)%Z by lia. repeat split; apply ends_cont; assumption. Qed.
Print Assumptions C116_ends_partial.

Theorem C116_ends_refuted : forall s, exists sgn ds presH dVdsH chipF phipF bsubu bsubv,
  (forall jF, across dVdsH jF = 1) /\ vpphi 3 dVdsH 1 = 1 /\ vpphi 3 dVdsH 0 = 2 /\ vpphi 3 dVdsH 2 = 0 /\
  radial_force s 3 sgn ds presH dVdsH chipF phipF bsubu bsubv 0 = 2.
Proof. exact three_bad. Qed.
Print Assumptions C116_ends_refuted.

Theorem C116_affine : forall s ns sgn presH phipH bsubu bsubv a b, (3 <= ns)%Z ->
  (affine_half ns a b presH -> forall jF, (0 <= jF < ns)%Z -> pressure ns presH jF = (a + b * IZR jF) / MU_0) /\
  (affine_half ns a b phipH -> forall jF, (0 <= jF < ns)%Z -> phipf_loc ns sgn phipH jF = 2 * PI * sgn * (a + b * IZR jF)) /\
  (affine_half ns a b (surf_sum s bsubv) -> forall jF, (0 <= jF < ns)%Z -> bvcof s ns bsubv jF = a + b * IZR jF) /\
  (affine_half ns a b (surf_sum s bsubu) -> bucof s ns bsubu 0 = 0 /\ forall jF, (1 <= jF < ns)%Z -> bucof s ns bsubu jF = a + b * IZR jF).
Proof. exact affine_profiles. Qed.
Print Assumptions C116_affine.

Theorem C116_fluxes : forall ns sgn ds phipH iotaH, (3 <= ns)%Z ->
  toroidal_flux ns sgn ds phipH iotaH 0 = 0 /\ chi ns ds phipH iotaH 0 = 0 /\
  (forall jF, (1 <= jF < ns)%Z -> toroidal_flux ns sgn ds phipH iotaH jF - toroidal_flux ns sgn ds phipH iotaH (jF - 1) = 2 * PI * sgn * phipH (jF - 1)%Z * ds /\
     chi ns ds phipH iotaH jF - chi ns ds phipH iotaH (jF - 1) = 2 * PI * (phipH (jF - 1)%Z * iotaH (jF - 1)%Z) * ds).
Proof. exact fluxes_spec. Qed.
Print Assumptions C116_fluxes.

Theorem C116_currents : forall s ns sgn ds dVdsH bsubu bsubv, (3 <= ns)%Z -> ds <> 0 -> (forall jF, (1 <= jF < ns - 1)%Z -> across dVdsH jF <> 0) ->
  (forall jF, (1 <= jF < ns - 1)%Z ->
     avg_jsupv s ns sgn ds dVdsH bsubu jF * across dVdsH jF * MU_0 = sgn * slope ds (surf_sum s bsubu) jF /\
     avg_jsupu s ns sgn ds dVdsH bsubv jF * across dVdsH jF * MU_0 = - (sgn * slope ds (surf_sum s bsubv) jF)) /\
  zsum 1 (ns - 1) (fun jF => avg_jsupv s ns sgn ds dVdsH bsubu jF * across dVdsH jF * ds) * MU_0 = sgn * (surf_sum s bsubu (ns - 2) - surf_sum s bsubu 0).
Proof. intros s ns sgn ds dVdsH bsubu bsubv N D V. split; [intros jF H; exact (currents s ns sgn ds dVdsH bsubu bsubv jF H (V jF H))|exact (current_total s ns sgn ds dVdsH bsubu N D V)]. Qed.
Print Assumptions C116_currents.

(** derivatives with respect to the toroidal flux, times d(flux)/ds; the volume column carries the sign of the Jacobian *)
Theorem C116_flux_derivatives : forall ns sgn ds presH phipH dVdsH jF, (1 <= jF < ns - 1)%Z -> sgn * across phipH jF <> 0 ->
  d_volume_d_phi ns sgn phipH dVdsH jF * (2 * PI * sgn * across phipH jF) = sgn * ((2 * PI) * (2 * PI) * across dVdsH jF) /\
  d_pressure_d_phi ns sgn ds presH phipH jF * (2 * PI * sgn * across phipH jF) = slope ds presH jF / MU_0.
Proof. exact flux_derivatives. Qed.
Print Assumptions C116_flux_derivatives.

Theorem C116_volume_sign_refuted : exists phipH dVdsH : Z -> R, (forall jF, (0 <= jF)%Z -> 0 < dVdsH jF) /\
  (forall jF, (1 <= jF < 5)%Z -> toroidal_flux 5 (-1) (/ 4) phipH (fun _ => 0) (jF - 1) < toroidal_flux 5 (-1) (/ 4) phipH (fun _ => 0) jF) /\
  forall jF, (1 <= jF < 4)%Z -> d_volume_d_phi 5 (-1) phipH dVdsH jF < 0.
Proof. exact sign_bad. Qed.
Print Assumptions C116_volume_sign_refuted.

(** the hypotheses of the theorems above hold together: five surfaces, affine profiles *)
Example C116_case : exists (ns : Z) (dVdsH presH : Z -> R), (4 <= ns)%Z /\ (forall jF, (1 <= jF < ns - 1)%Z -> across dVdsH jF <> 0) /\ affine_half ns 1 (-1) presH /\ slope (/ 4) presH 1 = -4.
Proof. exists 5%Z, (fun _ => 1), (fun j => 1 + -1 * (IZR j + / 2)). split; [lia|]. split; [intros; unfold across; lra|]. split; [intros j H; reflexivity|]. unfold slope. cbn. lra. Qed.
