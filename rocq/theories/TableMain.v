From Coq Require Import ZArith List Bool Reals Lia Lra.
From Verif Require Import Base BaseLemmas SumLemmas SizesModel JxbModel JxbMain AxisProofs LapMain TableModel TableSpec TableProofs.
Open Scope R_scope.

Lemma co_sum s bsub jH : co s bsub jH = surf_sum s bsub jH.
Proof. unfold co, surf_sum. rewrite (for_up_acc _ (fun kl => bsub (jH * sz_nZnT s + kl)%Z * sz_wInt s (kl mod sz_nThetaEff s)%Z)) by reflexivity. ring. Qed.

Section P.
Variables (s : sizes) (ns : Z) (sgn ds : R) (presH phipH iotaH dVdsH chipF phipF bsubu bsubv : Z -> R).
Hypothesis NS : (3 <= ns)%Z.

Lemma jcurv_slope jF : (1 <= jF < ns - 1)%Z -> jcurv s ns sgn ds bsubu jF = sgn * slope ds (surf_sum s bsubu) jF.
Proof. intros H. rewrite jcurv_in by assumption. unfold bucoH. rewrite !co_sum. unfold slope, Rdiv. ring. Qed.
Lemma jcuru_slope jF : (1 <= jF < ns - 1)%Z -> jcuru s ns sgn ds bsubv jF = - (sgn * slope ds (surf_sum s bsubv) jF).
Proof. intros H. rewrite jcuru_in by assumption. unfold bvcoH. rewrite !co_sum. unfold slope, Rdiv. ring. Qed.

Lemma force jF : (1 <= jF < ns - 1)%Z -> across dVdsH jF <> 0 ->
  forall x y z, force_terms s sgn ds presH dVdsH chipF phipF bsubu bsubv jF = (x, y, z) ->
  let f := radial_force s ns sgn ds presH dVdsH chipF phipF bsubu bsubv jF in
  f = (x + y + z) / (Rabs x + Rabs y + Rabs z) /\ (Rabs x + Rabs y + Rabs z <> 0 -> Rabs f <= 1 /\ (f = 0 <-> x + y + z = 0)).
Proof.
  intros H V x y z E f. unfold force_terms in E. injection E as <- <- <-.
  assert (A : f = (chipF jF * (sgn * slope ds (surf_sum s bsubu) jF) - (- (phipF jF * (sgn * slope ds (surf_sum s bsubv) jF))) + slope ds presH jF * across dVdsH jF) /
     (Rabs (chipF jF * (sgn * slope ds (surf_sum s bsubu) jF)) + Rabs (- (phipF jF * (sgn * slope ds (surf_sum s bsubv) jF))) + Rabs (slope ds presH jF * across dVdsH jF))).
  { unfold f. rewrite equif_in; try assumption; [|rewrite vpphi_in by assumption; exact V].
    rewrite jcurv_slope, jcuru_slope, presgrad_in, vpphi_in by assumption. fold (across dVdsH jF). fold (slope ds presH jF).
    rewrite (Ropp_mult_distr_r (phipF jF)). reflexivity. }
  rewrite Rabs_Ropp in A. split.
  - rewrite A. f_equal. ring.
  - intros D. pose proof (normed_bound (chipF jF * (sgn * slope ds (surf_sum s bsubu) jF)) (- (phipF jF * (sgn * slope ds (surf_sum s bsubv) jF))) (slope ds presH jF * across dVdsH jF)) as B.
    rewrite Rabs_Ropp in B. specialize (B D). rewrite <- A in B. destruct B as (B1 & B2). split; [exact B1|]. rewrite B2. split; intros Q; rewrite <- Q; ring.
Qed.

Lemma ends_cont a : (4 <= ns)%Z -> continued ns (ends ns a).
Proof. intros N. split; [apply ends_0|apply ends_last]; assumption. Qed.
Lemma ends_3 (a : Z -> R) : a 2%Z = 0 -> ends 3 a 0 = 2 * a 1%Z /\ ends 3 a 1 = a 1%Z /\ ends 3 a 2 = 0.
Proof. intros E. unfold ends. cbn. unfold upd. cbn. rewrite E. repeat split; ring. Qed.

Lemma dvolume jF : (0 <= jF < ns)%Z -> phipf_loc ns sgn phipH jF <> 0 ->
  d_volume_d_phi ns sgn phipH dVdsH jF * phipf_loc ns sgn phipH jF = sgn * ((2 * PI) * (2 * PI) * vpphi ns dVdsH jF).
Proof. intros H N. unfold d_volume_d_phi, fac. field. exact N. Qed.
Lemma dpressure jF : (0 <= jF < ns)%Z -> phipf_loc ns sgn phipH jF <> 0 ->
  d_pressure_d_phi ns sgn ds presH phipH jF * phipf_loc ns sgn phipH jF = presgrad ns ds presH jF / MU_0.
Proof. intros H N. unfold d_pressure_d_phi. field. split; [apply Rgt_not_eq, mu_pos|exact N]. Qed.
Lemma phip_across jF : (1 <= jF < ns - 1)%Z -> phipf_loc ns sgn phipH jF = 2 * PI * sgn * across phipH jF.
Proof.
  intros H. unfold phipf_loc. rewrite full_at by lia. destruct (Z.eqb_spec jF (ns - 1)); [lia|]. destruct (Z.eqb_spec jF 0); [lia|]. unfold across. field.
Qed.
Lemma currents jF : (1 <= jF < ns - 1)%Z -> across dVdsH jF <> 0 ->
  avg_jsupv s ns sgn ds dVdsH bsubu jF * across dVdsH jF * MU_0 = sgn * slope ds (surf_sum s bsubu) jF /\
  avg_jsupu s ns sgn ds dVdsH bsubv jF * across dVdsH jF * MU_0 = - (sgn * slope ds (surf_sum s bsubv) jF).
Proof.
  intros H V. pose proof mu_pos as M. unfold avg_jsupv, avg_jsupu. rewrite jcurv_slope, jcuru_slope, vpphi_in by assumption. fold (across dVdsH jF).
  split; field; (split; [lra|exact V]) || (split; [exact V|lra]).
Qed.
End P.

Lemma current_total s ns sgn ds dVdsH bsubu : (3 <= ns)%Z -> ds <> 0 -> (forall jF, (1 <= jF < ns - 1)%Z -> across dVdsH jF <> 0) ->
  zsum 1 (ns - 1) (fun jF => avg_jsupv s ns sgn ds dVdsH bsubu jF * across dVdsH jF * ds) * MU_0 = sgn * (surf_sum s bsubu (ns - 2) - surf_sum s bsubu 0).
Proof.
  intros N D V. rewrite <- zsum_scale_r. pose proof (current_sum s ns sgn ds bsubu N D) as C. unfold bucoH in C. rewrite !co_sum in C. rewrite <- C.
  apply zsum_ext. intros j Hj. rewrite jcurv_slope by lia. destruct (currents s ns sgn ds dVdsH bsubu bsubu j Hj (V j Hj)) as (E & _). rewrite <- E. ring.
Qed.

Lemma affine_profiles s ns sgn presH phipH bsubu bsubv a b : (3 <= ns)%Z ->
  (affine_half ns a b presH -> forall jF, (0 <= jF < ns)%Z -> pressure ns presH jF = (a + b * IZR jF) / MU_0) /\
  (affine_half ns a b phipH -> forall jF, (0 <= jF < ns)%Z -> phipf_loc ns sgn phipH jF = 2 * PI * sgn * (a + b * IZR jF)) /\
  (affine_half ns a b (surf_sum s bsubv) -> forall jF, (0 <= jF < ns)%Z -> bvcof s ns bsubv jF = a + b * IZR jF) /\
  (affine_half ns a b (surf_sum s bsubu) -> bucof s ns bsubu 0 = 0 /\ forall jF, (1 <= jF < ns)%Z -> bucof s ns bsubu jF = a + b * IZR jF).
Proof.
  intros N. repeat split.
  - intros L jF H. unfold pressure, presf. rewrite (full_linear ns N presH a b L jF H). reflexivity.
  - intros L jF H. apply phipf_linear; assumption.
  - intros L jF H. unfold bvcof. apply full_linear; [exact N| |exact H]. intros jH HH. unfold bvcoH. rewrite co_sum. apply L, HH.
  - unfold bucof. rewrite upd_neq by lia. rewrite (for_up_upd (fun j => (bucoH s bsubu j + bucoH s bsubu (j - 1)%Z) / 2)), out_range by lia. apply upd_eq.
  - intros jF Hj. apply bucof_linear; try assumption. intros jH HH. unfold bucoH. rewrite co_sum. apply H, HH.
Qed.

Lemma fluxes_spec ns sgn ds phipH iotaH : (3 <= ns)%Z ->
  toroidal_flux ns sgn ds phipH iotaH 0 = 0 /\ chi ns ds phipH iotaH 0 = 0 /\
  (forall jF, (1 <= jF < ns)%Z -> toroidal_flux ns sgn ds phipH iotaH jF - toroidal_flux ns sgn ds phipH iotaH (jF - 1) = 2 * PI * sgn * phipH (jF - 1)%Z * ds /\
     chi ns ds phipH iotaH jF - chi ns ds phipH iotaH (jF - 1) = 2 * PI * (phipH (jF - 1)%Z * iotaH (jF - 1)%Z) * ds).
Proof.
  intros N. unfold toroidal_flux, fac.
  destruct (fluxes_ok ns ds phipH iotaH N 0%Z ltac:(lia)) as (A & _ & C). rewrite A, C, !zsum_empty by lia.
  split; [ring|]. split; [ring|]. intros jF H.
  destruct (fluxes_ok ns ds phipH iotaH N jF ltac:(lia)) as (A1 & _ & C1). destruct (fluxes_ok ns ds phipH iotaH N (jF - 1)%Z ltac:(lia)) as (A2 & _ & C2).
  rewrite A1, A2, C1, C2.
  assert (Z1 : forall f, zsum 0 jF f = zsum 0 (jF - 1) f + f (jF - 1)%Z) by (intros f; rewrite <- zsum_snoc by lia; f_equal; lia).
  rewrite !Z1. split; ring.
Qed.

(** three surfaces: the axis entry takes the not yet written edge entry, and the edge entry the new axis entry *)
Lemma three_surfaces s sgn ds presH dVdsH chipF phipF bsubu bsubv : 
  let f := radial_force s 3 sgn ds presH dVdsH chipF phipF bsubu bsubv in
  f 0%Z = 2 * f 1%Z /\ f 2%Z = 0 /\ vpphi 3 dVdsH 0 = 2 * vpphi 3 dVdsH 1 /\ vpphi 3 dVdsH 2 = 0.
Proof.
  intros f. unfold f, radial_force, equif, vpphi.
  destruct (ends_3 (equif0 s 3 sgn ds presH dVdsH chipF phipF bsubu bsubv)) as (A & B & C).
  { unfold equif0, equif00. cbn. unfold upd. cbn. reflexivity. }
  destruct (ends_3 (vpphi0 3 dVdsH)) as (D & E & F). { unfold vpphi0. cbn. unfold upd. cbn. reflexivity. }
  rewrite A, B, C, D, E, F. repeat split; reflexivity.
Qed.
Lemma three_bad s : exists sgn ds presH dVdsH chipF phipF bsubu bsubv,
  (forall jF, across dVdsH jF = 1) /\ vpphi 3 dVdsH 1 = 1 /\ vpphi 3 dVdsH 0 = 2 /\ vpphi 3 dVdsH 2 = 0 /\
  radial_force s 3 sgn ds presH dVdsH chipF phipF bsubu bsubv 0 = 2.
Proof.
  exists (-1), (/ 2), (fun j => IZR j), (fun _ => 1), (fun _ => 0), (fun _ => 0), (fun _ => 0), (fun _ => 0).
  assert (V1 : vpphi 3 (fun _ => 1) 1 = 1) by (rewrite vpphi_in by lia; lra).
  destruct (three_surfaces s (-1) (/ 2) (fun j => IZR j) (fun _ => 1) (fun _ => 0) (fun _ => 0) (fun _ => 0) (fun _ => 0)) as (A & _ & B & C).
  split; [intros; unfold across; lra|]. split; [exact V1|]. split; [rewrite B, V1; lra|]. split; [exact C|]. rewrite A.
  assert (N3 : (3 <= 3)%Z) by lia. assert (J : (1 <= 1 < 3 - 1)%Z) by lia. assert (V : across (fun _ => 1) 1 <> 0) by (unfold across; lra).
  destruct (force s 3 (-1) (/ 2) (fun j => IZR j) (fun _ => 1) (fun _ => 0) (fun _ => 0) (fun _ => 0) (fun _ => 0) N3 1%Z J V _ _ _ eq_refl) as (E & _).
  rewrite E. rewrite !Rmult_0_l, Rabs_R0. unfold slope, across. cbn [Z.sub Z.add Z.opp Z.pos_sub].
  rewrite (Rabs_right (_ * _)) by lra. lra.
Qed.
(** toroidal flux and volume both grow outwards, yet the column dV/dPhi is negative *)
Lemma sign_bad : exists phipH dVdsH : Z -> R, (forall jF, (0 <= jF)%Z -> 0 < dVdsH jF) /\
  (forall jF, (1 <= jF < 5)%Z -> toroidal_flux 5 (-1) (/ 4) phipH (fun _ => 0) (jF - 1) < toroidal_flux 5 (-1) (/ 4) phipH (fun _ => 0) jF) /\
  forall jF, (1 <= jF < 4)%Z -> d_volume_d_phi 5 (-1) phipH dVdsH jF < 0.
Proof.
  exists (fun _ => -1), (fun _ => 1). pose proof PI_RGT_0 as P. assert (N : (3 <= 5)%Z) by lia. split; [intros; lra|]. split.
  - intros jF H. destruct (fluxes_spec 5 (-1) (/ 4) (fun _ => -1) (fun _ => 0) N) as (_ & _ & F). destruct (F jF H) as (E & _).
    assert (0 < 2 * PI * -1 * -1 * / 4) by lra. lra.
  - intros jF H. unfold d_volume_d_phi. rewrite vpphi_in by lia. rewrite (phip_across 5 (-1) (fun _ => -1)) by lia. unfold across, fac.
    replace (_ / _) with (- (2 * PI)) by (field; lra). lra.
Qed.

Lemma flux_derivatives ns sgn ds presH phipH dVdsH jF : (1 <= jF < ns - 1)%Z -> sgn * across phipH jF <> 0 ->
  d_volume_d_phi ns sgn phipH dVdsH jF * (2 * PI * sgn * across phipH jF) = sgn * ((2 * PI) * (2 * PI) * across dVdsH jF) /\
  d_pressure_d_phi ns sgn ds presH phipH jF * (2 * PI * sgn * across phipH jF) = slope ds presH jF / MU_0.
Proof.
  intros H N. pose proof PI_RGT_0 as P.
  assert (Q : phipf_loc ns sgn phipH jF <> 0).
  { rewrite phip_across by exact H. replace (2 * PI * sgn * across phipH jF) with (2 * PI * (sgn * across phipH jF)) by ring. apply Rmult_integral_contrapositive_currified; [lra|exact N]. }
  pose proof (dvolume ns sgn phipH dVdsH jF) as A. pose proof (dpressure ns sgn ds presH phipH jF) as B.
  rewrite (phip_across ns sgn phipH jF H) in A, B, Q. unfold across at 2. rewrite <- (vpphi_in ns dVdsH jF H). unfold slope. rewrite <- (presgrad_in ns ds presH jF H).
  split; [apply A|apply B]; try exact Q; lia.
Qed.
