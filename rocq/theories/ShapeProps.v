(** C117: cross-section shape numbers; C118: parallel-current profiles. *)
From Coq Require Import ZArith Reals Lia Lra.
From Verif Require Import Base SumLemmas SizesModel DftTables DftSpec GeoModel JxbModel JxbProps TableModel ShapeModel ShapeSpec ShapeFinal ShapeCases TableMain.
Open Scope R_scope.

Theorem C117_section_partial lasym nfp mpol ntor ntheta nzeta mg ng s big g sqrtSF k jF Rf Zf :
  make_sizes lasym nfp mpol ntor ntheta nzeta mg ng = Some s -> sampled s g sqrtSF jF Rf Zf -> (0 <= k < sz_nZeta s)%Z ->
  periodic (sz_nfp s) Rf -> periodic (sz_nfp s) Zf -> stellarator_symmetric Rf Zf -> 0 <= Zf 0 (phi_pt s k) ->
  (forall j, (0 <= j < sz_nThetaEven s)%Z -> Rabs (Rf (theta_pt s j) (phi_pt s k)) < big /\ Rabs (Zf (theta_pt s j) (phi_pt s k)) < big) ->
  (exists l, (0 <= l < sz_nThetaReduced s)%Z /\ Rf (theta_pt s l) (phi_pt s k) <> Rf 0 (phi_pt s k)) ->
  (exists l, (0 <= l < sz_nThetaReduced s)%Z /\ Zf (theta_pt s l) (phi_pt s k) <> Zf 0 (phi_pt s k)) ->
  exists Rmin Rmax Zmin Zmax jz,
    smallest (sz_nThetaEven s) (fun j => Rf (theta_pt s j) (phi_pt s k)) Rmin /\ largest (sz_nThetaEven s) (fun j => Rf (theta_pt s j) (phi_pt s k)) Rmax /\
    smallest (sz_nThetaEven s) (fun j => Zf (theta_pt s j) (phi_pt s k)) Zmin /\ largest (sz_nThetaEven s) (fun j => Zf (theta_pt s j) (phi_pt s k)) Zmax /\
    (0 <= jz < sz_nThetaEven s)%Z /\ Zf (theta_pt s jz) (phi_pt s k) = Zmax /\ Rmin < Rmax /\
    ygeo_at s g sqrtSF k jF = (Rf 0 (phi_pt s k) - Rf PI (phi_pt s k)) / 2 /\
    yellip_at s big g sqrtSF k jF = (Zmax - Zmin) / (Rmax - Rmin) /\
    yinden_at s big g sqrtSF k jF = (Rf PI (phi_pt s k) - Rmin) / (Rmax - Rmin) /\ 0 <= yinden_at s big g sqrtSF k jF <= 1 /\
    ytrian_at s big g sqrtSF k jF = ((Rf 0 (phi_pt s k) + Rf PI (phi_pt s k)) / 2 - Rf (theta_pt s jz) (phi_pt s k)) / (Rmax - Rmin) /\
    yshift_at s big g sqrtSF k jF = (r_e g (k * sz_nThetaEff s)%Z - (Rf 0 (phi_pt s k) + Rf PI (phi_pt s k)) / 2) / (Rmax - Rmin).
Proof. intros HS. exact (shape_ok s big g sqrtSF k jF Rf Zf (make_sizes_ok _ _ _ _ _ _ _ _ _ HS)). Qed.
Print Assumptions C117_section_partial.

(** the assumption on Z(0, phi) holds with equality in true symmetry planes *)
Theorem C117_symmetry_planes lasym nfp mpol ntor ntheta nzeta mg ng s Rf Zf k :
  make_sizes lasym nfp mpol ntor ntheta nzeta mg ng = Some s -> periodic (sz_nfp s) Zf -> stellarator_symmetric Rf Zf ->
  (k = 0 \/ 2 * k = sz_nZeta s)%Z -> Zf 0 (phi_pt s k) = 0.
Proof. intros HS. exact (plane_zero s Rf Zf k (make_sizes_ok _ _ _ _ _ _ _ _ _ HS)). Qed.
Print Assumptions C117_symmetry_planes.

Theorem C117_arrays : forall s ns f, (1 <= ns)%Z ->
  (forall jF, (1 <= jF < ns)%Z -> shape_array s ns f jF = f 0%Z jF /\ shape_array s ns f (ns + jF) = if (sz_nZeta s =? 1)%Z then 0 else f (sz_nZeta s ÷ 2)%Z jF) /\
  shape_array s ns f 0 = 0 /\ shape_array s ns f ns = 0.
Proof. exact arrays. Qed.
Print Assumptions C117_arrays.

(** symmetric run with an odd number of planes: the second plane is not a symmetry plane and its elongation is too large *)
Theorem C117_odd_planes_refuted : exists s g Rf Zf, make_sizes false 1 2 1 0 7 2 1 = Some s /\
  (forall jF, sampled s g (fun _ => 1) jF Rf Zf) /\ periodic 1 Rf /\ periodic 1 Zf /\ stellarator_symmetric Rf Zf /\
  plane s 1 = Some 3%Z /\ phi_pt s 3 = 6 * PI / 7 /\
  forall big jF, 100 < big -> exists Rmin Rmax Zmin Zmax,
    smallest (sz_nThetaEven s) (fun j => Rf (theta_pt s j) (phi_pt s 3)) Rmin /\ largest (sz_nThetaEven s) (fun j => Rf (theta_pt s j) (phi_pt s 3)) Rmax /\
    smallest (sz_nThetaEven s) (fun j => Zf (theta_pt s j) (phi_pt s 3)) Zmin /\ largest (sz_nThetaEven s) (fun j => Zf (theta_pt s j) (phi_pt s 3)) Zmax /\
    (Zmax - Zmin) / (Rmax - Rmin) < yellip_at s big g (fun _ => 1) 3 jF.
Proof. exact helix_bad. Qed.
Print Assumptions C117_odd_planes_refuted.

(** asymmetric run: a circular torus below Z = 0 is reported with elongation of at least 9/2 *)
Theorem C117_asymmetric_refuted : exists s g, make_sizes true 1 2 0 0 0 2 0 = Some s /\ (forall jF, sampled s g (fun _ => 1) jF (fun t _ => 10 + cos t) (fun t _ => -5 + sin t)) /\
  forall big jF, 100 < big -> 9 / 2 <= yellip_at s big g (fun _ => 1) 0 jF.
Proof. exact low_bad. Qed.
Print Assumptions C117_asymmetric_refuted.

(** C117_section_partial applies to the helix of ShapeCases in plane 0 *)
Example C117_case : exists s, make_sizes false 1 2 1 0 7 2 1 = Some s /\ sampled s (helix s 1) (fun _ => 1) 1 helixR (helixZ 1) /\
  helixZ 1 0 (phi_pt s 0) = 0 /\ helixR PI (phi_pt s 0) = 9 /\ helixR 0 (phi_pt s 0) = 11.
Proof.
  assert (exists s, make_sizes false 1 2 1 0 7 2 1 = Some s) as (s & ES) by (eexists; reflexivity). exists s. split; [exact ES|].
  assert (OK := make_sizes_ok _ _ _ _ _ _ _ _ _ ES). split; [apply helix_sampled, OK|]. unfold helixR, helixZ. rewrite cos_PI, cos_0, sin_0.
  assert (E : phi_pt s 0 = 0) by (unfold phi_pt; rewrite Rmult_0_r; unfold Rdiv; rewrite !Rmult_0_l; reflexivity). rewrite E, sin_0. repeat split; ring.
Qed.

(** C118. The assumptions are those of C98 on every interior surface: Jacobian of one sign, |B|^2 > 0,
    positive semidefinite metric and positive dV/ds. *)
Definition regular_surfaces (s : sizes) (ns : Z) (d : jxb_in) : Prop :=
  (x_sign_of_jacobian d = 1 \/ x_sign_of_jacobian d = -1) /\
  forall j, (1 <= j < ns - 1)%Z -> 0 < x_dVdsH d j + x_dVdsH d (j - 1)%Z /\
    forall i kl, (i = j \/ i = j - 1)%Z -> (0 <= kl < sz_nZnT s)%Z -> let p := (i * sz_nZnT s + kl)%Z in
      0 < x_sign_of_jacobian d * x_gsqrt d p /\ x_presH d i < x_total_pressure d p /\
      0 <= x_guu d p /\ 0 <= x_gvv d p /\ x_guv d p * x_guv d p <= x_guu d p * x_gvv d p.
Lemma regular_hyps lasym nfp mpol ntor ntheta nzeta mg ng s ns deltaS d :
  make_sizes lasym nfp mpol ntor ntheta nzeta mg ng = Some s -> regular_surfaces s ns d ->
  forall jF, (1 <= jF < ns - 1)%Z -> 0 < o_bdotb s ns d jF /\ o_jdotb s ns deltaS d jF * o_jdotb s ns deltaS d jF <= o_bdotb s ns d jF * o_jpar2 s ns deltaS d jF /\
    0 <= o_jperp2 s ns deltaS d jF /\ 0 < x_dVdsH d jF + x_dVdsH d (jF - 1)%Z.
Proof.
  intros HS (SG & H) jF J. destruct (H jF J) as (V & P).
  destruct (C98_cauchy_schwarz _ _ _ _ _ _ _ _ s ns deltaS d jF HS J SG V) as (A & B & _).
  { intros i kl I L. destruct (P i kl I L) as (P1 & P2 & _). split; assumption. }
  split; [exact B|]. split; [exact A|]. split; [|exact V].
  apply (C98_jperp2 _ _ _ _ _ _ _ _ s ns deltaS d jF HS J V). intros i kl I L. destruct (P i kl I L) as (P1 & _ & P3 & P4 & P5). repeat split; assumption.
Qed.

Theorem C118_pfirsch_schlueter lasym nfp mpol ntor ntheta nzeta mg ng s ns deltaS d eps :
  make_sizes lasym nfp mpol ntor ntheta nzeta mg ng = Some s -> regular_surfaces s ns d -> 0 < eps ->
  let jps := jPS2 ns (o_jpar2 s ns deltaS d) (o_jdotb s ns deltaS d) (o_bdotb s ns d) in
  (forall jF, (1 <= jF < ns - 1)%Z -> 0 <= jps jF <= o_jpar2 s ns deltaS d jF /\
     (jps jF = 0 <-> o_jdotb s ns deltaS d jF * o_jdotb s ns deltaS d jF = o_bdotb s ns d jF * o_jpar2 s ns deltaS d jF) /\
     loc_jpar_perp ns eps (o_jpar2 s ns deltaS d) (o_jperp2 s ns deltaS d) jF =
       o_jpar2 s ns deltaS d jF / (if Req_EM_T (o_jperp2 s ns deltaS d jF) 0 then eps else o_jperp2 s ns deltaS d jF) /\
     0 <= loc_jparPS_perp ns eps (o_jpar2 s ns deltaS d) (o_jperp2 s ns deltaS d) (o_jdotb s ns deltaS d) (o_bdotb s ns d) jF
       <= loc_jpar_perp ns eps (o_jpar2 s ns deltaS d) (o_jperp2 s ns deltaS d) jF) /\
  0 <= jparPS_perp ns (o_jpar2 s ns deltaS d) (o_jperp2 s ns deltaS d) (o_jdotb s ns deltaS d) (o_bdotb s ns d) (x_dVdsH d)
    <= jpar_perp ns (o_jpar2 s ns deltaS d) (o_jperp2 s ns deltaS d) (x_dVdsH d).
Proof.
  intros HS H E jps. assert (B := regular_hyps _ _ _ _ _ _ _ _ s ns deltaS d HS H). split; [|exact (ratios ns _ _ _ _ _ B)].
  intros jF J. split; [exact (jps_bounds ns _ _ _ _ _ B jF J)|]. split; [exact (jps_zero ns _ _ _ _ _ B jF J)|]. exact (local_ratios ns eps _ _ _ _ _ B jF E J).
Qed.
Print Assumptions C118_pfirsch_schlueter.

Theorem C118_ends : forall ns eps jpar2 jperp2 jdotb bdotb, (2 <= ns)%Z ->
  jPS2 ns jpar2 jdotb bdotb 0 = 0 /\ jPS2 ns jpar2 jdotb bdotb (ns - 1) = 0 /\
  loc_jpar_perp ns eps jpar2 jperp2 0 = 0 /\ loc_jparPS_perp ns eps jpar2 jperp2 jdotb bdotb 0 = 0 /\ loc_jparPS_perp ns eps jpar2 jperp2 jdotb bdotb (ns - 1) = 0.
Proof. exact jps_ends. Qed.
Print Assumptions C118_ends.

(** volume averages over the interior surfaces *)
Theorem C118_averages : forall ns jpar2 jperp2 jdotb bdotb dVdsH,
  let avg f := zsum 1 (ns - 1) (fun j => f j * (dVdsH j + dVdsH (j - 1)%Z)) in
  let ps j := jpar2 j - jdotb j * jdotb j / bdotb j in
  avg jperp2 <> 0 -> jpar_perp ns jpar2 jperp2 dVdsH = avg jpar2 / avg jperp2 /\ jparPS_perp ns jpar2 jperp2 jdotb bdotb dVdsH = avg ps / avg jperp2.
Proof. exact averages. Qed.
Print Assumptions C118_averages.

(** the poloidal flux column is the running integral; with sign it is that of the radial table *)
Theorem C118_psi ns ds sgn phipH iotaH : (3 <= ns)%Z -> psi ns ds sgn phipH iotaH 0 = 0 /\
  forall jF, (1 <= jF < ns)%Z ->
    psi ns ds sgn phipH iotaH jF - psi ns ds sgn phipH iotaH (jF - 1) = 2 * PI * sgn * (phipH (jF - 1)%Z * iotaH (jF - 1)%Z) * ds /\
    psi ns ds sgn phipH iotaH jF - psi ns ds sgn phipH iotaH (jF - 1) = sgn * (chi ns ds phipH iotaH jF - chi ns ds phipH iotaH (jF - 1)).
Proof.
  intros N. destruct (psi_step ns ds sgn phipH iotaH ltac:(lia)) as (A & B). destruct (fluxes_spec ns sgn ds phipH iotaH N) as (_ & _ & F).
  split; [exact A|]. intros jF H. specialize (B jF H). destruct (F jF H) as (_ & C). split; [exact B|]. rewrite B, C. ring.
Qed.
Print Assumptions C118_psi.

Example C118_case : make_sizes false 1 2 0 0 0 0 0 = Some JxbCases.js /\ regular_surfaces JxbCases.js 3 JxbCases.jd.
Proof.
  split; [reflexivity|]. destruct C98_case as (_ & SG & _ & A & B & _). split; [right; exact SG|]. intros j J. assert (j = 1%Z) as -> by lia.
  split; [cbn [JxbCases.jd x_dVdsH]; lra|]. intros i kl I L. destruct (A (i * sz_nZnT JxbCases.js + kl)%Z) as (A1 & A2 & A3 & A4).
  split; [exact A1|]. split; [apply B, L|]. auto.
Qed.
(** averages: ns = 4, unit dV/ds, currents 6 along and 2 across the field *)
Example C118_averages_case : jpar_perp 4 (fun _ => 6) (fun _ => 2) (fun _ => 1) = 3 /\ jparPS_perp 4 (fun _ => 6) (fun _ => 2) (fun _ => 2) (fun _ => 1) (fun _ => 1) = 1.
Proof.
  destruct (C118_averages 4 (fun _ => 6) (fun _ => 2) (fun _ => 2) (fun _ => 1) (fun _ => 1)) as (A & B); [rewrite zsum_const by lia; simpl; lra|].
  rewrite A, B. rewrite !zsum_const by lia. simpl. split; field.
Qed.
