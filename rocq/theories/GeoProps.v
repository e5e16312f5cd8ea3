(** Property theorems C113, C114, C115: geometric and magnetic quantities of the output. *)
From Coq Require Import ZArith List Bool Reals Lia Lra.
From Coquelicot Require Import Coquelicot.
From Verif Require Import Base BaseLemmas SumLemmas SizesModel FourierModel FourierSpec PartModel KernelProofs DftModel DftTables DftSpec DftProps
  BsubProofs JxbModel JxbMain TrigPoly GeoModel GeoSpec GeoProofs GeoFinal GeoCases GeoMag GeoExt.
Import ListNotations.
Open Scope R_scope.

Local Notation tables s b0 :=
  (computeFourierBasis FastPoloidal (sz_nfp s) (sz_nZeta s) (sz_nThetaEven s) (sz_nThetaReduced s) (sz_mnyq2 s) (sz_nnyq2 s) b0).

(** C113: the reported average cross-section area is the exact area enclosed by the
    boundary curve, averaged over the toroidal angle, at every accepted resolution. *)
Theorem C113_area lasym nfp mpol ntor ntheta nzeta mg ng T th ns lfreeb s p (b0 : basis_tables)
    (xmpq sqrtSF : Z -> R) (x : coefs) (g0 ga0 : geom) (g : full_geo) :
  setting lasym nfp mpol ntor ntheta nzeta mg ng T th ns lfreeb s p -> supported s -> nsMaxF1 p = ns ->
  lcfs_from s p ns (g_q (geometryFromFourier s (tables s b0) p xmpq sqrtSF x g0 ga0)) g ->
  cross_area_p s ns g = mean_area (lcfs_series s p ns x cR) (lcfs_series s p ns x cZ).
Proof. intros HS SU LAST FROM. exact (area_link HS SU LAST b0 xmpq sqrtSF x g0 ga0 g FROM). Qed.
Print Assumptions C113_area.

(** C113, volume: the claim is [volume_p = volume] at every accepted resolution; it
    holds when the angular grid resolves triple products of the boundary's modes. *)
Theorem C113_volume_partial lasym nfp mpol ntor ntheta nzeta mg ng T th ns lfreeb s p (b0 : basis_tables)
    (xmpq sqrtSF : Z -> R) (x : coefs) (g0 ga0 : geom) (g : full_geo) :
  setting lasym nfp mpol ntor ntheta nzeta mg ng T th ns lfreeb s p -> supported s -> nsMaxF1 p = ns ->
  lcfs_from s p ns (g_q (geometryFromFourier s (tables s b0) p xmpq sqrtSF x g0 ga0)) g ->
  (3 * (sz_mpol s - 1) < sz_nThetaEven s)%Z -> (3 * sz_ntor s < sz_nZeta s)%Z ->
  volume_p s ns g = volume (lcfs_series s p ns x cR) (lcfs_series s p ns x cZ).
Proof. intros HS SU LAST FROM H1 H2. exact (volume_link HS SU LAST b0 xmpq sqrtSF x g0 ga0 g FROM H1 H2). Qed.
Print Assumptions C113_volume_partial.

(** C113, volume, refuted at the smallest accepted resolution for 9 poloidal modes:
    an axisymmetric boundary whose reported volume is too large. *)
Theorem C113_volume_refuted : exists s p (b0 : basis_tables) xmpq sqrtSF x g0 ga0 g,
  setting false 1 9 0 0 0 9 0 1 0 5 false s p /\ supported s /\ nsMaxF1 p = 5%Z /\
  lcfs_from s p 5 (g_q (geometryFromFourier s (tables s b0) p xmpq sqrtSF x g0 ga0)) g /\
  (forall th ph, lcfs_series s p 5 x cR th ph = 10 + cos th + cos (8 * th) / 20) /\
  (forall th ph, lcfs_series s p 5 x cZ th ph = sin th + sin (8 * th) / 20) /\
  volume (lcfs_series s p 5 x cR) (lcfs_series s p 5 x cZ) = 2 * PI * PI * (102 / 10) /\
  volume_p s 5 g = 2 * PI * PI * (102 / 10 + / 4000).
Proof. exact volume_alias_refuted. Qed.
Print Assumptions C113_volume_refuted.

(** C113, radii: the circular torus with the reported radii has the reported area and
    volume, and the aspect ratio is their quotient. *)
Theorem C113_radii s ns g : cross_area_p s ns g <> 0 ->
  0 < Aminor_p s ns g /\ PI * (Aminor_p s ns g) ^ 2 = cross_area_p s ns g /\
  2 * PI * PI * Rmajor_p s ns g * (Aminor_p s ns g) ^ 2 = volume_p s ns g /\ aspect s ns g * Aminor_p s ns g = Rmajor_p s ns g.
Proof. exact (radii s ns g). Qed.
Print Assumptions C113_radii.

(** C113, circular torus: all reported quantities are the exact ones, for every
    resolution. *)
Theorem C113_circular lasym nfp mpol ntor ntheta nzeta mg ng s ns g R0 a :
  (2 <= mpol)%Z -> make_sizes lasym nfp mpol ntor ntheta nzeta mg ng = Some s -> 0 < a < R0 ->
  edge_values s ns (fun i => r_e g i + r_o g i) (fun th _ => R0 + a * cos th) ->
  edge_values s ns (fun i => zu_e g i + zu_o g i) (fun th _ => a * cos th) ->
  edge_values s ns (ruFull g) (fun th _ => - a * sin th) ->
  edge_values s ns (zuFull g) (fun th _ => a * cos th) ->
  edge_values s ns (fun i => rv_e g i + rv_o g i) (fun _ _ => 0) ->
  edge_values s ns (fun i => zv_e g i + zv_o g i) (fun _ _ => 0) ->
  circum_p s ns g = 2 * PI * a /\ surf_area_p s ns g = 4 * PI * PI * R0 * a /\ cross_area_p s ns g = PI * a * a /\
  volume_p s ns g = 2 * PI * PI * R0 * a * a /\ Aminor_p s ns g = a /\ Rmajor_p s ns g = R0 /\ aspect s ns g = R0 / a /\ kappa_p s ns g = 1.
Proof.
  intros M2 ES A0 V1 V2 V3 V4 V5 V6. assert (OK := make_sizes_ok _ _ _ _ _ _ _ _ _ ES).
  assert (NP : (2 <= sz_mpol s)%Z).
  { unfold make_sizes in ES. destruct ((nfp <? 1)%Z || (mpol <? 1)%Z || (ntor <? 0)%Z); [discriminate|]. apply some_inj in ES. subst s. exact M2. }
  split; [exact (circ_circ s ns g R0 a OK NP A0 V3 V4)|].
  split; [exact (circ_surf s ns g R0 a OK NP A0 V1 V3 V4 V5 V6)|].
  split; [exact (circ_area s ns g R0 a OK NP V1 V2)|].
  split; [exact (circ_volume s ns g R0 a OK NP A0 V1 V2)|].
  split; [exact (circ_minor s ns g R0 a OK NP A0 V1 V2)|].
  split; [exact (circ_major s ns g R0 a OK NP A0 V1 V2)|].
  split; [unfold aspect; rewrite (circ_minor s ns g R0 a OK NP A0 V1 V2), (circ_major s ns g R0 a OK NP A0 V1 V2); reflexivity|].
  exact (circ_kappa s ns g R0 a OK NP A0 V1 V2 V3 V4 V5 V6).
Qed.
Print Assumptions C113_circular.

(** Concrete case: a 5-period symmetric grid with a circular torus on it. *)
Example C113_case : exists s g, make_sizes false 5 4 3 0 0 4 3 = Some s /\
  edge_values s 5 (fun i => r_e g i + r_o g i) (fun th _ => 10 + 2 * cos th) /\
  edge_values s 5 (fun i => zu_e g i + zu_o g i) (fun th _ => 2 * cos th) /\
  (3 * (sz_mpol s - 1) < sz_nThetaEven s)%Z /\ (3 * sz_ntor s < sz_nZeta s)%Z.
Proof.
  assert (exists s, make_sizes false 5 4 3 0 0 4 3 = Some s) as (s & ES) by (eexists; reflexivity).
  assert (OK := make_sizes_ok _ _ _ _ _ _ _ _ _ ES).
  exists s, (mkGeo (fun i => 10 + 2 * cos (theta_pt s (i mod sz_nThetaEff s)%Z)) (fun _ => 0) (fun _ => 0) (fun _ => 0)
    (fun i => 2 * cos (theta_pt s (i mod sz_nThetaEff s)%Z)) (fun _ => 0) (fun _ => 0) (fun _ => 0) (fun _ => 0) (fun _ => 0) (fun _ => 0) (fun _ => 0)).
  assert (E : forall k l, (0 <= l < sz_nThetaEff s)%Z -> (((5 - 1) * sz_nZnT s + (k * sz_nThetaEff s + l)) mod sz_nThetaEff s)%Z = l).
  { intros k l Hl. rewrite (so_nZnT s OK). replace ((5 - 1) * (sz_nZeta s * sz_nThetaEff s) + (k * sz_nThetaEff s + l))%Z with (l + ((5 - 1) * sz_nZeta s + k) * sz_nThetaEff s)%Z by ring.
    rewrite Z_mod_plus_full. apply Z.mod_small. exact Hl. }
  split; [exact ES|]. split; [|split; [|injection ES as <-; cbn; lia]].
  - intros k l Hk Hl. cbn [r_e r_o]. rewrite E by exact Hl. ring.
  - intros k l Hk Hl. cbn [zu_e zu_o]. rewrite E by exact Hl. ring.
Qed.

(** C114: with dV/ds the integral of the Jacobian over each surface and the stored
    total pressure p + B^2/2, the energies and betas of the output are the volume
    integrals and averages they are named after. [B2] is the squared field strength,
    [Bp2] the part not along the toroidal direction. *)
Definition volume_integral (s : sizes) (ns : Z) (h : half_fields) (sgn ds : R) (f : Z -> Z -> R) : R :=
  zsum 0 (ns - 1) (fun jH => ds * (4 * PI * PI * zsum 0 (sz_nZnT s) (fun kl =>
    f jH kl * (sgn * gsqrt h (jH * sz_nZnT s + kl)%Z * sz_wInt s (kl mod sz_nThetaEff s)%Z)))).
Definition mhd_state (s : sizes) (ns : Z) (h : half_fields) (sgn : R) (B2 Bp2 : Z -> Z -> R) : Prop :=
  forall jH, (0 <= jH < ns - 1)%Z ->
    dVdsH h jH = zsum 0 (sz_nZnT s) (fun kl => sgn * gsqrt h (jH * sz_nZnT s + kl)%Z * sz_wInt s (kl mod sz_nThetaEff s)%Z) /\
    forall kl, (0 <= kl < sz_nZnT s)%Z ->
      total_pressure h (jH * sz_nZnT s + kl)%Z = presH h jH + B2 jH kl / 2 /\
      B2 jH kl = (r12 h (jH * sz_nZnT s + kl)%Z * bsupv h (jH * sz_nZnT s + kl)%Z) ^ 2 + Bp2 jH kl.

Lemma integral_eq s ns h sgn ds f : integral s ns h sgn ds f = volume_integral s ns h sgn ds f.
Proof.
  unfold integral, volume_integral, vnorm, anorm. rewrite <- zsum_scale. apply zsum_ext. intros j _.
  rewrite (zsum_ext 0 (sz_nZnT s) _ (fun kl => f j kl * (sgn * gsqrt h (j * sz_nZnT s + kl)%Z * sz_wInt s (kl mod sz_nThetaEff s)%Z))); [ring|].
  intros kl _. unfold tau. ring.
Qed.
Lemma state_dv s ns h sgn B2 Bp2 : mhd_state s ns h sgn B2 Bp2 -> forall jH, (0 <= jH < ns - 1)%Z -> dVdsH h jH = zsum 0 (sz_nZnT s) (fun kl => tau s h sgn jH kl).
Proof. intros H j Hj. rewrite (proj1 (H j Hj)). apply zsum_ext. intros; unfold tau; ring. Qed.

Theorem C114_energies s ns (g : full_geo) h sgn ds B2 Bp2 : sz_ok s -> (1 <= ns)%Z -> mhd_state s ns h sgn B2 Bp2 ->
  let I := volume_integral s ns h sgn ds in
  let Btor2 jH kl := (r12 h (jH * sz_nZnT s + kl)%Z * bsupv h (jH * sz_nZnT s + kl)%Z) ^ 2 in
  int_p ns h ds = I (fun jH _ => presH h jH) / MU_0 /\
  int_modb s ns h sgn ds = I B2 / (2 * MU_0) /\ int_btor s ns h sgn ds = I Btor2 / (2 * MU_0) /\ int_bpol s ns h sgn ds = I Bp2 / (2 * MU_0) /\
  (volume_p s ns g <> 0 ->
    avg_p s ns g h ds = I (fun jH _ => presH h jH) / MU_0 / volume_p s ns g /\
    avg_modb s ns g h sgn ds = I B2 / (2 * MU_0) / volume_p s ns g /\
    (VolAvgB s ns g h sgn ds) ^ 2 = Rabs (I B2) / volume_p s ns g).
Proof.
  intros OK NS HM I Btor2. pose proof mu_pos as MU.
  assert (DV := state_dv s ns h sgn B2 Bp2 HM).
  assert (TP : forall jH kl, (0 <= jH < ns - 1)%Z -> (0 <= kl < sz_nZnT s)%Z -> total_pressure h (jH * sz_nZnT s + kl)%Z = presH h jH + B2 jH kl / 2) by (intros j kl Hj Hkl; apply (proj2 (HM j Hj) kl Hkl)).
  assert (BP : forall jH kl, (0 <= jH < ns - 1)%Z -> (0 <= kl < sz_nZnT s)%Z -> B2 jH kl = Btor2 jH kl + Bp2 jH kl) by (intros j kl Hj Hkl; apply (proj2 (HM j Hj) kl Hkl)).
  assert (E1 := sump_ok s ns h sgn ds DV). assert (E2 := sumbtot_ok s ns h sgn ds OK NS B2 DV TP).
  assert (E3 := sumbtor_ok s ns h sgn ds OK NS). assert (E4 := sumbpol_ok s ns h sgn ds OK NS B2 Bp2 DV TP BP).
  rewrite integral_eq in E1, E2, E3, E4. fold I in E1, E2, E3, E4. fold Btor2 in E3.
  destruct (energies s ns g h sgn ds ltac:(lra)) as (_ & EN).
  split; [unfold int_p; rewrite E1; reflexivity|].
  split; [unfold int_modb; rewrite E2; field; lra|].
  split; [unfold int_btor; rewrite E3; field; lra|].
  split; [unfold int_bpol; rewrite E4; field; lra|].
  intros V. destruct (EN V) as (N1 & N2 & N3).
  split; [unfold avg_p, pavg; rewrite E1; field; repeat split; first [exact V|lra]|].
  split; [unfold avg_modb; rewrite E2; field; repeat split; first [exact V|lra]|].
  apply Rmult_eq_reg_r with (volume_p s ns g); [|exact V]. rewrite N3, E2. field. exact V.
Qed.
Print Assumptions C114_energies.

Theorem C114_betas s ns h sgn ds B2 Bp2 : sz_ok s -> (1 <= ns)%Z -> mhd_state s ns h sgn B2 Bp2 ->
  let I := volume_integral s ns h sgn ds in
  let Btor2 jH kl := (r12 h (jH * sz_nZnT s + kl)%Z * bsupv h (jH * sz_nZnT s + kl)%Z) ^ 2 in
  let P := I (fun jH _ => presH h jH) in
  betatot s ns h sgn ds = 2 * P / I B2 /\ betator s ns h sgn ds = 2 * P / I Btor2 /\ betapol s ns h sgn ds = 2 * P / I Bp2 /\
  (P <> 0 -> I B2 <> 0 -> I Btor2 <> 0 -> I Bp2 <> 0 ->
    / betatot s ns h sgn ds = / betapol s ns h sgn ds + / betator s ns h sgn ds).
Proof.
  intros OK NS HM I Btor2 P.
  assert (DV := state_dv s ns h sgn B2 Bp2 HM).
  assert (TP : forall jH kl, (0 <= jH < ns - 1)%Z -> (0 <= kl < sz_nZnT s)%Z -> total_pressure h (jH * sz_nZnT s + kl)%Z = presH h jH + B2 jH kl / 2) by (intros j kl Hj Hkl; apply (proj2 (HM j Hj) kl Hkl)).
  assert (BP : forall jH kl, (0 <= jH < ns - 1)%Z -> (0 <= kl < sz_nZnT s)%Z -> B2 jH kl = Btor2 jH kl + Bp2 jH kl) by (intros j kl Hj Hkl; apply (proj2 (HM j Hj) kl Hkl)).
  assert (E1 := sump_ok s ns h sgn ds DV). assert (E2 := sumbtot_ok s ns h sgn ds OK NS B2 DV TP).
  assert (E3 := sumbtor_ok s ns h sgn ds OK NS). assert (E4 := sumbpol_ok s ns h sgn ds OK NS B2 Bp2 DV TP BP).
  rewrite integral_eq in E1, E2, E3, E4. fold I in E1, E2, E3, E4. fold Btor2 in E3. fold P in E1.
  split; [unfold betatot; rewrite E1, E2; reflexivity|]. split; [unfold betator; rewrite E1, E3; reflexivity|].
  split; [unfold betapol; rewrite E1, E4; reflexivity|]. intros H1 H2 H3 H4.
  apply betas; congruence.
Qed.
Print Assumptions C114_betas.

(** C114, profiles: on each surface beta is the pressure over the mean field energy
    density, and <1/R> is the mean of 1/R, between its extremes. *)
Definition surface_mean (s : sizes) (h : half_fields) (sgn : R) (jH : Z) (f : Z -> R) : R :=
  let dV kl := sgn * gsqrt h (jH * sz_nZnT s + kl)%Z * sz_wInt s (kl mod sz_nThetaEff s)%Z in
  zsum 0 (sz_nZnT s) (fun kl => f kl * dV kl) / zsum 0 (sz_nZnT s) dV.
Theorem C114_profiles s ns h sgn B2 Bp2 jH : sz_ok s -> mhd_state s ns h sgn B2 Bp2 -> (0 <= jH < ns - 1)%Z ->
  (dVdsH h jH <> 0 -> beta_vol s h sgn jH = presH h jH / surface_mean s h sgn jH (fun kl => B2 jH kl / 2)) /\
  overr s h sgn jH = surface_mean s h sgn jH (fun kl => / r12 h (jH * sz_nZnT s + kl)%Z) /\
  (forall lo hi, 0 < lo -> (forall kl, (0 <= kl < sz_nZnT s)%Z -> 0 < sgn * gsqrt h (jH * sz_nZnT s + kl)%Z /\ lo <= r12 h (jH * sz_nZnT s + kl)%Z <= hi) ->
    / hi <= overr s h sgn jH <= / lo).
Proof.
  intros OK HM Hj. assert (DV := state_dv s ns h sgn B2 Bp2 HM).
  assert (EM : forall f, surf_mean s h sgn jH f = surface_mean s h sgn jH f).
  { intros f. unfold surf_mean, surface_mean. cbv zeta. apply (f_equal2 Rdiv); apply zsum_ext; intros; unfold tau; ring. }
  split; [|split].
  - intros D. rewrite <- EM. refine (beta_vol_ok s ns h sgn B2 DV _ jH Hj D). intros j kl Hj' Hkl. apply (proj2 (HM j Hj') kl Hkl).
  - rewrite <- EM. exact (overr_ok s ns h sgn DV jH Hj).
  - intros lo hi L0 H. rewrite (overr_ok s ns h sgn DV jH Hj). apply (mean_between s ns h sgn OK ltac:(lia)); intros kl Hkl. destruct (H kl Hkl) as (Q1 & Q2).
    split.
    + unfold tau. replace (sgn * sz_wInt s (kl mod sz_nThetaEff s)%Z * gsqrt h (jH * sz_nZnT s + kl)%Z) with (sgn * gsqrt h (jH * sz_nZnT s + kl)%Z * sz_wInt s (kl mod sz_nThetaEff s)%Z) by ring.
      apply Rmult_lt_0_compat; [exact Q1|]. apply JxbProofs.wInt_pos; [exact OK|]. apply Z.mod_pos_bound. pose proof (nTE_pos s OK). lia.
    + split; apply Rinv_le_contravar; lra.
Qed.
Print Assumptions C114_profiles.

(** C114, flux: the reported toroidal flux is the sum of the flux through the surfaces. *)
Theorem C114_flux s ns h sgn ds phip lam : sz_ok s -> (1 <= ns)%Z ->
  (forall jH kl, (0 <= jH < ns - 1)%Z -> (0 <= kl < sz_nZnT s)%Z -> bsupv h (jH * sz_nZnT s + kl)%Z * gsqrt h (jH * sz_nZnT s + kl)%Z = phip jH + lam jH kl) ->
  (forall jH, (0 <= jH < ns - 1)%Z -> zsum 0 (sz_nZnT s) (fun kl => lam jH kl * sz_wInt s (kl mod sz_nThetaEff s)%Z) = 0) ->
  toroidal_flux s ns h sgn ds = 2 * PI * sgn * zsum 0 (ns - 1) (fun jH => ds * phip jH).
Proof. intros OK NS. exact (flux_ok s ns h sgn ds OK phip lam). Qed.
Print Assumptions C114_flux.

(** Concrete case for C114: R = 2, B^v = 1, sqrt(g) = -1, pressure 1 / (j + 1), poloidal field 1. *)
Example C114_case : exists s h, make_sizes true 5 3 2 0 0 3 2 = Some s /\ mhd_state s 9 h (-1) (fun _ _ => 5) (fun _ _ => 1) /\
  (forall jH, dVdsH h jH = 1) /\ (forall i, r12 h i = 2).
Proof.
  assert (exists s, make_sizes true 5 3 2 0 0 3 2 = Some s) as (s & ES) by (eexists; reflexivity).
  assert (OK := make_sizes_ok _ _ _ _ _ _ _ _ _ ES).
  exists s, (mkHalf (fun _ => -1) (fun _ => 2) (fun _ => 1) (fun i => / (IZR (i / sz_nZnT s) + 1) + 5 / 2) (fun _ => 1) (fun j => / (IZR j + 1))).
  split; [exact ES|]. split; [|split; reflexivity].
  intros j Hj. cbn [dVdsH total_pressure presH r12 bsupv gsqrt]. split.
  - pose proof (surf_const s OK 1) as E. rewrite (zsum_ext 0 (sz_nZnT s) _ (fun kl => 1 * sz_wInt s (kl mod sz_nThetaEff s)%Z)) by (intros; ring). symmetry. exact E.
  - intros kl Hkl. replace (j * sz_nZnT s + kl)%Z with (kl + j * sz_nZnT s)%Z by ring. rewrite Z.div_add, Z.div_small, Z.add_0_l by lia. split; [reflexivity|ring].
Qed.

(** C115: the reported largest and smallest R of the boundary are attained on the
    angular grid and bound R on the whole grid, theta in [0, 2 pi). *)
Theorem C115_R_extremes lasym nfp mpol ntor ntheta nzeta mg ng T th ns lfreeb s p (b0 : basis_tables)
    (xmpq sqrtSF : Z -> R) (x : coefs) (g0 ga0 : geom) (g : full_geo) (big : R) :
  setting lasym nfp mpol ntor ntheta nzeta mg ng T th ns lfreeb s p -> supported s -> nsMaxF1 p = ns ->
  lcfs_from s p ns (g_q (geometryFromFourier s (tables s b0) p xmpq sqrtSF x g0 ga0)) g ->
  let Rb := lcfs_series s p ns x cR in
  let pt k l := (0 <= k < sz_nZeta s)%Z /\ (0 <= l < sz_nThetaEven s)%Z in
  (forall k l, pt k l -> 0 < Rb (theta_pt s l) (phi_pt s k) <= big) ->
  (exists k l, pt k l /\ rmax_surf s ns g big = Rb (theta_pt s l) (phi_pt s k)) /\
  (exists k l, pt k l /\ rmin_surf s ns g big = Rb (theta_pt s l) (phi_pt s k)) /\
  (forall k l, pt k l -> rmin_surf s ns g big <= Rb (theta_pt s l) (phi_pt s k) <= rmax_surf s ns g big).
Proof.
  intros HS SU LAST FROM Rb pt POS. destruct (setting_ok _ _ _ _ _ _ _ _ _ _ _ _ _ _ HS) as (OK & M2 & RO & P0).
  destruct (link HS SU LAST b0 xmpq sqrtSF x g0 ga0 g FROM) as (V1 & V2 & _).
  assert (TP := lcfs_tp s p ns x cR OK). assert (EV := fun LA a b => lcfs_R_even s p ns x a b LA).
  pose proof (so_nT s OK). pose proof (so_nTE s OK) as TE. pose proof (so_nTR s OK).
  assert (LE : (sz_nThetaEff s <= sz_nThetaEven s)%Z) by (rewrite TE; destruct (sz_lasym s); lia).
  destruct (rmax_ok s ns g OK Rb V1 TP EV big) as (A1 & A2); [intros k l Hk Hl; apply POS; split; [exact Hk|lia]|].
  destruct (rmin_ok s ns g OK Rb V1 TP EV big) as (B1 & B2); [intros k l Hk Hl; apply POS; split; [exact Hk|lia]|].
  split; [destruct A1 as (k & l & Hk & Hl & E); exists k, l; unfold pt; tauto|].
  split; [destruct B1 as (k & l & Hk & Hl & E); exists k, l; unfold pt; tauto|].
  intros k l (Hk & Hl). split; [apply B2|apply A2]; assumption.
Qed.
Print Assumptions C115_R_extremes.

(** C115, Z and symmetry planes, stellarator-symmetric runs: zmax_surf is the largest
    Z of the stored half, or 0; the waist is R(0) - R(pi) in the planes phi = 0 and
    (even number of planes) phi = pi / nfp, the height twice the largest Z there. *)
Theorem C115_planes nfp mpol ntor ntheta nzeta mg ng T th ns lfreeb s p (b0 : basis_tables)
    (xmpq sqrtSF : Z -> R) (x : coefs) (g0 ga0 : geom) (g : full_geo) (big : R) :
  setting false nfp mpol ntor ntheta nzeta mg ng T th ns lfreeb s p -> supported s -> nsMaxF1 p = ns ->
  lcfs_from s p ns (g_q (geometryFromFourier s (tables s b0) p xmpq sqrtSF x g0 ga0)) g ->
  let Rb := lcfs_series s p ns x cR in let Zb := lcfs_series s p ns x cZ in
  let largest_Z H phi := (forall l, (0 <= l < sz_nThetaEff s)%Z -> Zb (theta_pt s l) phi <= H) /\ 0 <= H /\
    (H = 0 \/ exists l, (0 <= l < sz_nThetaEff s)%Z /\ H = Zb (theta_pt s l) phi) in
  (forall k l, (0 <= k < sz_nZeta s)%Z -> (0 <= l < sz_nThetaEff s)%Z -> Zb (theta_pt s l) (phi_pt s k) <= zmax_surf s ns g big) /\
  (exists w h, waist s ns g = Some w /\ height s ns g = Some h /\ w 0%Z = Rb 0 0 - Rb PI 0 /\ largest_Z (h 0%Z / 2) 0 /\
   ((0 < sz_ntor s)%Z -> Z.even (sz_nZeta s) = true ->
     let half := PI / IZR (sz_nfp s) in w 1%Z = Rb 0 half - Rb PI half /\ largest_Z (h 1%Z / 2) half)).
Proof.
  intros HS SU LAST FROM Rb Zb largest_Z. destruct (setting_ok _ _ _ _ _ _ _ _ _ _ _ _ _ _ HS) as (OK & M2 & RO & P0).
  destruct (link HS SU LAST b0 xmpq sqrtSF x g0 ga0 g FROM) as (V1 & V2 & _). fold Rb in V1. fold Zb in V2.
  assert (LA : sz_lasym s = false).
  { destruct HS as (_ & ES & _). unfold make_sizes in ES. destruct ((nfp <? 1)%Z || (mpol <? 1)%Z || (ntor <? 0)%Z); [discriminate|]. apply some_inj in ES. subst s. reflexivity. }
  split; [apply (proj2 (proj2 (zmax_ok s ns g OK Zb V2 big)))|].
  destruct (waist_symmetric s ns g OK Rb Zb V1 V2 (fun LA a b => lcfs_R_even s p ns x a b LA) LA SU) as (w & h & W1 & W2 & W3 & W4 & W5).
  exists w, h. split; [exact W1|]. split; [exact W2|].
  assert (PH : forall k, largest_Z (plane_height s Zb k / 2) (phi_pt s k)).
  { intros k. unfold largest_Z, plane_height. pose proof (nTE_pos s OK).
    destruct (max_fold (fun l => Zb (theta_pt s l) (phi_pt s k)) (sz_nThetaEff s) ltac:(lia) 0) as (A & B & C).
    match goal with |- context [?m * 2 / 2] => replace (m * 2 / 2) with m by field end. split; [exact B|]. split; [exact A|exact C]. }
  assert (P0' : phi_pt s 0 = 0) by (unfold phi_pt; unfold Rdiv; rewrite Rmult_0_r, !Rmult_0_l; reflexivity).
  split; [rewrite W3; unfold plane_waist; rewrite P0'; reflexivity|].
  split; [rewrite W4; rewrite <- P0'; apply PH|].
  intros N EV half. destruct (W5 N) as (W6 & W7). assert (HP := half_period s OK EV). fold half in HP.
  split; [rewrite W6; unfold plane_waist; rewrite HP; reflexivity|]. rewrite W7, <- HP. apply PH.
Qed.
Print Assumptions C115_planes.

(** C115, field extremes: for every surface and poloidal angle bmax and bmin are the
    largest and smallest |B| over the toroidal grid. *)
Theorem C115_B_extremes s h B2 big jH l : sz_ok s -> (0 <= l < sz_nThetaReduced s)%Z ->
  (forall k, (0 <= k < sz_nZeta s)%Z -> total_pressure h (jH * sz_nZnT s + (k * sz_nThetaEff s + l))%Z = presH h jH + B2 k / 2) ->
  (forall k, (0 <= k < sz_nZeta s)%Z -> sqrt (B2 k) <= big) ->
  (exists k, (0 <= k < sz_nZeta s)%Z /\ bmax s h jH l = sqrt (B2 k)) /\ (exists k, (0 <= k < sz_nZeta s)%Z /\ bmin s h big jH l = sqrt (B2 k)) /\
  (forall k, (0 <= k < sz_nZeta s)%Z -> bmin s h big jH l <= sqrt (B2 k) <= bmax s h jH l).
Proof.
  intros OK Hl TP BIG. destruct (bmax_ok s h B2 jH l OK Hl TP) as (A1 & A2). destruct (bmin_ok s h B2 big jH l OK Hl TP BIG) as (B1 & B2').
  split; [exact A1|]. split; [exact B1|]. intros k Hk. split; [apply B2'|apply A2]; exact Hk.
Qed.
Print Assumptions C115_B_extremes.

(** C115, refuted without stellarator symmetry: for three nested circles of radius
    0, 1/2, 1 around (R, Z) = (10, -5) the waist (2) is reported below 3/2, the height
    (2) as 0 and the largest Z (-4) as 0. *)
Theorem C115_asymmetric_refuted : exists s g, make_sizes true 1 2 0 0 0 2 0 = Some s /\
  (forall j l, (0 <= j < 3)%Z -> (0 <= l < sz_nThetaEff s)%Z ->
    let i := at_pt s j 0 l in r_e g i + r_o g i = 10 + IZR j / 2 * cos (theta_pt s l) /\ z_e g i + z_o g i = -5 + IZR j / 2 * sin (theta_pt s l)) /\
  (exists w, waist s 3 g = Some w /\ w 0%Z <= 3 / 2) /\
  (exists h, height s 3 g = Some h /\ h 0%Z = 0) /\
  (forall big, zmax_surf s 3 g big = 0).
Proof. exact asym_witness. Qed.
Print Assumptions C115_asymmetric_refuted.

(** C115, refuted for axisymmetric runs on several toroidal planes, which are
    accepted: the second plane is written past the end of the arrays. *)
Theorem C115_overrun_refuted : exists s, make_sizes false 1 2 0 0 2 2 0 = Some s /\ forall ns g, waist s ns g = None /\ height s ns g = None.
Proof.
  eexists. split; [reflexivity|]. intros ns g. apply waist_overrun; [reflexivity|cbn; lia].
Qed.
Print Assumptions C115_overrun_refuted.
