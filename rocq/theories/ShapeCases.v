From Coq Require Import ZArith List Bool Reals Lia Lra Psatz.
From Verif Require Import Base BaseLemmas SumLemmas SizesModel DftTables DftSpec GeoModel ShapeModel ShapeSpec ShapeProofs ShapeMain ShapeFinal.
Open Scope R_scope.

(** a helix-shaped plasma: circular sections of height c with the centre at Z = - sin phi *)
Definition helixR (t p : R) : R := 10 + cos t.
Definition helixZ (c t p : R) : R := c / 2 * sin t - sin p.
Definition helix (s : sizes) (c : R) : full_geo :=
  let th i := theta_pt s (i mod sz_nThetaEff s) in let p i := phi_pt s (i / sz_nThetaEff s mod sz_nZeta s) in
  mkGeo (fun i => helixR (th i) (p i)) (fun _ => 0) (fun i => helixZ c (th i) (p i)) (fun _ => 0)
    (fun _ => 0) (fun _ => 0) (fun _ => 0) (fun _ => 0) (fun _ => 0) (fun _ => 0) (fun _ => 0) (fun _ => 0).
Lemma helix_sampled s c sq jF : sz_ok s -> sampled s (helix s c) sq jF helixR (helixZ c).
Proof.
  intros OK k l Hk Hl i. pose proof (so_nZeta s OK).
  assert (A : (i mod sz_nThetaEff s = l)%Z). { unfold i. rewrite Z.add_comm, Z_mod_plus_full. apply Z.mod_small. exact Hl. }
  assert (B : (i / sz_nThetaEff s mod sz_nZeta s = k)%Z). { unfold i. rewrite Z.add_comm, Z.div_add by lia. rewrite (Z.div_small l) by lia. rewrite Z.add_0_l, Z.add_comm, Z_mod_plus_full. apply Z.mod_small. exact Hk. }
  unfold helix. cbn [r_e r_o z_e z_o]. rewrite A, B. split; ring.
Qed.
Lemma helix_periodic c : periodic 1 helixR /\ periodic 1 (helixZ c) /\ stellarator_symmetric helixR (helixZ c).
Proof.
  assert (P1 : forall x, sin (x + 2 * PI / 1) = sin x) by (intros x; replace (x + 2 * PI / 1) with (x + 2 * PI) by field; apply sin_plus_2PI || (rewrite sin_plus, sin_2PI, cos_2PI; ring)).
  assert (C1 : forall x, cos (x + 2 * PI) = cos x) by (intros x; rewrite cos_plus, sin_2PI, cos_2PI; ring).
  assert (S1 : forall x, sin (x + 2 * PI) = sin x) by (intros x; rewrite sin_plus, sin_2PI, cos_2PI; ring).
  repeat split; unfold helixR, helixZ.
  - rewrite C1. reflexivity.
  - rewrite S1. reflexivity.
  - rewrite P1. reflexivity.
  - rewrite cos_neg. reflexivity.
  - rewrite !sin_neg. ring.
Qed.
Lemma helix_bad : exists s g Rf Zf, make_sizes false 1 2 1 0 7 2 1 = Some s /\
  (forall jF, sampled s g (fun _ => 1) jF Rf Zf) /\ periodic 1 Rf /\ periodic 1 Zf /\ stellarator_symmetric Rf Zf /\
  plane s 1 = Some 3%Z /\ phi_pt s 3 = 6 * PI / 7 /\
  forall big jF, 100 < big -> exists Rmin Rmax Zmin Zmax,
    smallest (sz_nThetaEven s) (fun j => Rf (theta_pt s j) (phi_pt s 3)) Rmin /\ largest (sz_nThetaEven s) (fun j => Rf (theta_pt s j) (phi_pt s 3)) Rmax /\
    smallest (sz_nThetaEven s) (fun j => Zf (theta_pt s j) (phi_pt s 3)) Zmin /\ largest (sz_nThetaEven s) (fun j => Zf (theta_pt s j) (phi_pt s 3)) Zmax /\
    (Zmax - Zmin) / (Rmax - Rmin) < yellip_at s big g (fun _ => 1) 3 jF.
Proof.
  assert (exists s, make_sizes false 1 2 1 0 7 2 1 = Some s) as (s & ES) by (eexists; reflexivity).
  assert (OK := make_sizes_ok _ _ _ _ _ _ _ _ _ ES).
  assert (K : sz_nThetaEven s = 10%Z /\ sz_nThetaReduced s = 6%Z /\ sz_nZeta s = 7%Z /\ sz_nThetaEff s = 6%Z /\ sz_nfp s = 1%Z) by (injection ES as <-; repeat split).
  destruct K as (NT & TR & NZ & TE & NF).
  set (c := sin (phi_pt s 3)). pose proof PI_RGT_0 as PI0.
  assert (PH : phi_pt s 3 = 6 * PI / 7) by (unfold phi_pt; rewrite NZ, NF; field).
  assert (C0 : 0 < c) by (unfold c; rewrite PH; apply sin_gt_0; lra). assert (C1 : c <= 1) by apply SIN_bound.
  destruct (helix_periodic c) as (P1 & P2 & P3).
  exists s, (helix s c), helixR, (helixZ c). split; [exact ES|]. split; [intros; apply helix_sampled, OK|]. split; [exact P1|]. split; [exact P2|]. split; [exact P3|].
  split; [unfold plane; rewrite NZ; reflexivity|]. split; [exact PH|].
  intros big jF HB. set (sq := fun _ : Z => 1). assert (SMP := helix_sampled s c sq jF OK). assert (HK : (0 <= 3 < sz_nZeta s)%Z) by lia.
  rewrite <- NF in P1, P2.
  assert (TH : forall l, theta_pt s l = 2 * PI * IZR l / 10) by (intros; unfold theta_pt; rewrite NT; reflexivity).
  assert (NR : exists l, (0 <= l < sz_nThetaReduced s)%Z /\ helixR (theta_pt s l) (phi_pt s 3) <> helixR 0 (phi_pt s 3)).
  { exists 5%Z. split; [lia|]. unfold helixR. rewrite TH. replace (2 * PI * 5 / 10) with PI by field. rewrite cos_PI, cos_0. lra. }
  assert (BR : forall j, (0 <= j < sz_nThetaEven s)%Z -> Rabs (helixR (theta_pt s j) (phi_pt s 3)) < big).
  { intros j _. unfold helixR. pose proof (COS_bound (theta_pt s j)). apply Rabs_def1; lra. }
  destruct (section_R s big (helix s c) sq 3 jF helixR (helixZ c) OK SMP HK P1 (fun t p => proj1 (P3 t p)) BR NR) as (R1 & R2).
  destruct (exists_extremes (sz_nThetaEven s) (fun j => helixZ c (theta_pt s j) (phi_pt s 3)) ltac:(lia)) as ((Zmax & Z1) & (Zmin & Z2)).
  exists (minimum_x (scan_section s big (helix s c) sq 3 jF)), (maximum_x (scan_section s big (helix s c) sq 3 jF)), Zmin, Zmax.
  split; [exact R2|]. split; [exact R1|]. split; [exact Z2|]. split; [exact Z1|].
  assert (W : minimum_x (scan_section s big (helix s c) sq 3 jF) < maximum_x (scan_section s big (helix s c) sq 3 jF)).
  { destruct NR as (l & L & D). destruct R1 as (_ & R1). destruct R2 as (_ & R2). pose proof (R1 l ltac:(lia)). pose proof (R2 l ltac:(lia)).
    pose proof (R1 0%Z ltac:(lia)) as U1. pose proof (R2 0%Z ltac:(lia)) as U2. cbv beta in *. rewrite theta0 in U1, U2 by exact OK. destruct (Rdichotomy _ _ D); lra. }
  assert (Y0 : yz s (helix s c) sq jF 3 0 = - c). { rewrite (yz1 s (helix s c) sq 3 jF helixR (helixZ c) OK SMP HK) by lia. unfold helixZ. rewrite theta0 by exact OK. rewrite sin_0. fold c. ring. }
  pose proof (SIN_bound (theta_pt s 1)) as SB.
  assert (Y1 : yz s (helix s c) sq jF 3 1 = c / 2 * sin (theta_pt s 1) - c). { rewrite (yz1 s (helix s c) sq 3 jF helixR (helixZ c) OK SMP HK) by lia. reflexivity. }
  assert (A0 : Rabs (- c) = c) by (rewrite Rabs_Ropp; apply Rabs_right; lra).
  destruct (bad_height s big (helix s c) sq 3 jF _ _ ltac:(lia) Y0 Y1) as (H1 & H2); rewrite ?A0; [lra|apply Rabs_def1; nra|nra|]. rewrite A0 in H1.
  assert (ZM : Zmax - Zmin <= c).
  { destruct Z1 as ((i & _ & E1) & _). destruct Z2 as ((j & _ & E2) & _). rewrite E1, E2. unfold helixZ. pose proof (SIN_bound (theta_pt s i)). pose proof (SIN_bound (theta_pt s j)). nra. }
  unfold yellip_at, width. apply Rmult_lt_compat_r; [apply Rinv_0_lt_compat; lra|]. nra.
Qed.
(** without stellarator symmetry: a circular torus below the plane Z = 0 *)
Definition low (s : sizes) : full_geo :=
  mkGeo (fun i => 10 + cos (theta_pt s (i mod sz_nThetaEff s))) (fun _ => 0) (fun i => -5 + sin (theta_pt s (i mod sz_nThetaEff s))) (fun _ => 0)
    (fun _ => 0) (fun _ => 0) (fun _ => 0) (fun _ => 0) (fun _ => 0) (fun _ => 0) (fun _ => 0) (fun _ => 0).
Lemma low_bad : exists s g, make_sizes true 1 2 0 0 0 2 0 = Some s /\ (forall jF, sampled s g (fun _ => 1) jF (fun t _ => 10 + cos t) (fun t _ => -5 + sin t)) /\
  forall big jF, 100 < big -> 9 / 2 <= yellip_at s big g (fun _ => 1) 0 jF.
Proof.
  assert (exists s, make_sizes true 1 2 0 0 0 2 0 = Some s) as (s & ES) by (eexists; reflexivity).
  assert (OK := make_sizes_ok _ _ _ _ _ _ _ _ _ ES).
  assert (K : sz_nThetaEven s = 10%Z /\ sz_nThetaReduced s = 6%Z /\ sz_nZeta s = 1%Z /\ sz_nThetaEff s = 10%Z /\ sz_nfp s = 1%Z) by (injection ES as <-; repeat split).
  destruct K as (NT & TR & NZ & TE & NF).
  assert (SMP : forall jF, sampled s (low s) (fun _ => 1) jF (fun t _ => 10 + cos t) (fun t _ => -5 + sin t)).
  { intros jF k l Hk Hl i. assert (A : (i mod sz_nThetaEff s = l)%Z). { unfold i. rewrite Z.add_comm, Z_mod_plus_full. apply Z.mod_small. exact Hl. }
    unfold low. cbn [r_e r_o z_e z_o]. rewrite A. split; ring. }
  exists s, (low s). split; [exact ES|]. split; [exact SMP|]. intros big jF HB. set (sq := fun _ : Z => 1) in *. assert (HK : (0 <= 0 < sz_nZeta s)%Z) by lia. specialize (SMP jF).
  assert (P1 : periodic (sz_nfp s) (fun t _ => 10 + cos t)) by (intros t p; split; [rewrite cos_plus, sin_2PI, cos_2PI; ring|reflexivity]).
  assert (TH : forall l, theta_pt s l = 2 * PI * IZR l / 10) by (intros; unfold theta_pt; rewrite NT; reflexivity).
  assert (NR : exists l, (0 <= l < sz_nThetaReduced s)%Z /\ 10 + cos (theta_pt s l) <> 10 + cos 0).
  { exists 5%Z. split; [lia|]. rewrite TH. replace (2 * PI * 5 / 10) with PI by field. rewrite cos_PI, cos_0. lra. }
  assert (BR : forall j, (0 <= j < sz_nThetaEven s)%Z -> Rabs (10 + cos (theta_pt s j)) < big).
  { intros j _. pose proof (COS_bound (theta_pt s j)). apply Rabs_def1; lra. }
  destruct (section_R s big (low s) sq 0 jF (fun t _ => 10 + cos t) (fun t _ => -5 + sin t) OK SMP HK P1) as (R1 & R2); [intros; rewrite cos_neg; reflexivity|exact BR|exact NR|].
  assert (W : 0 < maximum_x (scan_section s big (low s) sq 0 jF) - minimum_x (scan_section s big (low s) sq 0 jF) <= 2).
  { split.
    - destruct R1 as (_ & R1). destruct R2 as (_ & R2). pose proof (R2 5%Z ltac:(lia)) as U2. pose proof (R1 0%Z ltac:(lia)) as U1. cbv beta in *. rewrite TH in U1, U2.
      replace (2 * PI * 5 / 10) with PI in U2 by field. replace (2 * PI * 0 / 10) with 0 in U1 by field. rewrite cos_PI in U2. rewrite cos_0 in U1. lra.
    - destruct R1 as ((i & _ & E1) & _). destruct R2 as ((j & _ & E2) & _). rewrite E1, E2. pose proof (COS_bound (theta_pt s i)). pose proof (COS_bound (theta_pt s j)). lra. }
  pose proof (SIN_bound (theta_pt s 1)) as SB.
  assert (Y0 : yz s (low s) sq jF 0 0 = -5). { rewrite (yz1 s (low s) sq 0 jF _ _ OK SMP HK) by lia. rewrite theta0 by exact OK. rewrite sin_0. ring. }
  assert (Y1 : yz s (low s) sq jF 0 1 = -5 + sin (theta_pt s 1)). { rewrite (yz1 s (low s) sq 0 jF _ _ OK SMP HK) by lia. reflexivity. }
  assert (A0 : Rabs (-5) = 5) by (rewrite Rabs_left; lra).
  destruct (bad_height s big (low s) sq 0 jF _ _ ltac:(lia) Y0 Y1) as (H1 & H2); rewrite ?A0; [lra|apply Rabs_def1; lra|lra|]. rewrite A0 in H1.
  unfold yellip_at, width. set (w := maximum_x _ - minimum_x _) in *. apply Rmult_le_reg_r with w; [lra|]. unfold Rdiv at 2. rewrite Rmult_assoc, Rinv_l by lra. lra.
Qed.
