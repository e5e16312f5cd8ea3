From Coq Require Import ZArith List Bool Reals Lia Lra.
From Coquelicot Require Import Coquelicot.
From Verif Require Import Base BaseLemmas SumLemmas TrigSums SizesModel FourierModel FourierSpec PartModel KernelProofs DftModel DftTables DftForces DftSpec DftFold DftProps AxisProofs BsubProofs JxbProofs JxbModel JxbMain FluxProofs TrigPoly GeoModel GeoSpec GeoProofs GeoFinal.
Import ListNotations.
Open Scope R_scope.

Lemma zsum_nonneg lo hi f : (forall i, (lo <= i < hi)%Z -> 0 <= f i) -> 0 <= zsum lo hi f.
Proof. intros H. rewrite <- (zsum_zero lo hi (fun _ => 0)) by reflexivity. apply zsum_le. exact H. Qed.

Section M.
Variables (s : sizes) (ns : Z) (h : half_fields) (sgn ds : R).
Hypothesis OK : sz_ok s.
Hypothesis NS : (1 <= ns)%Z.
Local Notation nZnT := (sz_nZnT s).
Local Notation tau jH kl := (tau s h sgn jH kl).

(** Volume element dV/ds of each half-grid surface and the field energy density. *)
Variables (B2 Bp2 : Z -> Z -> R).
Hypothesis DV : forall jH, (0 <= jH < ns - 1)%Z -> dVdsH h jH = zsum 0 nZnT (fun kl => tau jH kl).
Hypothesis TP : forall jH kl, (0 <= jH < ns - 1)%Z -> (0 <= kl < nZnT)%Z -> total_pressure h (jH * nZnT + kl)%Z = presH h jH + B2 jH kl / 2.

Definition integral (f : Z -> Z -> R) : R := vnorm ds * zsum 0 (ns - 1) (fun jH => zsum 0 nZnT (fun kl => f jH kl * tau jH kl)).

Lemma sump_ok : sump ns h ds = integral (fun jH _ => presH h jH).
Proof.
  unfold sump, integral. f_equal. erewrite for_up_acc; [|intros; reflexivity]. rewrite Rplus_0_l. apply zsum_ext. intros j Hj.
  rewrite DV by lia. rewrite (zsum_scale 0 nZnT (presH h j) (fun kl => tau j kl)). ring.
Qed.
Lemma inner_sums jH : forall a b c : R, for_up 0 nZnT (fun kl (st : R * R * R) =>
        let '(bsq, btor, p2) := st in
        let r_bsupv := r12 h (jH * nZnT + kl)%Z * bsupv h (jH * nZnT + kl)%Z in
        (bsq + total_pressure h (jH * nZnT + kl)%Z * tau jH kl, btor + tau jH kl * r_bsupv * r_bsupv, p2)) (a, b, c) =
  (a + zsum 0 nZnT (fun kl => total_pressure h (jH * nZnT + kl)%Z * tau jH kl),
   b + zsum 0 nZnT (fun kl => (r12 h (jH * nZnT + kl)%Z * bsupv h (jH * nZnT + kl)%Z) ^ 2 * tau jH kl), c).
Proof.
  intros a b c.
  refine (for_up_ind (fun k st => st = (a + zsum 0 k (fun kl => total_pressure h (jH * nZnT + kl)%Z * tau jH kl), b + zsum 0 k (fun kl => (r12 h (jH * nZnT + kl)%Z * bsupv h (jH * nZnT + kl)%Z) ^ 2 * tau jH kl), c)) _ _ _ _ (znt_pos s OK) _ _).
  - rewrite !zsum_empty by lia. rewrite !Rplus_0_r. reflexivity.
  - intros k st Hk ->. rewrite !zsum_snoc by lia. cbv zeta beta. apply f_equal2; [apply f_equal2; ring|reflexivity].
Qed.
Lemma field_sums_ok : field_sums s ns h sgn =
  (zsum 0 (ns - 1) (fun jH => zsum 0 nZnT (fun kl => total_pressure h (jH * nZnT + kl)%Z * tau jH kl)),
   zsum 0 (ns - 1) (fun jH => zsum 0 nZnT (fun kl => (r12 h (jH * nZnT + kl)%Z * bsupv h (jH * nZnT + kl)%Z) ^ 2 * tau jH kl)),
   zsum 0 (ns - 1) (fun jH => presH h jH * presH h jH * dVdsH h jH)).
Proof.
  unfold field_sums.
  set (A := fun jH => zsum 0 nZnT (fun kl => total_pressure h (jH * nZnT + kl)%Z * tau jH kl)).
  set (B := fun jH => zsum 0 nZnT (fun kl => (r12 h (jH * nZnT + kl)%Z * bsupv h (jH * nZnT + kl)%Z) ^ 2 * tau jH kl)).
  set (C := fun jH => presH h jH * presH h jH * dVdsH h jH).
  assert (N0 : (0 <= ns - 1)%Z) by lia.
  refine (for_up_ind (fun k st => st = (zsum 0 k A, zsum 0 k B, zsum 0 k C)) _ _ _ _ N0 _ _).
  - rewrite !zsum_empty by lia. reflexivity.
  - intros k st Hk ->. rewrite inner_sums. cbn [fst snd]. rewrite !zsum_snoc by lia. reflexivity.
Qed.
Lemma sumbtot_ok : sumbtot s ns h sgn ds = integral B2.
Proof.
  unfold sumbtot. rewrite field_sums_ok, sump_ok. cbn [fst snd]. unfold integral. rewrite <- Rmult_minus_distr_l.
  rewrite <- zsum_minus. rewrite <- Rmult_assoc, (Rmult_comm 2), Rmult_assoc. f_equal. rewrite <- zsum_scale. apply zsum_ext. intros j Hj.
  rewrite <- zsum_minus, <- zsum_scale. apply zsum_ext. intros kl Hkl. rewrite TP by lia. field.
Qed.
Lemma sumbtor_ok : sumbtor s ns h sgn ds = integral (fun jH kl => (r12 h (jH * nZnT + kl)%Z * bsupv h (jH * nZnT + kl)%Z) ^ 2).
Proof. unfold sumbtor. rewrite field_sums_ok. reflexivity. Qed.
Lemma integral_ext f f' : (forall jH kl, (0 <= jH < ns - 1)%Z -> (0 <= kl < nZnT)%Z -> f jH kl = f' jH kl) -> integral f = integral f'.
Proof. intros H. unfold integral. f_equal. apply zsum_ext. intros j Hj. apply zsum_ext. intros kl Hkl. rewrite H by assumption. reflexivity. Qed.
Lemma integral_minus f f' : integral (fun j kl => f j kl - f' j kl) = integral f - integral f'.
Proof.
  unfold integral. rewrite <- Rmult_minus_distr_l, <- zsum_minus. f_equal. apply zsum_ext. intros j Hj. rewrite <- zsum_minus. apply zsum_ext. intros; ring.
Qed.
Lemma integral_nonneg f : 0 <= ds -> (forall jH kl, (0 <= jH < ns - 1)%Z -> (0 <= kl < nZnT)%Z -> 0 <= f jH kl /\ 0 <= tau jH kl) -> 0 <= integral f.
Proof.
  intros D H. unfold integral. apply Rmult_le_pos.
  - unfold vnorm, anorm. pose proof PI_RGT_0. apply Rmult_le_pos; [lra|]. apply Rmult_le_pos; lra.
  - apply zsum_nonneg. intros j Hj. apply zsum_nonneg. intros kl Hkl. destruct (H j kl Hj Hkl). apply Rmult_le_pos; assumption.
Qed.
Hypothesis BP : forall jH kl, (0 <= jH < ns - 1)%Z -> (0 <= kl < nZnT)%Z ->
  B2 jH kl = (r12 h (jH * nZnT + kl)%Z * bsupv h (jH * nZnT + kl)%Z) ^ 2 + Bp2 jH kl.
Lemma sumbpol_ok : sumbpol s ns h sgn ds = integral Bp2.
Proof.
  unfold sumbpol. rewrite sumbtot_ok, sumbtor_ok, <- integral_minus. apply integral_ext. intros j kl Hj Hkl. rewrite BP by assumption. ring.
Qed.

Lemma betas : sump ns h ds <> 0 -> sumbtot s ns h sgn ds <> 0 -> sumbtor s ns h sgn ds <> 0 -> sumbpol s ns h sgn ds <> 0 ->
  / betatot s ns h sgn ds = / betapol s ns h sgn ds + / betator s ns h sgn ds.
Proof.
  intros H1 H2 H3 H4. unfold betatot, betapol, betator. unfold sumbpol in *. field. tauto.
Qed.

Definition surf_mean (jH : Z) (f : Z -> R) : R := zsum 0 nZnT (fun kl => f kl * tau jH kl) / zsum 0 nZnT (fun kl => tau jH kl).
Lemma beta_vol_ok jH : (0 <= jH < ns - 1)%Z -> dVdsH h jH <> 0 -> beta_vol s h sgn jH = presH h jH / surf_mean jH (fun kl => B2 jH kl / 2).
Proof.
  intros Hj D. unfold beta_vol, surf_mean. f_equal. erewrite for_up_acc; [|intros; reflexivity]. rewrite Rplus_0_l. rewrite <- DV by exact Hj.
  rewrite (zsum_ext 0 nZnT _ (fun kl => presH h jH * tau jH kl + B2 jH kl / 2 * tau jH kl)) by (intros kl Hkl; rewrite TP by assumption; ring).
  rewrite zsum_plus, (zsum_scale 0 nZnT (presH h jH) (fun kl => tau jH kl)), <- DV by exact Hj. field. exact D.
Qed.
Lemma overr_ok jH : (0 <= jH < ns - 1)%Z -> overr s h sgn jH = surf_mean jH (fun kl => / r12 h (jH * nZnT + kl)%Z).
Proof.
  intros Hj. unfold overr, surf_mean. rewrite DV by exact Hj. f_equal. erewrite for_up_acc; [|intros; reflexivity]. rewrite Rplus_0_l. apply zsum_ext. intros; unfold Rdiv; ring.
Qed.
Lemma mean_between jH f lo hi : (forall kl, (0 <= kl < nZnT)%Z -> 0 < tau jH kl /\ lo <= f kl <= hi) -> lo <= surf_mean jH f <= hi.
Proof.
  intros H. unfold surf_mean. assert (ZP : (0 < nZnT)%Z) by (rewrite (so_nZnT s OK); pose proof (so_nZeta s OK); pose proof (nTE_pos s OK); nia).
  assert (P : 0 < zsum 0 nZnT (fun kl => tau jH kl)).
  { replace nZnT with (0 + (nZnT - 1) + 1)%Z by lia. rewrite zsum_snoc by lia.
    pose proof (zsum_nonneg 0 (0 + (nZnT - 1)) (fun kl => tau jH kl)) as Q. destruct (H (nZnT - 1)%Z ltac:(lia)) as (Q1 & _).
    replace (0 + (nZnT - 1))%Z with (nZnT - 1)%Z in * by lia. assert (0 <= zsum 0 (nZnT - 1) (fun kl => tau jH kl)) by (apply Q; intros kl Hkl; destruct (H kl ltac:(lia)); lra). lra. }
  split.
  - apply Rmult_le_reg_r with (1 := P). unfold Rdiv. rewrite Rmult_assoc, Rinv_l, Rmult_1_r by lra. rewrite <- zsum_scale.
    apply zsum_le. intros kl Hkl. destruct (H kl Hkl). apply Rmult_le_compat_r; lra.
  - apply Rmult_le_reg_r with (1 := P). unfold Rdiv. rewrite Rmult_assoc, Rinv_l, Rmult_1_r by lra. rewrite <- zsum_scale.
    apply zsum_le. intros kl Hkl. destruct (H kl Hkl). apply Rmult_le_compat_r; lra.
Qed.

Lemma flux_ok phip lam : (forall jH kl, (0 <= jH < ns - 1)%Z -> (0 <= kl < nZnT)%Z -> bsupv h (jH * nZnT + kl)%Z * gsqrt h (jH * nZnT + kl)%Z = phip jH + lam jH kl) ->
  (forall jH, (0 <= jH < ns - 1)%Z -> zsum 0 nZnT (fun kl => lam jH kl * sz_wInt s (kl mod sz_nThetaEff s)%Z) = 0) ->
  toroidal_flux s ns h sgn ds = 2 * PI * sgn * zsum 0 (ns - 1) (fun jH => ds * phip jH).
Proof.
  intros HB HL. unfold toroidal_flux, anorm.
  assert (E : for_up 0 (ns - 1) (fun jH acc => for_up 0 nZnT (fun kl acc => acc + bsupv h (jH * nZnT + kl)%Z * tau jH kl) acc) 0 = zsum 0 (ns - 1) (fun jH => sgn * phip jH)).
  { rewrite (for_up_acc _ (fun jH => sgn * phip jH)); [apply Rplus_0_l|]. intros j x Hj.
    rewrite (for_up_acc _ (fun kl => bsupv h (j * nZnT + kl)%Z * tau j kl)) by (intros; reflexivity). f_equal.
    rewrite (zsum_ext 0 nZnT _ (fun kl => sgn * phip j * sz_wInt s (kl mod sz_nThetaEff s)%Z + sgn * (lam j kl * sz_wInt s (kl mod sz_nThetaEff s)%Z))).
    - rewrite zsum_plus, !zsum_scale, HL by exact Hj. rewrite Rmult_0_r, Rplus_0_r.
      pose proof (surf_const s OK 1) as S1. rewrite (zsum_ext 0 nZnT _ (fun kl => 1 * sz_wInt s (kl mod sz_nThetaEff s)%Z)) by (intros; ring).
      rewrite S1. ring.
    - intros kl Hkl. unfold GeoModel.tau. transitivity (sgn * sz_wInt s (kl mod sz_nThetaEff s)%Z * (bsupv h (j * nZnT + kl)%Z * gsqrt h (j * nZnT + kl)%Z)); [ring|].
      rewrite HB by assumption. ring. }
  rewrite E. rewrite !zsum_scale. ring.
Qed.
End M.

Lemma energies s ns g h sgn ds : MU_0 <> 0 ->
  int_modb s ns h sgn ds = int_bpol s ns h sgn ds + int_btor s ns h sgn ds /\
  (volume_p s ns g <> 0 -> avg_p s ns g h ds * volume_p s ns g = int_p ns h ds /\ avg_modb s ns g h sgn ds * volume_p s ns g = int_modb s ns h sgn ds /\
    (VolAvgB s ns g h sgn ds) ^ 2 * volume_p s ns g = Rabs (sumbtot s ns h sgn ds)).
Proof.
  intros MU. split; [unfold int_modb, int_bpol, int_btor, sumbpol; ring|]. intros V.
  split; [unfold avg_p, pavg, int_p; field; tauto|]. split; [unfold avg_modb, int_modb; field; tauto|].
  unfold VolAvgB. rewrite pow2_sqrt by apply Rabs_pos. unfold Rdiv. rewrite Rabs_mult.
  assert (P : 0 <= volume_p s ns g) by (unfold volume_p; pose proof PI_RGT_0; pose proof (Rabs_pos (snd (sums s ns g))); apply Rmult_le_pos; nra).
  rewrite Rabs_inv, (Rabs_right (volume_p s ns g)) by lra. field. exact V.
Qed.
