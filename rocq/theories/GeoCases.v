From Coq Require Import ZArith List Bool Reals Lia Lra.
From Coquelicot Require Import Coquelicot.
From Verif Require Import Base BaseLemmas SumLemmas TrigSums SizesModel FourierModel FourierSpec PartModel KernelProofs DftModel DftTables DftForces DftSpec DftFold DftProps AxisProofs BsubProofs TrigPoly GeoModel GeoSpec GeoProofs GeoFinal DftGeo.
Import ListNotations.
Open Scope R_scope.

(** Cosine polynomials in the poloidal angle. *)
Definition cterm (u : R * Z) : term := mkTerm (fst u) (snd u) 0 0.
Definition cev (L : list (R * Z)) (th : R) : R := rsum L (fun u => fst u * cos (IZR (snd u) * th)).
Lemma cev_ev nfp L th ph : cev L th = ev nfp (map cterm L) th ph.
Proof.
  unfold cev, ev. induction L as [|u L IH]; [reflexivity|]. cbn [rsum map]. rewrite <- IH. f_equal. unfold tev, cterm. cbn [ta tm tn tx].
  rewrite Rmult_0_l, !Rplus_0_r. reflexivity.
Qed.
Definition cmul1 (u v : R * Z) : list (R * Z) := [(fst u * fst v / 2, (snd u + snd v)%Z); (fst u * fst v / 2, (snd u - snd v)%Z)].
Definition cmul (L L' : list (R * Z)) : list (R * Z) := flat_map (fun u => flat_map (cmul1 u) L') L.
Lemma cmul1_ev u v th : cev (cmul1 u v) th = fst u * cos (IZR (snd u) * th) * (fst v * cos (IZR (snd v) * th)).
Proof.
  unfold cev, cmul1. cbn [rsum fst snd]. rewrite plus_IZR, minus_IZR, Rmult_plus_distr_r, Rmult_minus_distr_r, cos_plus, cos_minus. field.
Qed.
Lemma cmul_ev L L' th : cev (cmul L L') th = cev L th * cev L' th.
Proof.
  unfold cev at 1, cmul. rewrite rsum_flat_map.
  transitivity (rsum L (fun u => fst u * cos (IZR (snd u) * th) * cev L' th)).
  - apply rsum_ext. intros u _. rewrite rsum_flat_map. unfold cev. rewrite <- rsum_scale. apply rsum_ext. intros v _. apply cmul1_ev.
  - rewrite rsum_scale_r. reflexivity.
Qed.
Definition fold24 (u : R * Z) : R * Z := if (Z.abs (snd u) =? 24)%Z then (fst u, 0%Z) else u.
Definition cmean (L : list (R * Z)) : R := rsum L (fun u => if (snd u =? 0)%Z then fst u else 0).
Lemma cst_cmean L : cst (map cterm L) = cmean L.
Proof.
  unfold cst, cmean. induction L as [|u L IH]; [reflexivity|]. cbn [map rsum]. rewrite IH. f_equal. unfold cterm. cbn [ta tm tn tx].
  rewrite andb_true_r, cos_0, Rmult_1_r. reflexivity.
Qed.

Definition LR : list (R * Z) := [(10, 0%Z); (1, 1%Z); (/ 20, 8%Z)].
Definition LZ : list (R * Z) := [(1, 1%Z); (8 / 20, 8%Z)].
Definition L3 : list (R * Z) := cmul LR (cmul LR LZ).
Lemma L3_mean : cmean L3 = 102 / 10.
Proof. unfold L3, LR, LZ, cmul, cmul1, cmean. cbn. field. Qed.
Lemma L3_alias : cmean (map fold24 L3) = 102 / 10 + / 4000.
Proof. unfold L3, LR, LZ, cmul, cmul1, cmean. cbn. field. Qed.
Lemma L3_deg u : In u (map fold24 L3) -> (Z.abs (snd u) <= 23)%Z.
Proof.
  assert (F : forallb (fun u => (Z.abs (snd u) <=? 23)%Z) (map fold24 L3) = true) by reflexivity.
  intros H. rewrite forallb_forall in F. apply F in H. apply Z.leb_le. exact H.
Qed.

Section V.
Variable s : sizes.
Hypothesis OK : sz_ok s.
Hypothesis N24 : sz_nThetaEven s = 24%Z.
Lemma fold24_pt L l : cev (map fold24 L) (theta_pt s l) = cev L (theta_pt s l).
Proof.
  unfold cev. induction L as [|u L IH]; [reflexivity|]. cbn [map rsum]. rewrite IH. f_equal. unfold fold24.
  destruct (Z.eqb_spec (Z.abs (snd u)) 24) as [E|E]; [|reflexivity]. cbn [fst snd]. f_equal.
  unfold theta_pt. rewrite N24. rewrite Rmult_0_l, cos_0. symmetry.
  assert (snd u = 24%Z \/ snd u = (-24)%Z) as [-> | ->] by lia.
  - replace (24 * (2 * PI * IZR l / 24)) with (2 * IZR l * PI) by field. rewrite <- (Rplus_0_l (2 * IZR l * PI)), cos_period_Z. apply cos_0.
  - replace (-24 * (2 * PI * IZR l / 24)) with (- (2 * IZR l * PI)) by field. rewrite cos_neg, <- (Rplus_0_l (2 * IZR l * PI)), cos_period_Z. apply cos_0.
Qed.
Lemma cev_refl L th : cev L (- th) = cev L th.
Proof. unfold cev. apply rsum_ext. intros u _. replace (IZR (snd u) * - th) with (- (IZR (snd u) * th)) by ring. rewrite cos_neg. reflexivity. Qed.
Lemma grid24 L : (forall u, In u (map fold24 L) -> (Z.abs (snd u) <= 23)%Z) -> grid_avg s (fun k l => cev L (theta_pt s l)) = cmean (map fold24 L).
Proof.
  intros H. pose proof (so_nZeta s OK). pose proof (so_nfp s OK) as HP.
  transitivity (grid_avg s (fun k l => (fun th (_ : R) => cev (map fold24 L) th) (theta_pt s l) (phi_pt s k))).
  { unfold grid_avg. apply zsum_ext. intros k _. apply zsum_ext. intros l _. cbv beta. rewrite fold24_pt. reflexivity. }
  rewrite (quadrature s OK 23 0 (fun th _ => cev (map fold24 L) th)); [| |rewrite N24; lia|lia|intros _ th ph; apply cev_refl].
  - rewrite (mean_cst (sz_nfp s) HP (map cterm (map fold24 L))); [apply cst_cmean|intros; apply cev_ev].
  - exists (map cterm (map fold24 L)). split; [|intros; apply cev_ev].
    intros v Hv. apply in_map_iff in Hv. destruct Hv as (u & <- & Hu). cbn. specialize (H u Hu). lia.
Qed.
End V.

(** R = 10 + cos th + cos (8 th) / 20, Z = sin th + sin (8 th) / 20 *)
Definition xw : coefs := fun c b i =>
  let m := (i mod 9)%Z in
  match c, b with
  | cR, b_cc => if (m =? 0)%Z then 10 else if (m =? 1)%Z then / sqrt 2 else if (m =? 8)%Z then / 20 / sqrt 2 else 0
  | cZ, b_sc => if (m =? 1)%Z then / sqrt 2 else if (m =? 8)%Z then / 20 / sqrt 2 else 0
  | _, _ => 0
  end.

Lemma volume_alias_refuted : exists s p (b0 : basis_tables) xmpq sqrtSF x g0 ga0 g,
  setting false 1 9 0 0 0 9 0 1 0 5 false s p /\ supported s /\ nsMaxF1 p = 5%Z /\
  (let t := computeFourierBasis FastPoloidal (sz_nfp s) (sz_nZeta s) (sz_nThetaEven s) (sz_nThetaReduced s) (sz_mnyq2 s) (sz_nnyq2 s) b0 in
   lcfs_from s p 5 (g_q (geometryFromFourier s t p xmpq sqrtSF x g0 ga0)) g) /\
  (forall th ph, lcfs_series s p 5 x cR th ph = 10 + cos th + cos (8 * th) / 20) /\
  (forall th ph, lcfs_series s p 5 x cZ th ph = sin th + sin (8 * th) / 20) /\
  volume (lcfs_series s p 5 x cR) (lcfs_series s p 5 x cZ) = 2 * PI * PI * (102 / 10) /\
  volume_p s 5 g = 2 * PI * PI * (102 / 10 + / 4000).
Proof.
  assert (exists s, make_sizes false 1 9 0 0 0 9 0 = Some s) as (s & ES) by (eexists; reflexivity).
  assert (exists p, adjustRadialPartitioning 1 0 5 false = Some p) as (p & EP) by (eexists; reflexivity).
  assert (HS : setting false 1 9 0 0 0 9 0 1 0 5 false s p) by (repeat split; first [lia|exact ES|exact EP]).
  assert (OK := make_sizes_ok _ _ _ _ _ _ _ _ _ ES).
  assert (SU : supported s) by (right; injection ES as <-; reflexivity).
  assert (LAST : nsMaxF1 p = 5%Z) by (injection EP as <-; reflexivity).
  assert (M0 : nsMinF1 p = 0%Z) by (injection EP as <-; reflexivity).
  assert (N24 : sz_nThetaEven s = 24%Z /\ sz_mpol s = 9%Z /\ sz_ntor s = 0%Z /\ sz_lasym s = false) by (injection ES as <-; repeat split).
  destruct N24 as (N24 & MP & NTO & LA).
  set (z0 := fun _ : Z => 0).
  set (b0 := mkBT z0 z0 z0 z0 z0 z0 z0 z0 z0 z0 z0 z0). set (q0 := mkGeom (fun _ _ _ => 0) z0 z0).
  set (t := computeFourierBasis FastPoloidal (sz_nfp s) (sz_nZeta s) (sz_nThetaEven s) (sz_nThetaReduced s) (sz_mnyq2 s) (sz_nnyq2 s) b0).
  set (G := g_q (geometryFromFourier s t p z0 z0 xw q0 q0)).
  set (g := mkGeo (G G_r1 true) (G G_r1 false) (G G_z1 true) (G G_z1 false) (G G_zu true) (G G_zu false) z0 z0 z0 z0 z0 z0).
  assert (FROM : lcfs_from s p 5 G g).
  { intros k l Hk Hl i i'. assert (i' = i) as -> by (unfold i, i'; rewrite M0; f_equal; lia). repeat split. }
  assert (S2 : sqrt 2 <> 0) by (pose proof (sqrt_lt_R0 2); lra).
  assert (AT : forall m, (0 <= m < 9)%Z -> (at_mn s (5 - 1 - nsMinF1 p) m 0 mod 9)%Z = m).
  { intros m Hm. unfold at_mn. rewrite MP, NTO, M0. replace (((5 - 1 - 0) * 9 + m) * (0 + 1) + 0)%Z with (m + 4 * 9)%Z by ring.
    rewrite Z_mod_plus_full. apply Z.mod_small. exact Hm. }
  assert (SER : forall c e th ph, series (sz_nfp s) (kinds (sz_lasym s) c) (sz_mpol s) (sz_ntor s) e (fun b m n => xw c b (at_mn s (5 - 1 - nsMinF1 p) m n)) th ph =
    zsum 0 9 (fun m => if Bool.eqb e (Z.even m) then
      match c with cR => xw cR b_cc m * (s2 m * cos (IZR m * th)) | cZ => xw cZ b_sc m * (s2 m * sin (IZR m * th)) | cL => 0 end else 0)).
  { intros c e th ph. unfold series. rewrite MP, NTO, LA.
    assert (Z1 : forall b, zsum 0 9 (fun m => if Bool.eqb e (Z.even m) then zsum 0 (0 + 1) (fun n => xw c b (at_mn s (5 - 1 - nsMinF1 p) m n) * Phi (sz_nfp s) b m n th ph) else 0)
      = zsum 0 9 (fun m => if Bool.eqb e (Z.even m) then xw c b m * (s2 m * (in_theta b (IZR m * th) * in_zeta b 0)) else 0)).
    { intros b. apply zsum_ext. intros m Hm. destruct (Bool.eqb e (Z.even m)); [|reflexivity]. cbn [Z.add]. rewrite zsum01.
      unfold xw. rewrite (AT m Hm). rewrite (Z.mod_small m 9) by lia. unfold Phi. rewrite Rmult_0_l. change (s2 0) with 1.
      destruct c, b; ring. }
    destruct c; cbn [kinds app rsum]; rewrite !Z1, Rplus_0_r.
    - rewrite (zsum_zero 0 9 (fun m => if Bool.eqb e (Z.even m) then xw cR b_ss m * _ else 0)) by (intros; destruct (Bool.eqb e (Z.even j)); cbn; ring).
      rewrite Rplus_0_r. apply zsum_ext. intros m Hm. destruct (Bool.eqb e (Z.even m)); [|reflexivity]. cbn [in_theta in_zeta]. rewrite cos_0. ring.
    - rewrite (zsum_zero 0 9 (fun m => if Bool.eqb e (Z.even m) then xw cZ b_cs m * _ else 0)) by (intros; destruct (Bool.eqb e (Z.even j)); cbn; ring).
      rewrite Rplus_0_r. apply zsum_ext. intros m Hm. destruct (Bool.eqb e (Z.even m)); [|reflexivity]. cbn [in_theta in_zeta]. rewrite cos_0. ring.
    - rewrite <- zsum_plus. apply zsum_ext. intros m Hm. destruct (Bool.eqb e (Z.even m)); cbn; ring. }
  assert (ER : forall th ph, lcfs_series s p 5 xw cR th ph = 10 + cos th + cos (8 * th) / 20).
  { intros th ph. unfold lcfs_series. rewrite !SER. rewrite <- zsum_plus.
    unfold zsum. change (zrange 0 9) with [0;1;2;3;4;5;6;7;8]%Z. unfold xw. cbn -[sqrt cos IZR]. unfold s2. cbn -[sqrt cos IZR].
    rewrite (Rmult_0_l th), cos_0, (Rmult_1_l th). field. exact S2. }
  assert (EZ : forall th ph, lcfs_series s p 5 xw cZ th ph = sin th + sin (8 * th) / 20).
  { intros th ph. unfold lcfs_series. rewrite !SER. rewrite <- zsum_plus.
    unfold zsum. change (zrange 0 9) with [0;1;2;3;4;5;6;7;8]%Z. unfold xw. cbn -[sqrt sin IZR]. unfold s2. cbn -[sqrt sin IZR].
    rewrite (Rmult_1_l th). field. exact S2. }
  destruct (link HS SU LAST b0 z0 z0 xw q0 q0 g FROM) as (V1 & _ & V3).
  exists s, p, b0, z0, z0, xw, q0, q0, g.
  split; [exact HS|]. split; [exact SU|]. split; [exact LAST|]. split; [exact FROM|]. split; [exact ER|]. split; [exact EZ|].
  assert (ED : forall th ph, Derive (fun y => lcfs_series s p 5 xw cZ y ph) th = cev LZ th).
  { intros th ph. rewrite (Derive_ext _ (fun y => sin y + sin (8 * y) / 20)) by (intros; apply EZ).
    apply is_derive_unique. unfold cev, LZ. cbn [rsum fst snd]. auto_derive; [trivial|]. rewrite (Rmult_1_l th). field. }
  assert (F3 : forall th ph, lcfs_series s p 5 xw cR th ph * (lcfs_series s p 5 xw cR th ph * Derive (fun y => lcfs_series s p 5 xw cZ y ph) th) = cev L3 th).
  { intros th ph. rewrite ED, ER. unfold L3. rewrite !cmul_ev. replace (10 + cos th + cos (8 * th) / 20) with (cev LR th); [reflexivity|].
    unfold cev, LR. cbn [rsum fst snd]. rewrite Rmult_0_l, cos_0, (Rmult_1_l th). field. }
  pose proof (so_nfp s OK) as HP.
  split.
  - rewrite (volume_mean s OK _ _ (lcfs_tp s p 5 xw cR OK) (lcfs_tp s p 5 xw cZ OK)). f_equal.
    rewrite (mean_cst (sz_nfp s) HP (map cterm L3)); [rewrite cst_cmean, L3_mean; apply Rabs_right; lra|].
    intros th ph. cbv beta. rewrite F3. apply cev_ev.
  - rewrite (volume_grid s 5 OK g _ _ V1 V3). f_equal.
    transitivity (Rabs (grid_avg s (fun k l => cev L3 (theta_pt s l)))).
    + f_equal. unfold grid_avg. apply zsum_ext. intros k _. apply zsum_ext. intros l _. rewrite F3. reflexivity.
    + rewrite (grid24 s OK N24 L3 L3_deg), L3_alias. apply Rabs_right. lra.
Qed.
