From Coq Require Import ZArith List Bool Reals Lia Lra.
From Coquelicot Require Import Coquelicot.
From Verif Require Import Base BaseLemmas SumLemmas TrigSums SizesModel FourierModel FourierSpec DftModel DftTables DftForces DftSpec DftFold AxisProofs BsubProofs TrigPoly GeoModel GeoSpec.
Import ListNotations.
Open Scope R_scope.

Lemma Derive_neg f x : ex_derive f (- x) -> Derive (fun y => f (- y)) x = - Derive f (- x).
Proof.
  intros (d & Hd). rewrite (is_derive_unique _ _ _ Hd). apply is_derive_unique.
  replace (- d) with (scal (-1) d) by (unfold scal; cbn; unfold mult; cbn; ring).
  apply (is_derive_comp f (fun y => - y)); [exact Hd|]. auto_derive; [trivial|ring].
Qed.

Section G.
Variables (s : sizes) (ns : Z).
Hypothesis OK : sz_ok s.
Local Notation nfp := (sz_nfp s).
Local Notation NZ := (sz_nZeta s).
Local Notation NT := (sz_nThetaEven s).
Local Notation nZnT := (sz_nZnT s).
Local Notation nTE := (sz_nThetaEff s).
Local Notation w kl := (sz_wInt s (kl mod nTE)%Z).

(** [f] holds on the outermost surface the values of F at the grid points. *)
Definition edge_values (f : Z -> R) (F : R -> R -> R) : Prop :=
  forall k l, (0 <= k < NZ)%Z -> (0 <= l < nTE)%Z -> f ((ns - 1) * nZnT + (k * nTE + l))%Z = F (theta_pt s l) (phi_pt s k).

Lemma znt_pos : (0 <= nZnT)%Z.
Proof. pose proof (so_nZnT s OK). pose proof (so_nZeta s OK). pose proof (nTE_pos s OK). nia. Qed.
Lemma edge_avg (f : Z -> R) (F : R -> R -> R) : (forall k l, (0 <= k < NZ)%Z -> (0 <= l < nTE)%Z -> f (k * nTE + l)%Z = F (theta_pt s l) (phi_pt s k)) ->
  zsum 0 nZnT (fun kl => f kl * w kl) = grid_avg s (fun k l => F (theta_pt s l) (phi_pt s k)).
Proof.
  intros H. rewrite (surf_rows s OK f). unfold grid_avg. apply zsum_ext. intros k Hk. apply zsum_ext. intros l Hl. rewrite H by assumption. ring.
Qed.

Lemma sums_eq g : sums s ns g =
  (zsum 0 nZnT (fun kl => (r_e g ((ns - 1) * nZnT + kl) + r_o g ((ns - 1) * nZnT + kl)) * (zu_e g ((ns - 1) * nZnT + kl) + zu_o g ((ns - 1) * nZnT + kl)) * w kl),
   zsum 0 nZnT (fun kl => (r_e g ((ns - 1) * nZnT + kl) + r_o g ((ns - 1) * nZnT + kl)) * ((r_e g ((ns - 1) * nZnT + kl) + r_o g ((ns - 1) * nZnT + kl)) * (zu_e g ((ns - 1) * nZnT + kl) + zu_o g ((ns - 1) * nZnT + kl)) * w kl))).
Proof.
  unfold sums. set (A := fun kl => _ * w kl). set (B := fun kl => _ * (_ * w kl)).
  refine (for_up_ind (fun k st => st = (zsum 0 k A, zsum 0 k B)) _ _ _ _ znt_pos _ _).
  - rewrite !zsum_empty by lia. reflexivity.
  - intros k st Hk ->. cbn [fst snd]. rewrite !zsum_snoc by lia. reflexivity.
Qed.

Section Surface.
Variables (g : full_geo) (Rb Zb : R -> R -> R).
Hypothesis PR : tpoly nfp (sz_mpol s - 1) (sz_ntor s) Rb.
Hypothesis PZ : tpoly nfp (sz_mpol s - 1) (sz_ntor s) Zb.
Hypothesis EvR : sz_lasym s = false -> forall th ph, Rb (- th) (- ph) = Rb th ph.
Hypothesis OdZ : sz_lasym s = false -> forall th ph, Zb (- th) (- ph) = - Zb th ph.
Let Zt th ph := Derive (fun y => Zb y ph) th.
Hypothesis VR : edge_values (fun i => r_e g i + r_o g i) Rb.
Hypothesis VZ : edge_values (fun i => zu_e g i + zu_o g i) Zt.

Lemma EvZt : sz_lasym s = false -> forall th ph, Zt (- th) (- ph) = Zt th ph.
Proof.
  intros LA th ph. unfold Zt. rewrite (Derive_ext (fun y => Zb y ph) (fun y => - Zb (- y) (- ph))).
  - rewrite Derive_opp. rewrite (Derive_neg (fun y => Zb y (- ph))); [cbv beta; rewrite Ropp_involutive; reflexivity|]. exact (tp_ex_derive nfp _ _ Zb _ _ PZ).
  - intros y. rewrite OdZ by exact LA. ring.
Qed.
Lemma PZt : tpoly nfp (sz_mpol s - 1) (sz_ntor s) Zt.
Proof. exact (tp_derive nfp _ _ Zb PZ). Qed.

Lemma area_ok : cross_area_p s ns g = mean_area Rb Zb.
Proof.
  unfold cross_area_p. rewrite sums_eq. cbn [fst].
  pose proof (edge_avg (fun kl => (r_e g ((ns - 1) * nZnT + kl) + r_o g ((ns - 1) * nZnT + kl)) * (zu_e g ((ns - 1) * nZnT + kl) + zu_o g ((ns - 1) * nZnT + kl))) (fun th ph => Rb th ph * Zt th ph)) as E.
  rewrite E by (intros k l Hk Hl; rewrite <- VR, <- VZ by assumption; reflexivity). clear E.
  pose proof (so_pol s OK). pose proof (so_tor s OK). pose proof (so_nZeta s OK). pose proof (so_mpol s OK). pose proof (so_ntor s OK).
  rewrite (quadrature s OK _ _ _ (tp_mul nfp _ _ _ _ _ _ PR PZt)).
  - unfold torus_mean, mean_area, section_area, Rdiv. rewrite Rabs_mult. pose proof PI_RGT_0.
    assert (0 < 4 * PI * PI) by nra. rewrite (Rabs_right (/ (4 * PI * PI))) by (apply Rle_ge, Rlt_le, Rinv_0_lt_compat; assumption).
    unfold Zt. field. lra.
  - lia.
  - destruct (Z.eq_dec (sz_ntor s) 0); lia.
  - intros LA th ph. rewrite EvR, EvZt by exact LA. reflexivity.
Qed.

Let F3 th ph := Rb th ph * (Rb th ph * Zt th ph).
Lemma volume_grid : volume_p s ns g = 2 * PI * PI * Rabs (grid_avg s (fun k l => F3 (theta_pt s l) (phi_pt s k))).
Proof.
  unfold volume_p. rewrite sums_eq. cbn [snd]. do 2 f_equal.
  rewrite (zsum_ext 0 nZnT _ (fun kl => (r_e g ((ns - 1) * nZnT + kl) + r_o g ((ns - 1) * nZnT + kl)) * ((r_e g ((ns - 1) * nZnT + kl) + r_o g ((ns - 1) * nZnT + kl)) * (zu_e g ((ns - 1) * nZnT + kl) + zu_o g ((ns - 1) * nZnT + kl))) * w kl)) by (intros; ring).
  apply (edge_avg (fun kl => (r_e g ((ns - 1) * nZnT + kl) + r_o g ((ns - 1) * nZnT + kl)) * ((r_e g ((ns - 1) * nZnT + kl) + r_o g ((ns - 1) * nZnT + kl)) * (zu_e g ((ns - 1) * nZnT + kl) + zu_o g ((ns - 1) * nZnT + kl)))) F3).
  intros k l Hk Hl. unfold F3. rewrite <- VR, <- VZ by assumption. reflexivity.
Qed.
Lemma F3_tp : tpoly nfp (sz_mpol s - 1 + (sz_mpol s - 1 + (sz_mpol s - 1))) (sz_ntor s + (sz_ntor s + sz_ntor s)) F3.
Proof. exact (tp_mul nfp _ _ _ _ _ _ PR (tp_mul nfp _ _ _ _ _ _ PR PZt)). Qed.
Lemma volume_mean : volume Rb Zb = 2 * PI * PI * Rabs (torus_mean F3).
Proof.
  unfold torus_mean, volume. pose proof PI_RGT_0. assert (0 < 4 * PI * PI) by nra.
  assert (EI : RInt (section_moment Rb Zb) 0 (2 * PI) = / 2 * RInt (fun phi => RInt (fun th => F3 th phi) 0 (2 * PI)) 0 (2 * PI)).
  { destruct F3_tp as (L & D & HL).
    pose proof (so_nfp s OK) as HP.
    assert (IN : forall ph, RInt (fun th => F3 th ph) 0 (2 * PI) = rsum L (fun t => inner nfp t ph)).
    { intros ph. apply is_RInt_unique. apply (is_RInt_ext (fun th => ev nfp L th ph)); [intros; symmetry; apply HL|apply ev_inner]. }
    assert (IM : forall ph, section_moment Rb Zb ph = / 2 * rsum L (fun t => inner nfp t ph)).
    { intros ph. unfold section_moment. apply is_RInt_unique.
      apply (is_RInt_ext (fun th => scal (/ 2) (ev nfp L th ph))).
      - intros y _. rewrite <- HL. unfold scal. cbn. unfold mult. cbn. unfold F3, Zt. field.
      - apply (@is_RInt_scal R_NormedModule). apply ev_inner. }
    rewrite (RInt_ext _ _ _ _ (fun ph _ => IM ph)), (RInt_ext _ _ _ _ (fun ph _ => IN ph)).
    rewrite (is_RInt_unique _ _ _ _ (ev_outer nfp HP L)). apply is_RInt_unique.
    exact (@is_RInt_scal R_NormedModule _ _ _ (/ 2) _ (ev_outer nfp HP L)). }
  rewrite EI. unfold Rdiv. rewrite !Rabs_mult. rewrite (Rabs_right (/ (4 * PI * PI))) by (apply Rle_ge, Rlt_le, Rinv_0_lt_compat; assumption).
  rewrite (Rabs_right (/ 2)) by lra. field. lra.
Qed.
Lemma volume_ok : (3 * (sz_mpol s - 1) < NT)%Z -> (3 * sz_ntor s < NZ)%Z -> volume_p s ns g = volume Rb Zb.
Proof.
  intros H1 H2. rewrite volume_grid, volume_mean. do 2 f_equal.
  apply (quadrature s OK _ _ _ F3_tp); [lia|lia|].
  intros LA th ph. unfold F3. rewrite EvR, EvZt by exact LA. reflexivity.
Qed.
End Surface.
End G.
