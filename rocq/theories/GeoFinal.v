From Coq Require Import ZArith List Bool Reals Lia Lra.
From Coquelicot Require Import Coquelicot.
From Verif Require Import Base BaseLemmas SumLemmas TrigSums SizesModel FourierModel FourierSpec PartModel KernelProofs DftModel DftTables DftForces DftSpec DftFold DftProps AxisProofs BsubProofs TrigPoly GeoModel GeoSpec GeoProofs.
Import ListNotations.
Open Scope R_scope.

(** Values and poloidal derivatives held on the outermost surface. *)
Definition lcfs_from (s : sizes) (p : rpart) (ns : Z) (G : gq -> bool -> Z -> R) (g : full_geo) : Prop :=
  forall k l, (0 <= k < sz_nZeta s)%Z -> (0 <= l < sz_nThetaEff s)%Z ->
    let i := at_pt s (ns - 1) k l in let i' := at_pt s (ns - 1 - nsMinF1 p) k l in
    r_e g i = G G_r1 true i' /\ r_o g i = G G_r1 false i' /\ z_e g i = G G_z1 true i' /\ z_o g i = G G_z1 false i' /\
    zu_e g i = G G_zu true i' /\ zu_o g i = G G_zu false i'.

(** The outermost surface described by the coefficients [x]. *)
Definition lcfs_series (s : sizes) (p : rpart) (ns : Z) (x : coefs) (c : comp) (theta phi : R) : R :=
  let S e := series (sz_nfp s) (kinds (sz_lasym s) c) (sz_mpol s) (sz_ntor s) e (fun b m n => x c b (at_mn s (ns - 1 - nsMinF1 p) m n)) theta phi in
  S true + S false.

Lemma series_tp nfp ks M ntor e x : (1 <= M)%Z -> (0 <= ntor)%Z -> tpoly nfp (M - 1) ntor (series nfp ks M ntor e x).
Proof.
  intros H0 H1. unfold series. apply tp_rsum. intros b _. apply tp_zsum. intros m Hm.
  destruct (Bool.eqb e (Z.even m)); [|apply tp_zero]. apply tp_zsum. intros n Hn. apply tp_scale. apply tp_Phi; lia.
Qed.
Lemma lcfs_tp s p ns x c : sz_ok s -> tpoly (sz_nfp s) (sz_mpol s - 1) (sz_ntor s) (lcfs_series s p ns x c).
Proof. intros OK. pose proof (so_mpol s OK). pose proof (so_ntor s OK). unfold lcfs_series. apply tp_add; apply series_tp; lia. Qed.

Definition bk_even (b : bk) : bool := match b with b_cc | b_ss => true | _ => false end.
Lemma Phi_refl nfp b m n th ph : Phi nfp b m n (- th) (- ph) = (if bk_even b then 1 else -1) * Phi nfp b m n th ph.
Proof.
  unfold Phi. replace (IZR m * - th) with (- (IZR m * th)) by ring.
  replace (IZR n * (IZR nfp * - ph)) with (- (IZR n * (IZR nfp * ph))) by ring.
  destruct b; cbn; rewrite ?cos_neg, ?sin_neg; ring.
Qed.
Lemma series_refl nfp ks M ntor e x th ph q : (forall b, In b ks -> bk_even b = q) ->
  series nfp ks M ntor e x (- th) (- ph) = (if q then 1 else -1) * series nfp ks M ntor e x th ph.
Proof.
  intros H. unfold series. rewrite <- rsum_scale. apply rsum_ext. intros b Hb. rewrite <- zsum_scale. apply zsum_ext. intros m _.
  destruct (Bool.eqb e (Z.even m)); [|ring]. rewrite <- zsum_scale. apply zsum_ext. intros n _. rewrite Phi_refl, (H b Hb). ring.
Qed.
Lemma lcfs_R_even s p ns x th ph : sz_lasym s = false -> lcfs_series s p ns x cR (- th) (- ph) = lcfs_series s p ns x cR th ph.
Proof.
  intros LA. unfold lcfs_series. rewrite LA. rewrite !(series_refl _ _ _ _ _ _ th ph true) by (intros b [<-|[<-|[]]]; reflexivity). ring.
Qed.
Lemma lcfs_Z_odd s p ns x th ph : sz_lasym s = false -> lcfs_series s p ns x cZ (- th) (- ph) = - lcfs_series s p ns x cZ th ph.
Proof.
  intros LA. unfold lcfs_series. rewrite LA. rewrite !(series_refl _ _ _ _ _ _ th ph false) by (intros b [<-|[<-|[]]]; reflexivity). ring.
Qed.

Lemma pt_flat s ns k l : sz_ok s -> ((ns - 1) * sz_nZnT s + (k * sz_nThetaEff s + l))%Z = at_pt s (ns - 1) k l.
Proof. intros OK. unfold at_pt. rewrite (so_nZnT s OK). ring. Qed.

Section Link.
Context {lasym : bool} {nfp mpol ntor ntheta nzeta mg ng T th ns : Z} {lfreeb : bool} {s : sizes} {p : rpart}.
Hypothesis HS : setting lasym nfp mpol ntor ntheta nzeta mg ng T th ns lfreeb s p.
Hypothesis SU : supported s.
Hypothesis LAST : nsMaxF1 p = ns.
Variables (b0 : basis_tables) (xmpq sqrtSF : Z -> R) (x : coefs) (g0 ga0 : geom) (g : full_geo).
Let t := computeFourierBasis FastPoloidal (sz_nfp s) (sz_nZeta s) (sz_nThetaEven s) (sz_nThetaReduced s) (sz_mnyq2 s) (sz_nnyq2 s) b0.
Let G := g_q (geometryFromFourier s t p xmpq sqrtSF x g0 ga0).
Hypothesis FROM : lcfs_from s p ns G g.

Lemma link : edge_values s ns (fun i => r_e g i + r_o g i) (lcfs_series s p ns x cR) /\
  edge_values s ns (fun i => z_e g i + z_o g i) (lcfs_series s p ns x cZ) /\
  edge_values s ns (fun i => zu_e g i + zu_o g i) (fun th ph => Derive (fun y => lcfs_series s p ns x cZ y ph) th).
Proof.
  destruct (setting_ok _ _ _ _ _ _ _ _ _ _ _ _ _ _ HS) as (OK & M2 & RO & P0).
  assert (NS : (2 <= ns)%Z) by (destruct HS as (_ & _ & ? & ? & _); lia).
  assert (HJ : (nsMinF1 p <= ns - 1 < nsMaxF1 p)%Z) by (destruct RO; destruct lfreeb; lia).
  assert (NP : n_pol (sz_mpol s) (ns - 1) = sz_mpol s) by (unfold n_pol; destruct (Z.eqb_spec (ns - 1) 0); [lia|reflexivity]).
  assert (K : forall k l, (0 <= k < sz_nZeta s)%Z -> (0 <= l < sz_nThetaEff s)%Z ->
    let i := at_pt s (ns - 1) k l in
    r_e g i + r_o g i = lcfs_series s p ns x cR (theta_pt s l) (phi_pt s k) /\
    z_e g i + z_o g i = lcfs_series s p ns x cZ (theta_pt s l) (phi_pt s k) /\
    zu_e g i + zu_o g i = Derive (fun y => lcfs_series s p ns x cZ y (phi_pt s k)) (theta_pt s l)).
  { intros k l Hk Hl i. destruct (FROM k l Hk Hl) as (E1 & E2 & E3 & E4 & E5 & E6). fold i in E1, E2, E3, E4, E5, E6.
    rewrite E1, E2, E3, E4, E5, E6.
    destruct (C54_geometry _ _ _ _ _ _ _ _ _ _ _ _ s p b0 xmpq sqrtSF x g0 ga0 true (ns - 1)%Z k l HS SU HJ Hk Hl) as (A1 & A2 & _ & A4 & _).
    destruct (C54_geometry _ _ _ _ _ _ _ _ _ _ _ _ s p b0 xmpq sqrtSF x g0 ga0 false (ns - 1)%Z k l HS SU HJ Hk Hl) as (B1 & B2 & _ & B4 & _).
    cbv zeta in A1, A2, A4, B1, B2, B4. rewrite NP in A1, A2, A4, B1, B2, B4.
    unfold lcfs_series. cbv zeta. fold t in A1, A2, A4, B1, B2, B4. fold G in A1, A2, A4, B1, B2, B4.
    rewrite A1, A2, B1, B2. split; [reflexivity|]. split; [reflexivity|].
    symmetry. apply is_derive_unique. apply is_derive_Reals. exact (derivable_pt_lim_plus _ _ _ _ _ A4 B4). }
  unfold edge_values. split; [|split]; intros k l Hk Hl; rewrite pt_flat by exact OK; destruct (K k l Hk Hl) as (K1 & K2 & K3); assumption.
Qed.

Lemma area_link : cross_area_p s ns g = mean_area (lcfs_series s p ns x cR) (lcfs_series s p ns x cZ).
Proof.
  destruct (setting_ok _ _ _ _ _ _ _ _ _ _ _ _ _ _ HS) as (OK & M2 & RO & P0). destruct link as (V1 & _ & V3).
  apply (area_ok s ns OK g); [apply lcfs_tp; exact OK|apply lcfs_tp; exact OK| | |exact V1|exact V3].
  - intros LA a b. apply lcfs_R_even. exact LA.
  - intros LA a b. apply lcfs_Z_odd. exact LA.
Qed.
Lemma volume_link : (3 * (sz_mpol s - 1) < sz_nThetaEven s)%Z -> (3 * sz_ntor s < sz_nZeta s)%Z ->
  volume_p s ns g = volume (lcfs_series s p ns x cR) (lcfs_series s p ns x cZ).
Proof.
  intros H1 H2.
  destruct (setting_ok _ _ _ _ _ _ _ _ _ _ _ _ _ _ HS) as (OK & M2 & RO & P0). destruct link as (V1 & _ & V3).
  apply (volume_ok s ns OK g); [apply lcfs_tp; exact OK|apply lcfs_tp; exact OK| | |exact V1|exact V3|exact H1|exact H2].
  - intros LA a b. apply lcfs_R_even. exact LA.
  - intros LA a b. apply lcfs_Z_odd. exact LA.
Qed.
End Link.

(** *** Radii *)
Lemma radii s ns g : cross_area_p s ns g <> 0 ->
  0 < Aminor_p s ns g /\ PI * (Aminor_p s ns g) ^ 2 = cross_area_p s ns g /\
  2 * PI * PI * Rmajor_p s ns g * (Aminor_p s ns g) ^ 2 = volume_p s ns g /\ aspect s ns g * Aminor_p s ns g = Rmajor_p s ns g.
Proof.
  intros NZ. pose proof PI_RGT_0 as HP.
  assert (0 <= cross_area_p s ns g) by (unfold cross_area_p; pose proof (Rabs_pos (fst (sums s ns g))); nra).
  assert (P : 0 < cross_area_p s ns g / PI) by (apply Rdiv_lt_0_compat; lra).
  assert (A : 0 < Aminor_p s ns g) by (unfold Aminor_p; apply sqrt_lt_R0; exact P).
  assert (B : (Aminor_p s ns g) ^ 2 = cross_area_p s ns g / PI) by (unfold Aminor_p; apply pow2_sqrt; lra).
  split; [exact A|]. split; [rewrite B; field; lra|]. split.
  - rewrite B. unfold Rmajor_p. field. lra.
  - unfold aspect. field. lra.
Qed.

Lemma cos_3a x : cos (3 * x) = 4 * cos x * cos x * cos x - 3 * cos x.
Proof.
  replace (3 * x) with (2 * x + x) by ring. rewrite cos_plus, cos_2a_cos, sin_2a.
  pose proof (sin2_cos2 x) as E. unfold Rsqr in E. replace (2 * sin x * cos x * sin x) with (2 * cos x * (sin x * sin x)) by ring.
  replace (sin x * sin x) with (1 - cos x * cos x) by lra. ring.
Qed.

(** *** A circular torus *)
Section Circ.
Variables (s : sizes) (ns : Z) (g : full_geo) (R0 a : R).
Hypothesis OK : sz_ok s.
Hypothesis NP : (2 <= sz_mpol s)%Z.
Hypothesis A0 : 0 < a < R0.
Local Notation NZ := (sz_nZeta s).
Local Notation nTE := (sz_nThetaEff s).
Local Notation nZnT := (sz_nZnT s).
Local Notation w kl := (sz_wInt s (kl mod nTE)%Z).
Hypothesis VR : edge_values s ns (fun i => r_e g i + r_o g i) (fun th _ => R0 + a * cos th).
Hypothesis VZ : edge_values s ns (fun i => zu_e g i + zu_o g i) (fun th _ => a * cos th).
Hypothesis Vru : edge_values s ns (ruFull g) (fun th _ => - a * sin th).
Hypothesis Vzu : edge_values s ns (zuFull g) (fun th _ => a * cos th).
Hypothesis Vrv : edge_values s ns (fun i => rv_e g i + rv_o g i) (fun _ _ => 0).
Hypothesis Vzv : edge_values s ns (fun i => zv_e g i + zv_o g i) (fun _ _ => 0).

Let t (a : R) (m : Z) := mkTerm a m 0 0.
Lemma circ_avg L : (forall u, In u L -> (Z.abs (tm u) < sz_nThetaEven s)%Z /\ tn u = 0%Z /\ tx u = 0) ->
  grid_avg s (fun k l => ev (sz_nfp s) L (theta_pt s l) (phi_pt s k)) = cst L.
Proof.
  intros H. pose proof (so_nZeta s OK). pose proof (so_nfp s OK) as HP.
  assert (D : within_deg (sz_nThetaEven s - 1) 0 L) by (intros u Hu; destruct (H u Hu) as (? & -> & _); cbn; lia).
  rewrite (quadrature s OK (sz_nThetaEven s - 1) 0 (ev (sz_nfp s) L)); [|exists L; split; [exact D|reflexivity]|lia|lia|].
  - apply (mean_cst (sz_nfp s) HP). reflexivity.
  - intros _ x y. unfold ev. apply rsum_ext. intros u Hu. destruct (H u Hu) as (_ & Hn & Hx). unfold tev. rewrite Hn, Hx.
    rewrite <- (cos_neg (IZR (tm u) * x + _ + _)). f_equal. f_equal. ring.
Qed.
Lemma NT4 : (4 < sz_nThetaEven s)%Z.
Proof. pose proof (so_pol s OK). pose proof (so_nT s OK). lia. Qed.

Lemma edge_sum (f : Z -> R) (F : R -> R -> R) :
  (forall k l, (0 <= k < NZ)%Z -> (0 <= l < nTE)%Z -> f (k * nTE + l)%Z = F (theta_pt s l) (phi_pt s k)) ->
  forall L, (forall u, In u L -> (Z.abs (tm u) < sz_nThetaEven s)%Z /\ tn u = 0%Z /\ tx u = 0) ->
  (forall x y, F x y = ev (sz_nfp s) L x y) ->
  zsum 0 nZnT (fun kl => f kl * w kl) = cst L.
Proof.
  intros HF L HL E. rewrite (edge_avg s OK f F HF). rewrite <- (circ_avg L HL). unfold grid_avg.
  apply zsum_ext. intros k _. apply zsum_ext. intros l _. rewrite E. reflexivity.
Qed.

Lemma in_nil_all (P : term -> Prop) : forall u, In u [] -> P u. Proof. intros u []. Qed.
Ltac deg := pose proof NT4; let u := fresh in let H := fresh in intros u H; cbn [In] in H;
  repeat (destruct H as [<-|H]; [cbn; split; [lia|split; reflexivity]|]); destruct H.
Ltac evs := intros; unfold ev, rsum, tev, t; cbn [ta tm tn tx]; rewrite ?Rmult_0_l, ?Rplus_0_r, ?Rplus_0_l, ?Rmult_1_l, ?cos_0.

Lemma circ_circ : circum_p s ns g = 2 * PI * a.
Proof.
  unfold circum_p, circumference_sum. erewrite for_up_acc; [|intros; reflexivity]. rewrite Rplus_0_l.
  rewrite (edge_sum (fun kl => sqrt (ruFull g ((ns - 1) * nZnT + kl) * ruFull g ((ns - 1) * nZnT + kl) + zuFull g ((ns - 1) * nZnT + kl) * zuFull g ((ns - 1) * nZnT + kl))) (fun _ _ => a)) with (L := [t a 0]).
  - unfold cst. cbn. rewrite cos_0. ring.
  - intros k l Hk Hl. rewrite Vru, Vzu by assumption. pose proof (sin2_cos2 (theta_pt s l)) as E. unfold Rsqr in E.
    match goal with |- sqrt ?e = _ => replace e with (a * a * (sin (theta_pt s l) * sin (theta_pt s l) + cos (theta_pt s l) * cos (theta_pt s l))) by ring end.
    rewrite E, Rmult_1_r. apply sqrt_square. lra.
  - deg.
  - evs. ring.
Qed.
Lemma circ_surf : surf_area_p s ns g = 4 * PI * PI * R0 * a.
Proof.
  unfold surf_area_p. erewrite for_up_acc; [|intros; reflexivity]. rewrite Rplus_0_l. unfold surf_area. cbv zeta.
  rewrite (zsum_ext 0 nZnT _ (fun kl => sqrt ((r_e g ((ns - 1) * nZnT + kl) + r_o g ((ns - 1) * nZnT + kl)) * (r_e g ((ns - 1) * nZnT + kl) + r_o g ((ns - 1) * nZnT + kl)) * (ruFull g ((ns - 1) * nZnT + kl) * ruFull g ((ns - 1) * nZnT + kl) + zuFull g ((ns - 1) * nZnT + kl) * zuFull g ((ns - 1) * nZnT + kl)) + ((rv_e g ((ns - 1) * nZnT + kl) + rv_o g ((ns - 1) * nZnT + kl)) * zuFull g ((ns - 1) * nZnT + kl) - (zv_e g ((ns - 1) * nZnT + kl) + zv_o g ((ns - 1) * nZnT + kl)) * ruFull g ((ns - 1) * nZnT + kl)) * ((rv_e g ((ns - 1) * nZnT + kl) + rv_o g ((ns - 1) * nZnT + kl)) * zuFull g ((ns - 1) * nZnT + kl) - (zv_e g ((ns - 1) * nZnT + kl) + zv_o g ((ns - 1) * nZnT + kl)) * ruFull g ((ns - 1) * nZnT + kl))) * w kl)) by (intros; apply Rmult_comm).
  match goal with |- context [zsum 0 nZnT (fun kl => @?f kl * w kl)] => rewrite (edge_sum f (fun th _ => (R0 + a * cos th) * a)) with (L := [t (R0 * a) 0; t (a * a) 1]) end.
  - unfold cst. cbn. rewrite cos_0. ring.
  - intros k l Hk Hl. cbv beta. pose proof (VR k l Hk Hl) as E1. pose proof (Vrv k l Hk Hl) as E2. pose proof (Vzv k l Hk Hl) as E3. cbv beta in E1, E2, E3.
    rewrite E1, E2, E3, (Vru k l Hk Hl), (Vzu k l Hk Hl).
    pose proof (sin2_cos2 (theta_pt s l)) as E. unfold Rsqr in E. pose proof (COS_bound (theta_pt s l)).
    match goal with |- sqrt ?e = _ => replace e with (((R0 + a * cos (theta_pt s l)) * a) * ((R0 + a * cos (theta_pt s l)) * a)) end.
    + apply sqrt_square. assert (- a <= a * cos (theta_pt s l)) by nra. apply Rmult_le_pos; lra.
    + transitivity ((R0 + a * cos (theta_pt s l)) * (R0 + a * cos (theta_pt s l)) * (a * a) * 1); [ring|]. rewrite <- E. ring.
  - deg.
  - evs. ring.
Qed.
Lemma circ_sums : sums s ns g = (a * a / 2, R0 * a * a).
Proof.
  rewrite (sums_eq s ns OK). f_equal.
  - rewrite (edge_sum (fun kl => (r_e g ((ns - 1) * nZnT + kl) + r_o g ((ns - 1) * nZnT + kl)) * (zu_e g ((ns - 1) * nZnT + kl) + zu_o g ((ns - 1) * nZnT + kl))) (fun th _ => (R0 + a * cos th) * (a * cos th))) with (L := [t (R0 * a) 1; t (a * a / 2) 0; t (a * a / 2) 2]).
    + unfold cst. cbn. rewrite cos_0. ring.
    + intros k l Hk Hl. rewrite <- (VR k l Hk Hl), <- (VZ k l Hk Hl). reflexivity.
    + deg.
    + evs. rewrite cos_2a_cos. field.
  - rewrite (zsum_ext 0 nZnT _ (fun kl => ((r_e g ((ns - 1) * nZnT + kl) + r_o g ((ns - 1) * nZnT + kl)) * ((r_e g ((ns - 1) * nZnT + kl) + r_o g ((ns - 1) * nZnT + kl)) * (zu_e g ((ns - 1) * nZnT + kl) + zu_o g ((ns - 1) * nZnT + kl)))) * w kl)) by (intros; ring).
    match goal with |- context [zsum 0 nZnT (fun kl => @?f kl * w kl)] => rewrite (edge_sum f (fun th _ => (R0 + a * cos th) * ((R0 + a * cos th) * (a * cos th)))) with (L := [t (R0 * R0 * a + 3 / 4 * a * a * a) 1; t (R0 * a * a) 0; t (R0 * a * a) 2; t (a * a * a / 4) 3]) end.
    + unfold cst. cbn. rewrite cos_0. ring.
    + intros k l Hk Hl. cbv beta. rewrite <- (VR k l Hk Hl), <- (VZ k l Hk Hl). reflexivity.
    + deg.
    + evs. rewrite (cos_3a x), cos_2a_cos. field.
Qed.
Lemma circ_area : cross_area_p s ns g = PI * a * a.
Proof. unfold cross_area_p. rewrite circ_sums. cbn [fst]. rewrite Rabs_right by nra. field. Qed.
Lemma circ_volume : volume_p s ns g = 2 * PI * PI * R0 * a * a.
Proof. unfold volume_p. rewrite circ_sums. cbn [snd]. rewrite Rabs_right by (assert (0 < R0 * a * a) by (apply Rmult_lt_0_compat; [apply Rmult_lt_0_compat|]; lra); lra). ring. Qed.
Lemma circ_minor : Aminor_p s ns g = a.
Proof. unfold Aminor_p. rewrite circ_area. pose proof PI_RGT_0. replace (PI * a * a / PI) with (a * a) by (field; lra). apply sqrt_square. lra. Qed.
Lemma circ_major : Rmajor_p s ns g = R0.
Proof. unfold Rmajor_p. rewrite circ_area, circ_volume. pose proof PI_RGT_0. field. lra. Qed.
Lemma circ_kappa : kappa_p s ns g = 1.
Proof.
  unfold kappa_p. rewrite circ_surf, circ_minor, circ_volume. pose proof PI_RGT_0. cbv zeta.
  replace (4 * PI * PI * R0 * a * a / (2 * (2 * PI * PI * R0 * a * a))) with 1 by (field; lra).
  replace (1 * 1 * (1 * 1) - 1) with 0 by ring. rewrite Rabs_R0, sqrt_0. field.
Qed.
End Circ.

(** *** Aliasing of the volume: 9 poloidal modes on 24 points *)
