(** Orthogonality of the basis functions on the grid, round trip, and the
    statements in terms of series and their derivatives. *)
From Coq Require Import ZArith List Bool Reals Lia Lra.
From Verif Require Import Base BaseLemmas SumLemmas SizesModel FourierModel FourierSpec FourierProofs TrigSums
  PartModel KernelProofs DftModel DftSpec DftTables DftProofs DftGeo DftForces DftFold.
Import ListNotations.
Open Scope R_scope.

Definition cos_th (b : bk) : bool := match b with b_cc | b_cs => true | _ => false end.
Definition cos_ze (b : bk) : bool := match b with b_cc | b_sc => true | _ => false end.
Definition bk_eqb (b c : bk) : bool := Bool.eqb (cos_th b) (cos_th c) && Bool.eqb (cos_ze b) (cos_ze c).
Lemma live_eq b m n : live b m n = (cos_th b || negb (m =? 0)%Z) && (cos_ze b || negb (n =? 0)%Z).
Proof. destruct b; cbn; rewrite ?andb_true_r; reflexivity. Qed.
Lemma bk_eqb_spec b c : reflect (b = c) (bk_eqb b c).
Proof. destruct b, c; cbn; constructor; congruence. Qed.

Section Orth.
Variable s : sizes.
Hypothesis OK : sz_ok s.
Local Notation mpol := (sz_mpol s).
Local Notation ntor := (sz_ntor s).
Local Notation nfp := (sz_nfp s).
Local Notation nZeta := (sz_nZeta s).
Local Notation nT := (sz_nThetaEven s).
Local Notation nTE := (sz_nThetaEff s).

Lemma s2_sq m : s2 m * s2 m = if (m =? 0)%Z then 1 else 2.
Proof.
  unfold s2. destruct (m =? 0)%Z; [ring|]. apply sqrt_def. lra.
Qed.
Lemma one_orth N a a' (c c' : bool) : (0 < N)%Z -> (0 <= a)%Z -> (0 <= a')%Z -> (a + a' < N)%Z ->
  zsum 0 N (fun l => s2 a' * (if c' then cos (IZR a' * ang N l) else sin (IZR a' * ang N l)) *
    (s2 a * (if c then cos (IZR a * ang N l) else sin (IZR a * ang N l)))) =
  if Bool.eqb c c' && (a =? a')%Z && (c || negb (a =? 0)%Z) then IZR N else 0.
Proof.
  intros HN Ha Ha' Hs.
  set (f := fun l : Z => (if c' then cos (IZR a' * ang N l) else sin (IZR a' * ang N l)) * (if c then cos (IZR a * ang N l) else sin (IZR a * ang N l))).
  rewrite (zsum_ext _ _ _ (fun l => s2 a' * s2 a * f l)) by (intros; unfold f; ring).
  rewrite zsum_scale. unfold f. destruct c, c'; cbn [Bool.eqb andb orb].
  - rewrite (orth_cc N HN a' a) by lia. destruct (Z.eqb_spec a' a) as [->|NE].
    + rewrite Z.eqb_refl, s2_sq. destruct (a =? 0)%Z; cbn [andb]; field.
    + destruct (Z.eqb_spec a a'); [lia|]. cbn [andb]. ring.
  - rewrite (orth_sc N HN a' a) by lia. ring.
  - rewrite (orth_cs N HN a' a) by lia. ring.
  - rewrite (orth_ss N HN a' a) by lia. destruct (Z.eqb_spec a' a) as [->|NE].
    + rewrite Z.eqb_refl, s2_sq. destruct (a =? 0)%Z; cbn [andb negb]; field.
    + destruct (Z.eqb_spec a a'); [lia|]. cbn [andb]. ring.
Qed.
Lemma full_orth b b' m m' n n' : (0 <= m < mpol)%Z -> (0 <= m' < mpol)%Z -> (0 <= n <= ntor)%Z -> (0 <= n' <= ntor)%Z ->
  full s (fun k l => Phi nfp b' m' n' (theta_pt s l) (phi_pt s k) * Phi nfp b m n (theta_pt s l) (phi_pt s k)) =
  if bk_eqb b b' && (m =? m')%Z && (n =? n')%Z && live b m n then IZR nZeta * IZR nT else 0.
Proof.
  intros Hm Hm' Hn Hn'. assert (P := so_pol s OK). assert (T := so_tor s OK). assert (Z1 := so_nZeta s OK). assert (T2 := nT_pos s OK).
  set (pt := fun l => s2 m' * (if cos_th b' then cos (IZR m' * ang nT l) else sin (IZR m' * ang nT l)) *
    (s2 m * (if cos_th b then cos (IZR m * ang nT l) else sin (IZR m * ang nT l)))).
  set (zt := fun k => s2 n' * (if cos_ze b' then cos (IZR n' * ang nZeta k) else sin (IZR n' * ang nZeta k)) *
    (s2 n * (if cos_ze b then cos (IZR n * ang nZeta k) else sin (IZR n * ang nZeta k)))).
  transitivity (zsum 0 nZeta zt * zsum 0 nT pt).
  - unfold full. rewrite <- zsum_scale_r. apply zsum_ext. intros k Hk. rewrite <- zsum_scale. apply zsum_ext. intros l Hl.
    unfold Phi, zt, pt. rewrite !(phi_ang s OK), theta_pt_ang. destruct b, b'; cbn [in_theta in_zeta cos_th cos_ze]; ring.
  - unfold zt, pt. rewrite !one_orth by lia. rewrite live_eq. unfold bk_eqb.
    destruct (Bool.eqb (cos_th b) (cos_th b')), (Bool.eqb (cos_ze b) (cos_ze b')), (m =? m')%Z, (n =? n')%Z,
      (cos_th b || negb (m =? 0)%Z), (cos_ze b || negb (n =? 0)%Z); cbn [andb]; ring.
Qed.
Lemma grid_orth c b b' m m' n n' : c <> cL -> In b (kinds (sz_lasym s) c) -> In b' (kinds (sz_lasym s) c) ->
  (0 <= m < mpol)%Z -> (0 <= m' < mpol)%Z -> (0 <= n <= ntor)%Z -> (0 <= n' <= ntor)%Z ->
  grid_avg s (fun k l => Phi nfp b' m' n' (theta_pt s l) (phi_pt s k) * Phi nfp b m n (theta_pt s l) (phi_pt s k)) =
  if bk_eqb b b' && (m =? m')%Z && (n =? n')%Z && live b m n then 1 else 0.
Proof.
  intros NL Hb Hb' Hm Hm' Hn Hn'. assert (Z1 := so_nZeta s OK). assert (HT := so_nT s OK). assert (HR := so_nTR s OK).
  set (g := fun k l => _).
  assert (E : grid_avg s g = norm_ s / 2 * full s g).
  { case_eq (sz_lasym s); intros LA.
    - apply (grid_full s OK LA).
    - rewrite LA in Hb, Hb'. rewrite <- (red_grid s OK g LA). apply (red_even s OK). intros k l Hk Hl. unfold g.
      destruct (Phi_refl s OK false c b m n k l Hb Hk Hl) as [A _]. destruct (Phi_refl s OK false c b' m' n' k l Hb' Hk Hl) as [B _].
      rewrite (A NL), (B NL). transitivity (sgn_q false (c_A c) * sgn_q false (c_A c) * (Phi nfp b' m' n' (theta_pt s l) (phi_pt s k) * Phi nfp b m n (theta_pt s l) (phi_pt s k))); [ring|].
      rewrite sgn_sq. ring. }
  rewrite E. unfold g. rewrite full_orth by lia.
  destruct (bk_eqb b b' && (m =? m')%Z && (n =? n')%Z && live b m n); [|ring].
  unfold norm_, intNorm. rewrite HT, ?mult_IZR. field. split; apply not_0_IZR; lia.
Qed.

Lemma grid_rsum {A} (L : list A) (f : A -> Z -> Z -> R) :
  grid_avg s (fun k l => rsum L (fun a => f a k l)) = rsum L (fun a => grid_avg s (f a)).
Proof.
  induction L as [|a L IH]; cbn [rsum].
  - unfold grid_avg. apply zsum_zero. intros; apply zsum_zero; intros; ring.
  - rewrite <- IH. transitivity (1 * grid_avg s (f a) + 1 * grid_avg s (fun k l => rsum L (fun a => f a k l))); [|ring].
    rewrite <- grid_lin. apply grid_ext. intros; ring.
Qed.
Lemma grid_zsum lo hi (f : Z -> Z -> Z -> R) :
  grid_avg s (fun k l => zsum lo hi (fun a => f a k l)) = zsum lo hi (fun a => grid_avg s (f a)).
Proof. apply grid_rsum. Qed.
Lemma grid_scale a f : grid_avg s (fun k l => a * f k l) = a * grid_avg s f.
Proof.
  transitivity (a * grid_avg s f + 0 * grid_avg s f); [|ring]. rewrite <- grid_lin. apply grid_ext. intros; ring.
Qed.

Lemma rsum_one {A} (eqb : A -> A -> bool) (SP : forall x y, reflect (x = y) (eqb x y)) (L : list A) a (f : A -> R) :
  NoDup L -> In a L -> (forall x, In x L -> x <> a -> f x = 0) -> rsum L f = f a.
Proof.
  induction L as [|x L IH]; intros ND Hi H0; [destruct Hi|]. cbn [rsum]. inversion ND as [|y L' N1 N2]; subst.
  destruct (SP x a) as [->|NE].
  - replace (rsum L f) with 0; [ring|]. symmetry.
    transitivity (rsum L (fun _ => 0)).
    + apply rsum_ext. intros y Hy. apply H0; [right; exact Hy|]. intros ->. contradiction.
    + clear. induction L; cbn; lra.
  - destruct Hi as [->|Hi]; [contradiction|]. rewrite IH; auto.
    + rewrite (H0 x); [ring|left; reflexivity|exact NE].
    + intros y Hy. apply H0. right; exact Hy.
Qed.
Lemma kinds_nodup la c : NoDup (kinds la c).
Proof. destruct la, c; cbn; repeat (constructor; [cbn; intuition congruence|]); constructor. Qed.

Lemma project_series c b M e m n x : c <> cL -> In b (kinds (sz_lasym s) c) ->
  (0 <= m < M)%Z -> (M <= mpol)%Z -> (0 <= n <= ntor)%Z -> e = Z.even m ->
  grid_avg s (fun k l => series nfp (kinds (sz_lasym s) c) M ntor e x (theta_pt s l) (phi_pt s k) * Phi nfp b m n (theta_pt s l) (phi_pt s k)) =
  if live b m n then x b m n else 0.
Proof.
  intros NL Hb Hm HM Hn He.
  set (P := fun b m n k l => Phi nfp b m n (theta_pt s l) (phi_pt s k)).
  transitivity (rsum (kinds (sz_lasym s) c) (fun b' => zsum 0 M (fun m' => if Bool.eqb e (Z.even m') then
    zsum 0 (ntor + 1) (fun n' => x b' m' n' * grid_avg s (fun k l => P b' m' n' k l * P b m n k l)) else 0))).
  - transitivity (grid_avg s (fun k l => rsum (kinds (sz_lasym s) c) (fun b' => zsum 0 M (fun m' => if Bool.eqb e (Z.even m') then
      zsum 0 (ntor + 1) (fun n' => x b' m' n' * (P b' m' n' k l * P b m n k l)) else 0)))).
    + apply grid_ext. intros k l _ _. unfold series. rewrite <- rsum_scale_r. apply rsum_ext. intros b' _.
      rewrite <- zsum_scale_r. apply zsum_ext. intros m' _. destruct (Bool.eqb e (Z.even m')); [|ring].
      rewrite <- zsum_scale_r. apply zsum_ext. intros n' _. unfold P. ring.
    + rewrite grid_rsum. apply rsum_ext. intros b' _. rewrite grid_zsum. apply zsum_ext. intros m' _.
      destruct (Bool.eqb e (Z.even m')).
      * rewrite grid_zsum. apply zsum_ext. intros n' _. apply grid_scale.
      * unfold grid_avg. apply zsum_zero. intros; apply zsum_zero; intros; ring.
  - assert (V : forall b' m' n', In b' (kinds (sz_lasym s) c) -> (0 <= m' < M)%Z -> (0 <= n' < ntor + 1)%Z ->
      grid_avg s (fun k l => P b' m' n' k l * P b m n k l) = if bk_eqb b b' && (m =? m')%Z && (n =? n')%Z && live b m n then 1 else 0).
    { intros b' m' n' Hb' Hm' Hn'. apply (grid_orth c); auto; lia. }
    rewrite (rsum_one bk_eqb bk_eqb_spec _ b _ (kinds_nodup _ _) Hb).
    + rewrite (zsum_single 0 M m).
      * rewrite He, Bool.eqb_reflx. rewrite (zsum_single 0 (ntor + 1) n); [|lia|].
        -- rewrite V by (auto; lia). rewrite !Z.eqb_refl. destruct (bk_eqb_spec b b); [|congruence]. cbn [andb].
           destruct (live b m n); ring.
        -- intros n' Hn' NE. rewrite V by (auto; lia). destruct (Z.eqb_spec n n'); [congruence|].
           rewrite andb_false_r. cbn [andb]. ring.
      * lia.
      * intros m' Hm' NE. destruct (Bool.eqb e (Z.even m')); [|reflexivity]. apply zsum_zero. intros n' Hn'.
        rewrite V by (auto; lia). destruct (Z.eqb_spec m m'); [congruence|]. rewrite andb_false_r. cbn [andb]. ring.
    + intros b' Hb' NE. apply zsum_zero. intros m' Hm'. destruct (Bool.eqb e (Z.even m')); [|reflexivity]. apply zsum_zero. intros n' Hn'.
      rewrite V by (auto; lia). destruct (bk_eqb_spec b b'); [congruence|]. cbn [andb]. ring.
Qed.
End Orth.

(** ** Statements in terms of series *)
Section Geo.
Variable s : sizes.
Hypothesis OK : sz_ok s.
Variable b0 : basis_tables.
Variable p : rpart.
Variables xmpq sqrtSF : Z -> R.
Hypothesis M2 : (2 <= sz_mpol s)%Z.
Hypothesis SH : sz_lthreed s = true \/ sz_nZeta s = 1%Z.
Hypothesis P0 : (0 <= nsMinF1 p)%Z.
Local Notation t := (tab s b0).
Local Notation nfp := (sz_nfp s).

Definition xs (x : coefs) (c : comp) (J : Z) (b : bk) (m n : Z) : R := x c b (at_mn s J m n).
Definition ser (x : coefs) (c : comp) (j : Z) (e : bool) : R -> R -> R :=
  series nfp (kinds (sz_lasym s) c) (n_pol (sz_mpol s) j) (sz_ntor s) e (xs x c (j - nsMinF1 p)).
Variables (x : coefs) (g0 ga0 : geom) (j k l : Z).
Hypothesis Hj : (nsMinF1 p <= j < nsMaxF1 p)%Z.
Hypothesis Hk : (0 <= k < sz_nZeta s)%Z.
Hypothesis Hl : (0 <= l < sz_nThetaEff s)%Z.
Local Notation G := (geometryFromFourier s t p xmpq sqrtSF x g0 ga0).
Local Notation i := (at_pt s (j - nsMinF1 p) k l).
Local Notation th := (theta_pt s l).
Local Notation ph := (phi_pt s k).

Lemma fsum_der q e (Q : bk -> Z -> Z -> R) : (forall b m n, Dpt s q k l b m n = Q b m n) -> q_ok s q = true ->
  g_q G q e i = rsum (kinds (sz_lasym s) (cq q)) (fun b => zsum 0 (n_pol (sz_mpol s) j) (fun m => if Bool.eqb e (Z.even m)
    then zsum 0 (sz_ntor s + 1) (fun n => xs x (cq q) (j - nsMinF1 p) b m n * Q b m n) else 0)).
Proof.
  intros HQ Hq. rewrite (geo_at s OK b0 p xmpq sqrtSF M2 SH P0 x g0 ga0 q e j k l Hq Hj Hk Hl).
  unfold fsum, xs. apply rsum_ext. intros b _. apply zsum_ext. intros m _. destruct (Bool.eqb e (Z.even m)); [|reflexivity].
  unfold one_. rewrite Rmult_1_r. apply zsum_ext. intros n _. rewrite HQ. reflexivity.
Qed.
Lemma geo_val q e : (q = G_r1 \/ q = G_z1) -> g_q G q e i = ser x (cq q) j e th ph.
Proof.
  intros Hq. rewrite (fsum_der q e (fun b m n => Phi nfp b m n th ph)).
  - reflexivity.
  - destruct Hq as [-> | ->]; reflexivity.
  - destruct Hq as [-> | ->]; reflexivity.
Qed.
Lemma geo_th q e : (q = G_ru \/ q = G_zu \/ q = G_lu) ->
  derivable_pt_lim (fun y => ser x (cq q) j e y ph) th (g_q G q e i).
Proof.
  intros Hq. rewrite (fsum_der q e (fun b m n => Phi_theta nfp b m n th ph)).
  - unfold ser, series.
    apply (d_series (fun b m n y => Phi nfp b m n y ph) (fun b m n y => Phi_theta nfp b m n y ph)). intros. apply Phi_d_theta.
  - destruct Hq as [-> | [-> | ->]]; reflexivity.
  - destruct Hq as [-> | [-> | ->]]; reflexivity.
Qed.
Lemma geo_ph q e : sz_lthreed s = true -> (q = G_rv \/ q = G_zv) ->
  derivable_pt_lim (fun y => ser x (cq q) j e th y) ph (g_q G q e i).
Proof.
  intros H3 Hq. rewrite (fsum_der q e (fun b m n => Phi_phi nfp b m n th ph)).
  - unfold ser, series.
    apply (d_series (fun b m n y => Phi nfp b m n th y) (fun b m n y => Phi_phi nfp b m n th y)). intros. apply Phi_d_phi.
  - destruct Hq as [-> | ->]; reflexivity.
  - unfold q_ok. rewrite H3. apply orb_true_r.
Qed.
Lemma geo_lv e : sz_lthreed s = true ->
  derivable_pt_lim (fun y => ser x cL j e th y) ph (- g_q G G_lv e i).
Proof.
  intros H3. rewrite (fsum_der G_lv e (fun b m n => - Phi_phi nfp b m n th ph)).
  - replace (- rsum _ _) with (rsum (kinds (sz_lasym s) cL) (fun b => zsum 0 (n_pol (sz_mpol s) j) (fun m => if Bool.eqb e (Z.even m)
      then zsum 0 (sz_ntor s + 1) (fun n => xs x cL (j - nsMinF1 p) b m n * Phi_phi nfp b m n th ph) else 0))).
    + unfold ser, series.
      apply (d_series (fun b m n y => Phi nfp b m n th y) (fun b m n y => Phi_phi nfp b m n th y)). intros. apply Phi_d_phi.
    + transitivity (-1 * rsum (kinds (sz_lasym s) (cq G_lv)) (fun b => zsum 0 (n_pol (sz_mpol s) j) (fun m => if Bool.eqb e (Z.even m)
        then zsum 0 (sz_ntor s + 1) (fun n => xs x (cq G_lv) (j - nsMinF1 p) b m n * - Phi_phi nfp b m n th ph) else 0))); [|ring].
      rewrite <- rsum_scale. apply rsum_ext. intros b _. rewrite <- zsum_scale. apply zsum_ext. intros m _.
      destruct (Bool.eqb e (Z.even m)); [|ring]. rewrite <- zsum_scale. apply zsum_ext. intros n _. cbn [cq]. ring.
  - reflexivity.
  - unfold q_ok. rewrite H3. apply orb_true_r.
Qed.

Lemma con_val : (nsMinF p <= j < nsMaxFIncludingLcfs p)%Z ->
  let X c b m n := xmpq m * xs x c (j - nsMinF1 p) b m n in
  let S c e := series nfp (kinds (sz_lasym s) c) (n_pol (sz_mpol s) j) (sz_ntor s) e (X c) th ph in
  g_rCon G (at_pt s (j - nsMinF p) k l) = S cR true + sqrtSF (j - nsMinF1 p)%Z * S cR false /\
  g_zCon G (at_pt s (j - nsMinF p) k l) = S cZ true + sqrtSF (j - nsMinF1 p)%Z * S cZ false.
Proof.
  intros Hjc X S. destruct (con_at s OK b0 p xmpq sqrtSF M2 SH P0 x g0 ga0 j k l Hj Hjc Hk Hl) as [A B].
  assert (E : forall q, q = G_r1 \/ q = G_z1 ->
    fsum s (kinds (sz_lasym s) (cq q)) (n_pol (sz_mpol s) j) all_ (con_f p xmpq sqrtSF j) (x (cq q)) (j - nsMinF1 p) (Dpt s q k l) =
    S (cq q) true + sqrtSF (j - nsMinF1 p)%Z * S (cq q) false).
  { intros q Hq. unfold fsum, S, series. rewrite <- rsum_scale, <- rsum_plus. apply rsum_ext. intros b _.
    rewrite <- zsum_scale, <- zsum_plus. apply zsum_ext. intros m _. unfold all_, con_f.
    assert (DP : forall n, Dpt s q k l b m n = Phi nfp b m n th ph) by (intros; destruct Hq as [-> | ->]; reflexivity).
    destruct (Z.even m); cbn [Bool.eqb].
    - rewrite Rmult_0_r, Rplus_0_r, <- zsum_scale_r. apply zsum_ext. intros n _. rewrite DP. unfold X, xs. ring.
    - rewrite Rplus_0_l, <- zsum_scale_r, <- zsum_scale. apply zsum_ext. intros n _. rewrite DP. unfold X, xs. ring. }
  split; [rewrite A; apply (E G_r1); auto|rewrite B; apply (E G_z1); auto].
Qed.

Lemma full_deriv q a0 : (q = G_ru \/ q = G_zu) -> (nsMinF p <= j < nsMaxFIncludingLcfs p)%Z ->
  derivable_pt_lim (fun y => ser x (cq q) j true y ph + sqrtSF (j - nsMinF1 p)%Z * ser x (cq q) j false y ph) th
    (fullDeriv s p sqrtSF G q a0 (at_pt s (j - nsMinF p) k l)).
Proof.
  intros Hq Hjc. assert (NZ := so_nZnT s OK).
  replace (fullDeriv s p sqrtSF G q a0 (at_pt s (j - nsMinF p) k l)) with
    (g_q G q true i + sqrtSF (j - nsMinF1 p)%Z * g_q G q false i).
  - apply (derivable_pt_lim_plus (fun y => ser x (cq q) j true y ph) (fun y => sqrtSF (j - nsMinF1 p)%Z * ser x (cq q) j false y ph)).
    + apply geo_th. tauto.
    + apply d_scal. apply geo_th. tauto.
  - unfold fullDeriv. rewrite (for_up_pairs (fun jF kl (a : Z -> R) => upd a ((jF - nsMinF p) * sz_nZnT s + kl)%Z
      (g_q G q true ((jF - nsMinF1 p) * sz_nZnT s + kl)%Z + sqrtSF (jF - nsMinF1 p)%Z * g_q G q false ((jF - nsMinF1 p) * sz_nZnT s + kl)%Z))).
    assert (AP : forall J, (at_pt s J k l = J * sz_nZnT s + (k * sz_nThetaEff s + l))%Z) by (intros; unfold at_pt; rewrite NZ; ring).
    assert (KL := kl_bound _ _ _ _ Hk Hl).
    assert (IN : In (j, (k * sz_nThetaEff s + l)%Z) (pairs (nsMinF p) (nsMaxFIncludingLcfs p) 0 (sz_nZnT s))).
    { apply pairs_In. rewrite NZ. split; [exact Hjc|exact KL]. }
    rewrite !AP.
    rewrite (assign_get _ (fun q : Z * Z => ((fst q - nsMinF p) * sz_nZnT s + snd q)%Z)
      (fun pq : Z * Z => g_q G q true ((fst pq - nsMinF1 p) * sz_nZnT s + snd pq)%Z + sqrtSF (fst pq - nsMinF1 p)%Z * g_q G q false ((fst pq - nsMinF1 p) * sz_nZnT s + snd pq)%Z)
      a0 (j, (k * sz_nThetaEff s + l)%Z)); [reflexivity| |exact IN].
    intros [a1 a2] [c1 c2] I1 I2 E. apply pairs_In in I1, I2. cbn [fst snd] in *.
    destruct (flat_inj (sz_nZnT s) (a1 - nsMinF p) a2 (c1 - nsMinF p) c2 ltac:(lia) ltac:(lia) E) as [E1 E2]. assert (a1 = c1) by lia. subst. reflexivity.
Qed.
End Geo.
