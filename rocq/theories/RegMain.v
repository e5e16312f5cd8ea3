From Coq Require Import ZArith List Bool Reals Lia Lra.
From Coquelicot Require Import Coquelicot.
From Verif Require Import Base BaseLemmas SumLemmas SizesModel FourierModel FourierSpec TrigSums DftSpec DftTables VacTables
  SingSumModel SurfModel SurfSpec SurfProofs SurfMirror SurfMain SurfFinal RegModel RegSpec RegProofs.
Import ListNotations.
Open Scope R_scope.

(** The masked tangent. *)
Lemma tan_pi x : tan (x + PI) = tan x.
Proof. unfold tan, Rdiv. rewrite neg_sin, neg_cos, Rinv_opp. ring. Qed.
Lemma pi3 : 3 < PI.
Proof. pose proof PI2_3_2. lra. Qed.

Lemma masked_hat N d x : (1 <= N < 2 ^ 31)%Z -> (0 <= d < N)%Z ->
  x / 2 = PI / IZR N * IZR d \/ x / 2 + PI = PI / IZR N * IZR d ->
  masked_tan (PI / IZR N * IZR d) = hat x.
Proof.
  intros HN Hd Hx. pose proof pi3 as P3.
  assert (N0 : 0 < IZR N) by (apply IZR_lt; lia).
  assert (CC : cos (PI / IZR N * IZR d) = 0 <-> cos (x / 2) = 0).
  { destruct Hx as [<-|<-]; [tauto|]. rewrite neg_cos. lra. }
  assert (TT : tan (PI / IZR N * IZR d) = tan (x / 2)).
  { destruct Hx as [<-|<-]; [reflexivity|apply tan_pi]. }
  clear Hx. set (y := PI / IZR N * IZR d) in *.
  assert (Y : 0 <= y < PI).
  { unfold y. assert (0 <= IZR d < IZR N) by (split; [apply IZR_le|apply IZR_lt]; lia).
    replace (PI / IZR N * IZR d) with (PI * (IZR d / IZR N)) by (field; lra).
    assert (0 <= IZR d / IZR N < 1).
    { split; [apply Rmult_le_pos; [lra|left; apply Rinv_0_lt_compat; lra]|]. apply Rmult_lt_reg_r with (IZR N); [lra|]. unfold Rdiv. rewrite Rmult_assoc, Rinv_l by lra. lra. }
    nra. }
  assert (MM : Rabs (y - 1 / 2 * PI) < epsTan <-> cos y = 0).
  { split.
    - intros H. assert (E : (2 * d = N)%Z).
      { destruct (Z.eq_dec (2 * d) N) as [|Ne]; [assumption|exfalso].
        assert (A : 1 <= Rabs (IZR (2 * d - N))).
        { rewrite <- abs_IZR. apply IZR_le. lia. }
        assert (B : y - 1 / 2 * PI = PI / (2 * IZR N) * IZR (2 * d - N)).
        { unfold y. rewrite minus_IZR, mult_IZR. field. lra. }
        rewrite B, Rabs_mult in H.
        assert (C : 0 < PI / (2 * IZR N)) by (apply Rdiv_lt_0_compat; lra).
        rewrite (Rabs_pos_eq (PI / (2 * IZR N))) in H by lra.
        assert (D : epsTan < PI / (2 * IZR N)).
        { unfold epsTan. apply Rmult_lt_reg_r with (2 * IZR N); [lra|].
          replace (PI / (2 * IZR N) * (2 * IZR N)) with PI by (field; lra).
          assert (IZR N <= 2147483648) by (apply IZR_le; lia).
          assert (2147483648 <= 10 ^ 10) by (cbn; lra).
          assert (1 / 10 ^ 15 * (2 * 10 ^ 10) < 3) by (cbn; lra).
          assert (0 < 1 / 10 ^ 15) by (cbn; lra). nra. }
        nra. }
      unfold y. rewrite <- E, mult_IZR. assert (IZR d <> 0) by (apply not_0_IZR; lia).
      replace (PI / (2 * IZR d) * IZR d) with (PI / 2) by (field; assumption). apply cos_PI2.
    - intros H. assert (E : y = PI / 2).
      { destruct (Rtotal_order y (PI / 2)) as [L|[L|L]]; [|assumption|].
        - exfalso. assert (0 < cos y) by (apply cos_gt_0; lra). lra.
        - exfalso. assert (cos y < 0) by (apply cos_lt_0; lra). lra. }
      rewrite E. replace (PI / 2 - 1 / 2 * PI) with 0 by field. rewrite Rabs_R0. unfold epsTan. cbn. lra. }
  unfold masked_tan, hat. destruct (Rlt_dec _ _) as [L|L]; destruct (Req_EM_T _ _) as [E|E]; try (exfalso; tauto).
  - reflexivity.
  - rewrite TT. reflexivity.
Qed.

Lemma bas_period c o w x N : (0 <= N)%Z -> bas c o w (x + 2 * IZR N * PI) = bas c o w x.
Proof.
  intros HN. rewrite <- (Z2Nat.id N) by lia. rewrite <- INR_IZR_INZ. unfold bas.
  rewrite sin_period, cos_period. reflexivity.
Qed.

Section H.
Variable s : sizes.
Hypothesis OK : sz_ok s.
Hypothesis MQ : (sz_mpol s + 1 <= sz_mnyq2 s)%Z.
Variable b0 : basis_tables.
Variables ztMin ztMax : Z.
Hypothesis Hz : (0 <= ztMin <= ztMax)%Z.
Hypothesis Hz2 : (ztMax <= sz_nZnT s)%Z.
Variable X : coef -> Z -> R.
Variables (g0 : surf) (sg : Z).
Variable bDotN : Z -> R.
Local Notation nz := (sz_nZeta s).
Local Notation nT := (sz_nThetaEven s).
Local Notation nfp := (sz_nfp s).
Local Notation F := (Fs s X).
Local Notation g := (update s ztMin ztMax true (vtab s b0) X sg g0).
Local Notation tk := (tk s).
Local Notation pk := (pk s).
Local Notation TN := (theta_by_nzeta s).

(** Rotations under which the surface is invariant. *)
Definition rotation (d : R) : Prop := forall n, (0 <= n <= sz_ntor s)%Z -> exists N, (0 <= N)%Z /\ IZR (n * nfp) * d = 2 * IZR N * PI.
Lemma rot_period p : (0 <= p)%Z -> rotation (2 * PI / IZR nfp * IZR p).
Proof.
  intros Hp n Hn. exists (n * p)%Z. split; [nia|]. rewrite !mult_IZR. pose proof (so_nfp s OK). field. apply not_0_IZR. lia.
Qed.
Lemma rot_axi d : sz_ntor s = 0%Z -> rotation d.
Proof. intros E n Hn. exists 0%Z. split; [lia|]. replace n with 0%Z by lia. rewrite Z.mul_0_l. ring. Qed.

Lemma serD_rot cc ss sc cs i j t p d : rotation d ->
  serD nfp (sz_mpol s) (sz_ntor s) cc ss sc cs i j t (p + d) = serD nfp (sz_mpol s) (sz_ntor s) cc ss sc cs i j t p.
Proof.
  intros Hd. unfold serD. apply zsum_ext. intros n Hn. apply zsum_ext. intros m _.
  destruct (Hd n ltac:(lia)) as (N & HN & E). rewrite (Rmult_plus_distr_l (IZR (n * nfp)) p d), E, !bas_period by assumption. reflexivity.
Qed.
Lemma rD_rot i j t p d : rotation d -> rD s X i j t (p + d) = rD s X i j t p. Proof. apply serD_rot. Qed.
Lemma zD_rot i j t p d : rotation d -> zD s X i j t (p + d) = zD s X i j t p. Proof. apply serD_rot. Qed.

Local Notation NC := (normal_comp (rD s X) (zD s X) (r_t s X) (r_p s X) (z_t s X) (z_p s X)).
Lemma normal_rot t p d : rotation d ->
  dot (normal (IZR sg) F t (p + d)) (e_R (p + d)) = dot (normal (IZR sg) F t p) (e_R p) /\
  dot (normal (IZR sg) F t (p + d)) (e_phi (p + d)) = dot (normal (IZR sg) F t p) (e_phi p) /\
  dot (normal (IZR sg) F t (p + d)) e_Z = dot (normal (IZR sg) F t p) e_Z.
Proof.
  intros Hd. destruct (NC (IZR sg) t p) as (A & B & C). destruct (NC (IZR sg) t (p + d)) as (A' & B' & C').
  change (surface (rD s X 0 0) (zD s X 0 0)) with F in *.
  rewrite A, B, C, A', B', C', !rD_rot, !zD_rot by assumption. auto.
Qed.
Lemma from_cyl n p : vx n = dot n (e_R p) * cos p - dot n (e_phi p) * sin p /\
  vy n = dot n (e_R p) * sin p + dot n (e_phi p) * cos p /\ vz n = dot n e_Z.
Proof.
  unfold dot, e_R, e_phi, e_Z. cbn [vx vy vz]. pose proof (cs1 p) as H. set (C := cos p) in *. set (S' := sin p) in *.
  split; [|split; [|ring]].
  - transitivity (vx n * (C * C + S' * S')); [rewrite H; ring|ring].
  - transitivity (vy n * (C * C + S' * S')); [rewrite H; ring|ring].
Qed.

Lemma kl_full kl : (0 <= kl < TN)%Z -> (0 <= kl / nz < nT)%Z /\ (0 <= kl mod nz < nz)%Z /\ (kl / nz * nz + kl mod nz)%Z = kl.
Proof.
  unfold theta_by_nzeta. intros H. pose proof (so_nZeta s OK).
  split; [split; [apply Z.div_pos; lia|apply Z.div_lt_upper_bound; lia]|].
  split; [apply Z.mod_pos_bound; lia|]. pose proof (Z.div_mod kl nz ltac:(lia)). lia.
Qed.
Lemma znt_le : (sz_nZnT s <= TN)%Z.
Proof.
  unfold theta_by_nzeta. pose proof (so_nT s OK). pose proof (so_nTR s OK). pose proof (so_nZnT s OK) as E. pose proof (so_nTE s OK) as ET. pose proof (so_nZeta s OK).
  rewrite E, ET. destruct (sz_lasym s); nia.
Qed.

Lemma pos_at kl : (0 <= kl < TN)%Z ->
  sf_rcosuv g kl = vx (F (tk kl) (pk kl)) /\ sf_rsinuv g kl = vy (F (tk kl) (pk kl)) /\
  sf_sym g Z1 kl = vz (F (tk kl) (pk kl)) /\ sf_sym g R1 kl = rD s X 0 0 (tk kl) (pk kl) /\
  sf_rzb2 g kl = dot (F (tk kl) (pk kl)) (F (tk kl) (pk kl)).
Proof.
  intros H. destruct (kl_full kl H) as (L & K & E).
  pose proof (position_arrays s OK MQ b0 ztMin ztMax Hz Hz2 true X g0 sg (kl / nz) (kl mod nz) eq_refl L K) as P.
  cbv zeta in P. rewrite E in P. destruct P as (P1 & P2 & P3 & P4 & P5).
  rewrite P1, P2, P3, P4, P5. fold (tk kl) (pk kl). repeat split.
  destruct (curv_comp (rD s X) (zD s X) (r_t s X) (r_p s X) (z_t s X) (z_p s X) (tk kl) (pk kl)) as (_ & _ & _ & (W & _) & _).
  exact W.
Qed.

(** One image of the source point. *)
Lemma image klp kl d : (ztMin <= klp < ztMax)%Z -> (0 <= kl < TN)%Z -> rotation d -> rD s X 0 0 (tk klp) (pk klp) <> 0 ->
  fval g (cos d) (sin d) klp kl = / dist2 (F (tk kl) (pk kl)) (F (tk klp) (pk klp + d)) /\
  dip ztMin g (cos d) (sin d) klp kl = dipole (IZR sg) F (tk kl) (pk kl) (tk klp) (pk klp + d).
Proof.
  intros Hp Hk Hd HR. pose proof znt_le as ZL.
  destruct (pos_at kl Hk) as (A1 & A2 & A3 & A4 & A5).
  destruct (pos_at klp ltac:(lia)) as (B1 & B2 & B3 & B4 & B5).
  destruct (first_order s OK MQ b0 ztMin ztMax Hz Hz2 true X g0 sg klp Hp) as (N1 & N2 & N3 & _).
  destruct (second_order s OK MQ b0 ztMin ztMax Hz Hz2 true X g0 sg klp eq_refl Hp) as (_ & _ & _ & D1).
  cbv zeta in N1, N2, N3, D1.
  fold (tk klp) (pk klp) in *. set (t := tk kl) in *. set (p := pk kl) in *. set (t' := tk klp) in *. set (p' := pk klp) in *.
  destruct (normal_rot t' p' d Hd) as (R1' & R2' & R3').
  set (r0 := rD s X 0 0 t' p') in *.
  assert (FX : vx (F t' (p' + d)) = r0 * cos (p' + d) /\ vy (F t' (p' + d)) = r0 * sin (p' + d) /\ vz (F t' (p' + d)) = vz (F t' p')).
  { unfold Fs, surface. cbn [vx vy vz]. rewrite rD_rot, zD_rot by assumption. auto. }
  destruct FX as (FX & FY & FZ).
  assert (XP : xper g (cos d) (sin d) klp = vx (F t' (p' + d))).
  { unfold xper. rewrite B1, B2, FX, cos_plus. unfold Fs, surface. cbn [vx vy vz]. fold r0. ring. }
  assert (YP : yper g (cos d) (sin d) klp = vy (F t' (p' + d))).
  { unfold yper. rewrite B1, B2, FY, sin_plus. unfold Fs, surface. cbn [vx vy vz]. fold r0. ring. }
  set (N := normal (IZR sg) F t' (p' + d)) in *. set (N0 := normal (IZR sg) F t' p') in *.
  destruct (from_cyl N (p' + d)) as (NX & NY & NZ).
  assert (SX : sxsave ztMin g (cos d) (sin d) klp = vx N).
  { unfold sxsave. rewrite XP, YP, N1, N2, B4, FX, FY, NX, R1', R2'. fold r0. field. assumption. }
  assert (SY : sysave ztMin g (cos d) (sin d) klp = vy N).
  { unfold sysave. rewrite XP, YP, N1, N2, B4, FX, FY, NY, R1', R2'. fold r0. field. assumption. }
  assert (EF : fval g (cos d) (sin d) klp kl = / dist2 (F t p) (F t' (p' + d))).
  { unfold fval, gval. rewrite XP, YP, A1, A2, A3, A5, B3, B5. unfold Rdiv. rewrite Rmult_1_l. f_equal.
    assert (RR : dot (F t' p') (F t' p') = dot (F t' (p' + d)) (F t' (p' + d))).
    { unfold dot. rewrite FX, FY, FZ. unfold Fs, surface. cbn [vx vy vz]. fold r0.
      pose proof (cs1 p') as H1. pose proof (cs1 (p' + d)) as H2.
      transitivity (r0 * r0 * (cos p' * cos p' + sin p' * sin p') + zD s X 0 0 t' p' * zD s X 0 0 t' p'); [ring|].
      rewrite H1, <- H2. ring. }
    rewrite RR. unfold dist2, dot, vsub. cbn [vx vy vz]. rewrite FZ. ring. }
  split; [exact EF|].
  unfold dip. rewrite EF, SX, SY. unfold dval. rewrite A1, A2, A3, N3, D1.
  unfold dipole. fold N. set (D := dist2 _ _). rewrite sqrt_inv. unfold Rdiv. rewrite Rinv_mult.
  assert (EQ : vx (F t p) * vx N + vy (F t p) * vy N + (- dot (F t' p') N0 + vz (F t p) * dot N0 e_Z) = dot (vsub (F t p) (F t' (p' + d))) N).
  { rewrite <- R3'. change (dot N e_Z) with (dot N e_Z). rewrite <- NZ.
    assert (RR : dot (F t' p') N0 = dot (F t' (p' + d)) N).
    { rewrite (dot_cyl (F t' p') N0 p'), (dot_cyl (F t' (p' + d)) N (p' + d)).
      fold N0. rewrite <- R1', <- R2', <- R3'. fold N.
      destruct (curv_comp (rD s X) (zD s X) (r_t s X) (r_p s X) (z_t s X) (z_p s X) t' p') as (_ & _ & _ & (W1 & W2 & W3) & _).
      destruct (curv_comp (rD s X) (zD s X) (r_t s X) (r_p s X) (z_t s X) (z_p s X) t' (p' + d)) as (_ & _ & _ & (V1 & V2 & V3) & _).
      change (surface (rD s X 0 0) (zD s X 0 0)) with F in *. rewrite W1, W2, W3, V1, V2, V3, rD_rot, zD_rot by assumption. reflexivity. }
    rewrite RR. unfold dot, vsub. cbn [vx vy vz]. ring. }
  rewrite EQ. ring.
Qed.

Lemma near1 klp u v : (ztMin <= klp < ztMax)%Z ->
  form1 g (klp - ztMin) u v = near_dist2 F (IZR nfp) (tk klp) (pk klp) u v /\
  form2 g (klp - ztMin) u v = near_lift (IZR sg) F (IZR nfp) (tk klp) (pk klp) u v.
Proof.
  intros Hp.
  destruct (first_order s OK MQ b0 ztMin ztMax Hz Hz2 true X g0 sg klp Hp) as (_ & _ & _ & M1 & M2 & M3).
  destruct (second_order s OK MQ b0 ztMin ztMax Hz Hz2 true X g0 sg klp eq_refl Hp) as (D1 & D2 & D3 & _).
  cbv zeta in *. fold (tk klp) (pk klp) in *.
  assert (Hn : IZR nfp <> 0) by (apply not_0_IZR; pose proof (so_nfp s OK); lia).
  unfold form1, form2, near_dist2, near_lift. rewrite M1, M2, M3, D1, D2, D3. unfold dot, vadd, scale. cbn [vx vy vz].
  split; field; assumption.
Qed.

Hypothesis HT31 : (nT < 2 ^ 31)%Z.
Hypothesis HZ31 : (nz < 2 ^ 31)%Z.

Lemma TU_hat klp kl : (0 <= klp < TN)%Z -> (0 <= kl < TN)%Z -> TU s klp kl = hat (tk kl - tk klp).
Proof.
  intros H1 H2. destruct (kl_full klp H1) as (L1 & _). destruct (kl_full kl H2) as (L2 & _).
  unfold TU, tanu. assert (N0 : IZR nT <> 0) by (apply not_0_IZR; lia).
  apply masked_hat; [lia|apply Z.mod_pos_bound; lia|].
  unfold SurfFinal.tk, ang. set (a := (kl / nz)%Z) in *. set (b := (klp / nz)%Z) in *.
  destruct (Z_le_gt_dec b a) as [L|L].
  - left. replace ((a - b + nT) mod nT)%Z with (a - b)%Z; [rewrite minus_IZR; field; assumption|].
    apply Z.mod_unique_pos with 1%Z; lia.
  - right. rewrite Z.mod_small by lia. rewrite plus_IZR, minus_IZR. field. assumption.
Qed.
Lemma TV_hat klp kl : (0 <= klp < TN)%Z -> (0 <= kl < TN)%Z -> TV s klp kl = hat (IZR nfp * (pk kl - pk klp)).
Proof.
  intros H1 H2. destruct (kl_full klp H1) as (_ & L1 & _). destruct (kl_full kl H2) as (_ & L2 & _).
  unfold TV, tanv. assert (N0 : IZR nz <> 0) by (apply not_0_IZR; lia).
  assert (Hn : IZR nfp <> 0) by (apply not_0_IZR; pose proof (so_nfp s OK); lia).
  apply masked_hat; [lia|apply Z.mod_pos_bound; lia|].
  unfold SurfFinal.pk, tor_angle. set (a := (kl mod nz)%Z) in *. set (b := (klp mod nz)%Z) in *.
  destruct (Z_le_gt_dec b a) as [L|L].
  - left. replace ((a - b + nz) mod nz)%Z with (a - b)%Z; [rewrite minus_IZR; field; auto|].
    apply Z.mod_unique_pos with 1%Z; lia.
  - right. rewrite Z.mod_small by lia. rewrite plus_IZR, minus_IZR. field. auto.
Qed.

(** Three-dimensional case. *)
Lemma kernel_3d st klp kl : nz <> 1%Z -> (ztMin <= klp < ztMax)%Z -> (0 <= kl < TN)%Z -> rD s X 0 0 (tk klp) (pk klp) <> 0 ->
  let im p := (pk klp + 2 * PI / IZR nfp * IZR p) in
  rg_greenp (reg_update s ztMin ztMax g bDotN st) ((klp - ztMin) * TN + kl)%Z =
  2 * PI / IZR nfp *
    (zsum 0 nfp (fun p => if ((p =? 0)%Z && (kl =? klp)%Z)%bool then 0 else dipole (IZR sg) F (tk kl) (pk kl) (tk klp) (im p))
     - (if (kl =? klp)%Z then 0 else near_dipole (IZR sg) F (IZR nfp) (tk klp) (pk klp) (hat (tk kl - tk klp)) (hat (IZR nfp * (pk kl - pk klp))))).
Proof.
  intros Hn Hp Hk HR. cbv zeta. pose proof znt_le as ZL. pose proof (so_nZeta s OK). pose proof (so_nT s OK). pose proof (so_nTR s OK). pose proof (so_nfp s OK).
  destruct (update_3d s ztMin ztMax g bDotN ltac:(lia) ltac:(lia) ltac:(lia) st klp kl Hn Hp Hk) as [E _]. rewrite E. clear E.
  unfold pair_green. rewrite (zsum_cons 0 nfp) by lia. cbn [Z.eqb andb]. rewrite Z.add_0_l.
  rewrite (zsum_ext 1 nfp (fun p => per_green s ztMin g klp p kl) (fun p => 2 * PI / IZR nfp *
     (if ((p =? 0)%Z && (kl =? klp)%Z)%bool then 0 else dipole (IZR sg) F (tk kl) (pk kl) (tk klp) (pk klp + 2 * PI / IZR nfp * IZR p)))).
  2:{ intros p Hpp. destruct (Z.eqb_spec p 0); [lia|]. cbn [andb]. unfold per_green, twopidivnfp. f_equal.
      unfold cos_per, sin_per. apply image; try assumption. apply rot_period. lia. }
  rewrite zsum_scale.
  destruct (Z.eqb_spec kl klp) as [->|Ne]; [ring|].
  unfold first_green, twopidivnfp. unfold A1, A2. rewrite TU_hat, TV_hat by lia.
  destruct (near1 klp (hat (tk kl - tk klp)) (hat (IZR nfp * (pk kl - pk klp))) Hp) as [-> ->].
  unfold cos_per, sin_per. destruct (image klp kl (2 * PI / IZR nfp * 0) Hp Hk (rot_period 0 ltac:(lia)) HR) as [_ ->].
  unfold near_dipole. unfold Rdiv. ring.
Qed.

Lemma source_3d st kl : nz <> 1%Z -> (0 <= kl < TN)%Z -> (forall klp, (ztMin <= klp < ztMax)%Z -> rD s X 0 0 (tk klp) (pk klp) <> 0) ->
  let im klp p := (pk klp + 2 * PI / IZR nfp * IZR p) in
  rg_gstore (reg_update s ztMin ztMax g bDotN st) kl =
  zsum ztMin ztMax (fun klp => bDotN (klp - ztMin)%Z * sz_wInt s (klp / nz) * (2 * PI / IZR nfp *
    (zsum 0 nfp (fun p => if ((p =? 0)%Z && (kl =? klp)%Z)%bool then 0 else charge F (tk kl) (pk kl) (tk klp) (im klp p))
     - (if (kl =? klp)%Z then 0 else near_charge F (IZR nfp) (tk klp) (pk klp) (hat (tk kl - tk klp)) (hat (IZR nfp * (pk kl - pk klp))))))).
Proof.
  intros Hn Hk HR. cbv zeta. pose proof znt_le as ZL. pose proof (so_nZeta s OK). pose proof (so_nT s OK). pose proof (so_nTR s OK). pose proof (so_nfp s OK).
  destruct (Z_le_gt_dec ztMax ztMin) as [Em|Em].
  { rewrite zsum_empty by lia. unfold reg_update. rewrite !for_up_empty by lia. destruct (nz =? 1)%Z; reflexivity. }
  destruct (update_3d s ztMin ztMax g bDotN ltac:(lia) ltac:(lia) ltac:(lia) st ztMin kl Hn ltac:(lia) Hk) as [_ E]. rewrite E. clear E.
  apply zsum_ext. intros klp Hp.
  unfold pair_store. rewrite (zsum_cons 0 nfp) by lia. cbn [Z.eqb andb]. rewrite Z.add_0_l.
  rewrite (zsum_ext 1 nfp (fun p => per_store s ztMin g bDotN klp p kl) (fun p => bex s ztMin bDotN klp * (2 * PI / IZR nfp) *
     (if ((p =? 0)%Z && (kl =? klp)%Z)%bool then 0 else charge F (tk kl) (pk kl) (tk klp) (pk klp + 2 * PI / IZR nfp * IZR p)))).
  2:{ intros p Hpp. destruct (Z.eqb_spec p 0); [lia|]. cbn [andb]. unfold per_store, twopidivnfp.
      unfold cos_per, sin_per. destruct (image klp kl (2 * PI / IZR nfp * IZR p) Hp Hk (rot_period p ltac:(lia)) (HR klp Hp)) as [-> _].
      rewrite sqrt_inv. unfold charge. ring. }
  rewrite zsum_scale. fold (bex s ztMin bDotN klp).
  destruct (Z.eqb_spec kl klp) as [->|Ne]; [ring|].
  unfold first_store, twopidivnfp. unfold A1. rewrite TU_hat, TV_hat by lia.
  destruct (near1 klp (hat (tk kl - tk klp)) (hat (IZR nfp * (pk kl - pk klp))) Hp) as [-> _].
  unfold cos_per, sin_per. destruct (image klp kl (2 * PI / IZR nfp * 0) Hp Hk (rot_period 0 ltac:(lia)) (HR klp Hp)) as [-> _].
  rewrite sqrt_inv. unfold near_charge, charge. unfold Rdiv. ring.
Qed.

(** Axisymmetric case. *)
Local Notation NV := kAxisymmetricToroidalImages.
Lemma tanv_hat p : (0 <= p < NV)%Z -> tanv_per p = hat (2 * PI / IZR NV * IZR p).
Proof.
  intros H. unfold tanv_per. replace (PI * IZR p / IZR NV) with (PI / IZR NV * IZR p) by (unfold kAxisymmetricToroidalImages; field).
  apply masked_hat; [unfold kAxisymmetricToroidalImages; lia|assumption|]. left. unfold kAxisymmetricToroidalImages. field.
Qed.
Lemma kernel_axi st klp kl : nz = 1%Z -> sz_ntor s = 0%Z -> (ztMin <= klp < ztMax)%Z -> (0 <= kl < TN)%Z -> rD s X 0 0 (tk klp) (pk klp) <> 0 ->
  let d p := (2 * PI / IZR NV * IZR p) in
  rg_greenp (reg_update s ztMin ztMax g bDotN st) ((klp - ztMin) * TN + kl)%Z =
  2 * PI / IZR NV *
    zsum 0 NV (fun p => if ((p =? 0)%Z && (kl =? klp)%Z)%bool then 0 else
      dipole (IZR sg) F (tk kl) (pk kl) (tk klp) (pk klp + d p)
      - near_dipole (IZR sg) F (IZR nfp) (tk klp) (pk klp) (hat (tk kl - tk klp)) (hat (d p))).
Proof.
  intros Hn Hnt Hp Hk HR. cbv zeta. pose proof znt_le as ZL. pose proof (so_nT s OK). pose proof (so_nTR s OK).
  assert (ET : TN = nT) by (unfold theta_by_nzeta; rewrite Hn; lia). rewrite ET in *.
  destruct (update_axi s ztMin ztMax g bDotN st klp kl Hn Hp Hk) as [E _].
  rewrite E. clear E. unfold axi_green. rewrite <- zsum_scale. apply zsum_ext. intros p Hpp.
  destruct ((p =? 0)%Z && (kl =? klp)%Z)%bool; [ring|].
  unfold mea. f_equal. destruct (image klp kl (2 * PI / IZR NV * IZR p) Hp ltac:(lia) (rot_axi _ Hnt) HR) as [_ ->].
  unfold B1, B2. rewrite tanv_hat by assumption.
  assert (TE : tanu s ((kl - klp + nT) mod nT) = hat (tk kl - tk klp)).
  { rewrite <- TU_hat by lia. unfold TU. rewrite Hn, !Z.div_1_r. reflexivity. }
  rewrite TE. destruct (near1 klp (hat (tk kl - tk klp)) (hat (2 * PI / IZR NV * IZR p)) Hp) as [-> ->].
  unfold near_dipole, Rdiv. ring.
Qed.
Lemma source_axi st kl : nz = 1%Z -> sz_ntor s = 0%Z -> (0 <= kl < TN)%Z -> (forall klp, (ztMin <= klp < ztMax)%Z -> rD s X 0 0 (tk klp) (pk klp) <> 0) ->
  let d p := (2 * PI / IZR NV * IZR p) in
  rg_gstore (reg_update s ztMin ztMax g bDotN st) kl =
  zsum ztMin ztMax (fun klp => bDotN (klp - ztMin)%Z * sz_wInt s (klp / nz) * (2 * PI / IZR NV *
    zsum 0 NV (fun p => if ((p =? 0)%Z && (kl =? klp)%Z)%bool then 0 else
      charge F (tk kl) (pk kl) (tk klp) (pk klp + d p)
      - near_charge F (IZR nfp) (tk klp) (pk klp) (hat (tk kl - tk klp)) (hat (d p))))).
Proof.
  intros Hn Hnt Hk HR. cbv zeta. pose proof znt_le as ZL. pose proof (so_nT s OK). pose proof (so_nTR s OK).
  assert (ET : TN = nT) by (unfold theta_by_nzeta; rewrite Hn; lia). rewrite ET in *.
  destruct (Z_le_gt_dec ztMax ztMin) as [Em|Em].
  { rewrite zsum_empty by lia. unfold reg_update. rewrite !for_up_empty by lia. destruct (nz =? 1)%Z; reflexivity. }
  destruct (update_axi s ztMin ztMax g bDotN st ztMin kl Hn ltac:(lia) Hk) as [_ E].
  rewrite E. clear E. apply zsum_ext. intros klp Hp. unfold axi_store. rewrite <- !zsum_scale. apply zsum_ext. intros p Hpp.
  destruct ((p =? 0)%Z && (kl =? klp)%Z)%bool; [ring|].
  unfold mea. destruct (image klp kl (2 * PI / IZR NV * IZR p) Hp ltac:(lia) (rot_axi _ Hnt) (HR klp Hp)) as [-> _].
  unfold B1. rewrite tanv_hat by assumption.
  assert (TE : tanu s ((kl - klp + nT) mod nT) = hat (tk kl - tk klp)).
  { rewrite <- TU_hat by lia. unfold TU. rewrite Hn, !Z.div_1_r. reflexivity. }
  rewrite TE. destruct (near1 klp (hat (tk kl - tk klp)) (hat (2 * PI / IZR NV * IZR p)) Hp) as [-> _].
  rewrite sqrt_inv, Hn, Z.div_1_r. unfold near_charge, charge, Rdiv. ring.
Qed.
End H.
