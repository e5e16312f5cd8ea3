From Coq Require Import ZArith List Bool Reals Lia Lra.
From Coquelicot Require Import Coquelicot.
From Verif Require Import Base BaseLemmas SumLemmas SizesModel FourierModel FourierSpec TrigSums DftSpec DftTables VacTables
  SingSumModel SurfModel SurfSpec SurfProofs SurfMirror SurfMain SurfFinal RegModel RegSpec RegProofs RegMain.
Import ListNotations.
Open Scope R_scope.

Lemma axi_ntor lasym nfp mpol ntor ntheta nzeta mg ng s :
  make_sizes lasym nfp mpol ntor ntheta nzeta mg ng = Some s -> sz_nZeta s = 1%Z -> sz_ntor s = 0%Z.
Proof.
  unfold make_sizes. destruct ((nfp <? 1) || (mpol <? 1) || (ntor <? 0))%Z%bool eqn:G; [discriminate|].
  intros E. apply some_inj in E. subst s. cbn [sz_nZeta sz_ntor].
  apply orb_false_elim in G as [_ G]. apply Z.ltb_ge in G.
  rewrite Z.gtb_ltb. destruct (Z.ltb_spec 0 ntor); [|lia].
  destruct (ntor =? 0)%Z eqn:E0; [lia|]. cbn [andb]. destruct (Z.ltb_spec nzeta (2 * ntor + 4)); lia.
Qed.

Section K.
Variables (lasym : bool) (nfp mpol ntor ntheta nzeta mg ng : Z) (s : sizes).
Hypothesis E : make_sizes lasym nfp mpol ntor ntheta nzeta mg ng = Some s.
Variables (b0 : basis_tables) (ztMin ztMax : Z).
Hypothesis H1 : (0 <= ztMin <= ztMax)%Z.
Hypothesis H2 : (ztMax <= sz_nZnT s)%Z.
Hypothesis HT : (sz_nThetaEven s < 2 ^ 31)%Z.
Hypothesis HZ : (sz_nZeta s < 2 ^ 31)%Z.
Variables (X : coef -> Z -> R) (sg : Z) (g : surf) (bDotN : Z -> R) (st : reg).
Let F := boundary lasym nfp mpol ntor X.
Let t kl := 2 * PI * IZR (kl / sz_nZeta s) / IZR (sz_nThetaEven s).
Let p kl := 2 * PI * IZR (kl mod sz_nZeta s) / (IZR nfp * IZR (sz_nZeta s)).
Let r := reg_update s ztMin ztMax (update s ztMin ztMax true (vtab s b0) X sg g) bDotN st.
Let TN := (sz_nThetaEven s * sz_nZeta s)%Z.

Lemma R_nonzero kl : rD s X 0 0 (tk s kl) (pk s kl) = dot (Fs s X (tk s kl) (pk s kl)) (e_R (pk s kl)).
Proof.
  destruct (curv_comp (rD s X) (zD s X) (r_t s X) (r_p s X) (z_t s X) (z_p s X) (tk s kl) (pk s kl)) as (_ & _ & _ & (W & _) & _).
  symmetry. exact W.
Qed.

Lemma kernel_3d_sizes klp kl : sz_nZeta s <> 1%Z -> (ztMin <= klp < ztMax)%Z -> (0 <= kl < TN)%Z ->
  dot (F (t klp) (p klp)) (e_R (p klp)) <> 0 ->
  rg_greenp r ((klp - ztMin) * TN + kl)%Z =
  2 * PI / IZR nfp *
    (zsum 0 nfp (fun q => if ((q =? 0)%Z && (kl =? klp)%Z)%bool then 0 else
       dipole (IZR sg) F (t kl) (p kl) (t klp) (p klp + 2 * PI / IZR nfp * IZR q))
     - (if (kl =? klp)%Z then 0 else
       near_dipole (IZR sg) F (IZR nfp) (t klp) (p klp) (hat (t kl - t klp)) (hat (IZR nfp * (p kl - p klp))))).
Proof.
  intros Hn Hp Hk HR. pose proof (make_sizes_ok _ _ _ _ _ _ _ _ _ E) as OK.
  destruct (make_sizes_mnyq2 _ _ _ _ _ _ _ _ _ E) as [MQ _]. destruct (make_sizes_nfp _ _ _ _ _ _ _ _ _ E) as (E1 & E2 & E3 & E4).
  clear E. subst lasym nfp mpol ntor.
  refine (kernel_3d s OK MQ b0 ztMin ztMax H1 H2 X g sg bDotN HT HZ st klp kl Hn Hp Hk _). rewrite R_nonzero. exact HR.
Qed.
Lemma source_3d_sizes kl : sz_nZeta s <> 1%Z -> (0 <= kl < TN)%Z ->
  (forall klp, (ztMin <= klp < ztMax)%Z -> dot (F (t klp) (p klp)) (e_R (p klp)) <> 0) ->
  rg_gstore r kl =
  zsum ztMin ztMax (fun klp => bDotN (klp - ztMin)%Z * sz_wInt s (klp / sz_nZeta s) * (2 * PI / IZR nfp *
    (zsum 0 nfp (fun q => if ((q =? 0)%Z && (kl =? klp)%Z)%bool then 0 else
       charge F (t kl) (p kl) (t klp) (p klp + 2 * PI / IZR nfp * IZR q))
     - (if (kl =? klp)%Z then 0 else
       near_charge F (IZR nfp) (t klp) (p klp) (hat (t kl - t klp)) (hat (IZR nfp * (p kl - p klp))))))).
Proof.
  intros Hn Hk HR. pose proof (make_sizes_ok _ _ _ _ _ _ _ _ _ E) as OK.
  destruct (make_sizes_mnyq2 _ _ _ _ _ _ _ _ _ E) as [MQ _]. destruct (make_sizes_nfp _ _ _ _ _ _ _ _ _ E) as (E1 & E2 & E3 & E4).
  clear E. subst lasym nfp mpol ntor.
  refine (source_3d s OK MQ b0 ztMin ztMax H1 H2 X g sg bDotN HT HZ st kl Hn Hk _). intros klp Hp. rewrite R_nonzero. exact (HR klp Hp).
Qed.
Lemma kernel_axi_sizes klp kl : sz_nZeta s = 1%Z -> (ztMin <= klp < ztMax)%Z -> (0 <= kl < TN)%Z ->
  dot (F (t klp) (p klp)) (e_R (p klp)) <> 0 ->
  rg_greenp r ((klp - ztMin) * TN + kl)%Z =
  2 * PI / 64 *
    zsum 0 64 (fun q => if ((q =? 0)%Z && (kl =? klp)%Z)%bool then 0 else
      dipole (IZR sg) F (t kl) (p kl) (t klp) (p klp + 2 * PI / 64 * IZR q)
      - near_dipole (IZR sg) F (IZR nfp) (t klp) (p klp) (hat (t kl - t klp)) (hat (2 * PI / 64 * IZR q))).
Proof.
  intros Hn Hp Hk HR. pose proof (make_sizes_ok _ _ _ _ _ _ _ _ _ E) as OK. pose proof (axi_ntor _ _ _ _ _ _ _ _ _ E Hn) as Hnt.
  destruct (make_sizes_mnyq2 _ _ _ _ _ _ _ _ _ E) as [MQ _]. destruct (make_sizes_nfp _ _ _ _ _ _ _ _ _ E) as (E1 & E2 & E3 & E4).
  clear E. subst lasym nfp mpol ntor.
  refine (kernel_axi s OK MQ b0 ztMin ztMax H1 H2 X g sg bDotN HT st klp kl Hn Hnt Hp Hk _). rewrite R_nonzero. exact HR.
Qed.
Lemma source_axi_sizes kl : sz_nZeta s = 1%Z -> (0 <= kl < TN)%Z ->
  (forall klp, (ztMin <= klp < ztMax)%Z -> dot (F (t klp) (p klp)) (e_R (p klp)) <> 0) ->
  rg_gstore r kl =
  zsum ztMin ztMax (fun klp => bDotN (klp - ztMin)%Z * sz_wInt s (klp / sz_nZeta s) * (2 * PI / 64 *
    zsum 0 64 (fun q => if ((q =? 0)%Z && (kl =? klp)%Z)%bool then 0 else
      charge F (t kl) (p kl) (t klp) (p klp + 2 * PI / 64 * IZR q)
      - near_charge F (IZR nfp) (t klp) (p klp) (hat (t kl - t klp)) (hat (2 * PI / 64 * IZR q))))).
Proof.
  intros Hn Hk HR. pose proof (make_sizes_ok _ _ _ _ _ _ _ _ _ E) as OK. pose proof (axi_ntor _ _ _ _ _ _ _ _ _ E Hn) as Hnt.
  destruct (make_sizes_mnyq2 _ _ _ _ _ _ _ _ _ E) as [MQ _]. destruct (make_sizes_nfp _ _ _ _ _ _ _ _ _ E) as (E1 & E2 & E3 & E4).
  clear E. subst lasym nfp mpol ntor.
  refine (source_axi s OK MQ b0 ztMin ztMax H1 H2 X g sg bDotN HT st kl Hn Hnt Hk _). intros klp Hp. rewrite R_nonzero. exact (HR klp Hp).
Qed.
End K.

(** The circular torus of SurfFinal. *)
Lemma torus_boundary lasym nfp t p :
  boundary lasym nfp 2 0 torus t p = mkVec ((3 + sqrt 2 * cos t) * cos p) ((3 + sqrt 2 * cos t) * sin p) (sqrt 2 * sin t).
Proof.
  unfold boundary, surface, series. unfold zsum. change (zrange 0 (0 + 1)) with [0%Z]. change (zrange 0 2) with [0%Z; 1%Z].
  cbn [rsum]. unfold torus. cbn [Z.mul Z.add Z.eqb Pos.eqb]. unfold s2. cbn [Z.eqb].
  rewrite !Rmult_0_l, cos_0, sin_0. destruct lasym; cbn [Z.eqb Pos.eqb]; f_equal.
all: rewrite ?(Rmult_1_l t); ring.
Qed.
Lemma torus_R lasym nfp t p : dot (boundary lasym nfp 2 0 torus t p) (e_R p) <> 0.
Proof.
  rewrite torus_boundary. unfold dot, e_R. cbn [vx vy vz]. pose proof (cs1 p) as H.
  replace ((3 + sqrt 2 * cos t) * cos p * cos p + (3 + sqrt 2 * cos t) * sin p * sin p + sqrt 2 * sin t * 0) with
    ((3 + sqrt 2 * cos t) * (cos p * cos p + sin p * sin p)) by ring. rewrite H.
  assert (0 <= sqrt 2) by apply sqrt_pos. assert (sqrt 2 < 2). { apply sqrt_lt_0_alt' || (rewrite <- (sqrt_square 2) at 2 by lra; apply sqrt_lt_1; lra). }
  pose proof (COS_bound t). nra.
Qed.
