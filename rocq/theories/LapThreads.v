From Coq Require Import ZArith List Bool Reals Lia Lra Permutation.
From Verif Require Import Base BaseLemmas SumLemmas PartModel PartSpec PartProofs SizesModel FourierModel FourierSpec TrigSums DftSpec DftTables VacTables
  DftForces DftFold SingSumModel SingSumSpec SingSumProofs LapModel LapSpec LapProofs LapMain LapFinal.
Import ListNotations.
Open Scope R_scope.

Section T.
Variable s : sizes.
Hypothesis OK : sz_ok s.
Hypothesis MQ : (sz_mpol s + 1 <= sz_mnyq2 s)%Z.
Variable b0 : basis_tables.
Local Notation fb := (vtab s b0).
Local Notation nT := (sz_nThetaEven s).
Local Notation nTR := (sz_nThetaReduced s).
Local Notation nTE := (sz_nThetaEff s).
Local Notation nz := (sz_nZeta s).
Variables mf nf T : Z.
Hypothesis Hmf : (0 <= mf <= sz_mpol s + 1)%Z.
Hypothesis Hnf : (0 <= nf <= sz_ntor s)%Z.
Hypothesis HT : (1 <= T)%Z.
Local Notation M := (mnpd mf nf).
Local Notation lo t := (fst (tangential_range (sz_nZnT s) T t)).
Local Notation hi t := (snd (tangential_range (sz_nZnT s) T t)).
Variables greenp gstore ssin scos : Z -> Z -> R.
Variables grp0 gst0 : Z -> (Z -> R) * (Z -> R).
Definition part (t : Z) : lap_part :=
  thread_part s fb mf nf (lo t) (hi t) (greenp t) (gstore t) (ssin t) (scos t) (grp0 t) (gst0 t).

Variable K : Z -> Z -> R.
Variables Ss Sc : Z -> Z -> Z -> R.
Hypothesis HK : forall t klp kl, (0 <= t < T)%Z -> (lo t <= klp < hi t)%Z -> (0 <= kl < nT * nz)%Z ->
  greenp t ((klp - lo t) * (nT * nz) + kl)%Z = K kl klp.
Hypothesis HSs : forall t m n klp, (0 <= t < T)%Z -> (0 <= m <= mf)%Z -> (- nf <= n <= nf)%Z -> (lo t <= klp < hi t)%Z ->
  ssin t (mode_at mf nf m n * (hi t - lo t) + (klp - lo t))%Z = Ss m n klp.
Hypothesis HSc : sz_lasym s = true -> forall t m n klp, (0 <= t < T)%Z -> (0 <= m <= mf)%Z -> (- nf <= n <= nf)%Z -> (lo t <= klp < hi t)%Z ->
  scos t (mode_at mf nf m n * (hi t - lo t) + (klp - lo t))%Z = Sc m n klp.

Lemma nzt : (0 < sz_nZnT s)%Z.
Proof. pose proof (so_nZnT s OK). pose proof (so_nZeta s OK). pose proof (nTE_nTR s OK). pose proof (so_nTR s OK). nia. Qed.
Lemma rng t : (0 <= t < T)%Z -> (0 <= lo t <= hi t)%Z /\ (hi t <= sz_nZnT s)%Z.
Proof.
  intros Ht. pose proof nzt. rewrite tangential_range_blk by lia. cbn [fst snd].
  pose proof (blk_mono (sz_nZnT s) T 0 t ltac:(lia) ltac:(lia) ltac:(lia)). pose proof (blk_mono (sz_nZnT s) T t (t + 1) ltac:(lia) ltac:(lia) ltac:(lia)).
  pose proof (blk_mono (sz_nZnT s) T (t + 1) T ltac:(lia) ltac:(lia) ltac:(lia)). rewrite blk_0 in * by lia. rewrite blk_T in * by lia. lia.
Qed.
Lemma inr_true t klp : inr (lo t) (hi t) klp = true <-> (lo t <= klp < hi t)%Z.
Proof. unfold inr. rewrite Z.geb_leb. rewrite negb_true_iff, orb_false_iff, Z.ltb_ge, Z.leb_gt. lia. Qed.
(** Every source point belongs to one thread. *)
Lemma sum_threads N x : (0 <= N <= sz_nZnT s)%Z ->
  zsum 0 T (fun t => zsum 0 N (fun kl => if inr (lo t) (hi t) kl then x kl else 0)) = zsum 0 N x.
Proof.
  intros HN. rewrite zsum_swap. apply zsum_ext. intros kl Hkl.
  destruct (blk_find (sz_nZnT s) T kl ltac:(lia) ltac:(lia) ltac:(lia)) as (t & Ht & Hb).
  rewrite (zsum_single 0 T t); [|lia|].
  - destruct (inr (lo t) (hi t) kl) eqn:E; [reflexivity|]. exfalso. rewrite <- not_true_iff_false, inr_true in E. apply E.
    rewrite tangential_range_blk by lia. exact Hb.
  - intros u Hu Ne. destruct (inr (lo u) (hi u) kl) eqn:E; [|reflexivity]. exfalso. apply inr_true in E.
    rewrite tangential_range_blk in E by lia. cbn [fst snd] in E. destruct (Z_lt_ge_dec u t).
    + pose proof (blk_mono (sz_nZnT s) T (u + 1) t ltac:(lia) ltac:(lia) ltac:(lia)). lia.
    + pose proof (blk_mono (sz_nZnT s) T (t + 1) u ltac:(lia) ltac:(lia) ltac:(lia)). lia.
Qed.

Definition grps t := accumulate s mf nf (lo t) (hi t) (ssin t) (scos t) (transform_green s fb mf nf (lo t) (hi t) (greenp t) (grp0 t)).
Lemma field_ext trig f g m n : (forall kl, (0 <= kl < nT * nz)%Z -> f kl = g kl) -> field_mode trig nT nz f m n = field_mode trig nT nz g m n.
Proof. intros H. unfold field_mode. f_equal. apply zsum_ext. intros kl Hkl. rewrite H by lia. reflexivity. Qed.
Lemma grp_val t m n klp : (0 <= t < T)%Z -> (0 <= m <= mf)%Z -> (- nf <= n <= nf)%Z -> (lo t <= klp < hi t)%Z ->
  let i := (mode_at mf nf m n * (hi t - lo t) + (klp - lo t))%Z in
  fst (grps t) i = system_kernel sin nT nz (sz_nfp s) K Ss m n klp /\
  (sz_lasym s = true -> snd (grps t) i = system_kernel cos nT nz (sz_nfp s) K Sc m n klp).
Proof.
  intros Ht Hm Hn Hk. cbv zeta. destruct (rng t Ht) as [R1 R2]. unfold grps.
  assert (Hi : (0 <= mode_at mf nf m n * (hi t - lo t) + (klp - lo t) < M * (hi t - lo t))%Z).
  { pose proof (mode_at_range mf nf ltac:(lia) m n Hn Hm). nia. }
  destruct (accumulate_val s mf nf (lo t) (hi t) (ssin t) (scos t) (transform_green s fb mf nf (lo t) (hi t) (greenp t) (grp0 t)) _ Hi) as [E1 E2].
  pose proof (transform_val s OK MQ b0 mf nf (lo t) (hi t) Hmf Hnf (greenp t) (grp0 t) n m klp Hn Hm Hk) as V. cbv zeta in V. fold (mode_at mf nf m n) in V.
  destruct V as [V1 V2]. unfold system_kernel. split; [rewrite E1, V1|intros LA; rewrite (E2 LA), (V2 LA)]; f_equal.
  - apply field_ext. intros kl Hkl. apply HK; assumption.
  - rewrite HSs by assumption. reflexivity.
  - apply field_ext. intros kl Hkl. apply HK; assumption.
  - rewrite HSc by assumption. reflexivity.
Qed.
Lemma part_mat t : let '(ac, as_) := toroidal_matrix s fb mf nf (lo t) (hi t) (fst (grps t)) in
  let '(acc, asc) := toroidal_matrix s fb mf nf (lo t) (hi t) (snd (grps t)) in
  lp_ss (part t) = amat_sin_sin s fb mf nf ac as_ /\ lp_sc (part t) = amat_sin_cos s fb mf nf ac as_ /\
  lp_cs (part t) = amat_cos_sin s fb mf nf acc asc /\ lp_cc (part t) = amat_cos_cos s fb mf nf acc asc.
Proof.
  unfold part, thread_part. fold (grps t). destruct (grps t) as [gs gc]. cbn [fst snd].
  destruct (symmetrise s (gstore t) (gst0 t)) as [sy sa]. destruct (toroidal_source s fb nf sy) as [x1 x2]. destruct (toroidal_source s fb nf sa) as [x3 x4].
  destruct (toroidal_matrix s fb mf nf (lo t) (hi t) gs) as [y1 y2]. destruct (toroidal_matrix s fb mf nf (lo t) (hi t) gc) as [y3 y4]. cbn. auto.
Qed.

(** The source integrals of one thread in terms of the global kernel. *)
Lemma loc_flat t (b : R -> R) (w : Z -> R) N (G : Z -> R) grp mn m' n' :
  (0 <= N <= nTE)%Z ->
  (forall klp, (lo t <= klp < hi t)%Z -> grp (mn * (hi t - lo t) + (klp - lo t))%Z = G klp) ->
  zsum 0 N (fun l => w l * zsum 0 nz (fun k => hval (lo t) (hi t) grp mn (l * nz + k) * b (ph s m' n' l k))) =
  zsum 0 (N * nz) (fun kl => if inr (lo t) (hi t) kl then w (kl / nz)%Z * G kl * b (mode_phase nT nz m' n' kl) else 0).
Proof.
  intros HN HG. pose proof (so_nZeta s OK). rewrite zsum_flat by lia. apply zsum_ext. intros l Hl. rewrite <- zsum_scale. apply zsum_ext. intros k Hk.
  rewrite ph_flat by lia. rewrite Z.div_add_l, Z.div_small, Z.add_0_r by lia. unfold hval. destruct (inr (lo t) (hi t) (l * nz + k)) eqn:E; [|ring].
  rewrite HG by (apply inr_true; exact E). ring.
Qed.
Definition trg (h : bool) : R -> R := if h then cos else sin.
Definition Sg (h : bool) := if h then Sc else Ss.
Definition wrow (h : bool) : Z -> R := if h then (fun _ => / (IZR nT * IZR nz)) else wred s.
Definition Nrow (h : bool) : Z := if h then nT else nTR.
Lemma quad_thread t hr hc m n m' n' : (0 <= t < T)%Z -> okh s hr -> okh s hc ->
  (0 <= m <= mf)%Z -> (- nf <= n <= nf)%Z -> (0 <= m' <= mf)%Z -> (- nf <= n' <= nf)%Z ->
  quad (part t) hr hc (mode_at mf nf m' n' * M + mode_at mf nf m n)%Z =
  zsum 0 (Nrow hr * nz) (fun kl => if inr (lo t) (hi t) kl then
    wrow hr (kl / nz)%Z * system_kernel (trg hr) nT nz (sz_nfp s) K (Sg hr) m n kl * trg hc (mode_phase nT nz m' n' kl) else 0).
Proof.
  intros Ht K1 K2 Hm Hn Hm' Hn'. pose proof (part_mat t) as P.
  destruct (toroidal_matrix s fb mf nf (lo t) (hi t) (fst (grps t))) as [y1 y2] eqn:E1.
  destruct (toroidal_matrix s fb mf nf (lo t) (hi t) (snd (grps t))) as [y3 y4] eqn:E2. destruct P as (P1 & P2 & P3 & P4).
  pose proof (mode_at_range mf nf ltac:(lia) m n Hn Hm) as Hr. pose proof (nTE_nTR s OK) as NN. pose proof (so_nTR s OK). pose proof (so_nT s OK) as HNT.
  assert (G1 : forall klp, (lo t <= klp < hi t)%Z -> fst (grps t) (mode_at mf nf m n * (hi t - lo t) + (klp - lo t))%Z = system_kernel sin nT nz (sz_nfp s) K Ss m n klp) by (intros; apply grp_val; assumption).
  destruct hr.
  - specialize (K1 eq_refl).
    assert (G2 : forall klp, (lo t <= klp < hi t)%Z -> snd (grps t) (mode_at mf nf m n * (hi t - lo t) + (klp - lo t))%Z = system_kernel cos nT nz (sz_nfp s) K Sc m n klp)
      by (intros; apply grp_val; assumption).
    pose proof (so_nTE s OK) as HE. rewrite K1 in HE.
    pose proof (cc_val s OK MQ b0 mf nf (lo t) (hi t) Hmf Hnf (snd (grps t)) (mode_at mf nf m n) n' m' K1 Hr Hn' Hm') as V. rewrite E2 in V. cbv zeta in V. destruct V as [V1 V2].
    cbn [Nrow wrow trg Sg]. destruct hc; cbn [quad trg].
    + rewrite P4, V2. unfold Ec. rewrite <- zsum_scale. rewrite <- (loc_flat t cos (fun _ => / (IZR nT * IZR nz)) nT _ (snd (grps t)) (mode_at mf nf m n)); [reflexivity|lia|exact G2].
    + rewrite P3, V1. unfold Es. rewrite <- zsum_scale. rewrite <- (loc_flat t sin (fun _ => / (IZR nT * IZR nz)) nT _ (snd (grps t)) (mode_at mf nf m n)); [reflexivity|lia|exact G2].
  - pose proof (ss_val s OK MQ b0 mf nf (lo t) (hi t) Hmf Hnf (fst (grps t)) (mode_at mf nf m n) n' m' Hr Hn' Hm') as V. rewrite E1 in V. cbv zeta in V. destruct V as [V1 V2].
    cbn [Nrow wrow trg Sg]. destruct hc; cbn [quad trg].
    + rewrite P2, V2. unfold Ec. rewrite <- (loc_flat t cos (wred s) nTR _ (fst (grps t)) (mode_at mf nf m n)); [reflexivity|lia|exact G1].
    + rewrite P1, V1. unfold Es. rewrite <- (loc_flat t sin (wred s) nTR _ (fst (grps t)) (mode_at mf nf m n)); [reflexivity|lia|exact G1].
Qed.

Lemma matrix_entry order share hr hc m n m' n' : Permutation order (zrange 0 T) -> okh s hr -> okh s hc ->
  (0 <= m <= mf)%Z -> (- nf <= n <= nf)%Z -> (0 <= m' <= mf)%Z -> (- nf <= n' <= nf)%Z ->
  build_matrix s mf nf (map part order) share (ent s mf nf hr hc (mode_at mf nf m n) (mode_at mf nf m' n')) =
  (if redundant m n then 0 else
    galerkin (trg hr) (trg hc) nT nz (sz_nfp s) (wrow hr) (Nrow hr * nz) K (Sg hr) m n m' n') + diag hr hc m n m' n'.
Proof.
  intros HP K1 K2 Hm Hn Hm' Hn'. rewrite build_val by (assumption || lia). f_equal. destruct (redundant m n); [reflexivity|].
  rewrite rsum_map. rewrite (rsum_perm _ _ _ HP). change (rsum (zrange 0 T) ?f) with (zsum 0 T f).
  unfold galerkin. rewrite <- (sum_threads (Nrow hr * nz)).
  - apply zsum_ext. intros t Ht. apply quad_thread; assumption.
  - pose proof (so_nZnT s OK). pose proof (so_nZeta s OK). pose proof (nTE_nTR s OK). pose proof (so_nTR s OK). pose proof (so_nT s OK). pose proof (so_nTE s OK) as HE.
    destruct hr; cbn [Nrow]; [rewrite (K1 eq_refl) in HE|]; nia.
Qed.
(** The weights are the integration weights of the grid. *)
Lemma wred_wInt l : sz_lasym s = false -> (0 <= l < nTR)%Z -> wred s l = sz_wInt s l.
Proof.
  intros LA Hl. rewrite (so_wInt s OK). pose proof (so_nTE s OK) as HE. rewrite LA in HE. rewrite wint_at by lia. rewrite LA. unfold wred, half_end, norm_, intNorm, dnorm3. cbn [negb andb].
  destruct ((l =? 0) || (l =? nTR - 1))%Z%bool; reflexivity.
Qed.
Lemma wcos_wInt l : sz_lasym s = true -> (0 <= l < nT)%Z -> / (IZR nT * IZR nz) = sz_wInt s l.
Proof.
  intros LA Hl. rewrite (so_wInt s OK). pose proof (so_nTE s OK) as HE. rewrite LA in HE. rewrite wint_at by lia. rewrite LA. unfold dnorm3. cbn [negb andb].
  rewrite mult_IZR. pose proof (so_nZeta s OK). field. split; apply not_0_IZR; lia.
Qed.
Lemma galerkin_w trig trig' nfp w w' N K' S' m n m' n' : (0 <= N)%Z -> (forall l, (0 <= l < N)%Z -> w l = w' l) ->
  galerkin trig trig' nT nz nfp w (N * nz) K' S' m n m' n' = galerkin trig trig' nT nz nfp w' (N * nz) K' S' m n m' n'.
Proof.
  intros HN H. pose proof (so_nZeta s OK). unfold galerkin. apply zsum_ext. intros kl Hkl. rewrite H; [reflexivity|]. split; [apply Z.div_pos; lia|apply Z.div_lt_upper_bound; nia].
Qed.

(** Right-hand side. *)
Lemma part_rhs t m n : (0 <= m <= mf)%Z -> (- nf <= n <= nf)%Z ->
  lp_bs (part t) (mode_at mf nf m n) = field_mode sin nT nz (gstore t) m n /\
  (sz_lasym s = true -> lp_bc (part t) (mode_at mf nf m n) = field_mode cos nT nz (gstore t) m n).
Proof.
  intros Hm Hn. pose proof (src_sin s OK MQ b0 mf nf Hmf Hnf (gstore t) (gst0 t) n m Hn Hm) as V1.
  pose proof (fun LA => src_cos s OK MQ b0 mf nf Hmf Hnf (gstore t) (gst0 t) n m LA Hn Hm) as V2.
  unfold part, thread_part. fold (grps t). destruct (grps t) as [gs gc].
  destruct (symmetrise s (gstore t) (gst0 t)) as [sy sa]. cbn [fst snd] in V1, V2. destruct (toroidal_source s fb nf sy) as [x1 x2]. destruct (toroidal_source s fb nf sa) as [x3 x4].
  destruct (toroidal_matrix s fb mf nf (lo t) (hi t) gs) as [y1 y2]. destruct (toroidal_matrix s fb mf nf (lo t) (hi t) gc) as [y3 y4]. cbn. split; assumption.
Qed.
Variables bsin bcos : Z -> Z -> R.   (* singular sources of the threads *)
Lemma field_sum trig m n : zsum 0 T (fun t => field_mode trig nT nz (gstore t) m n) = field_mode trig nT nz (fun kl => zsum 0 T (fun t => gstore t kl)) m n.
Proof.
  unfold field_mode, Rdiv. rewrite zsum_scale_r. f_equal. rewrite zsum_swap. apply zsum_ext. intros kl _. rewrite zsum_scale_r. reflexivity.
Qed.
Lemma rhs_entry order share h m n : Permutation order (zrange 0 T) -> okh s h ->
  (0 <= m <= mf)%Z -> (- nf <= n <= nf)%Z ->
  build_rhs s mf nf (map (fun t => (part t, (bsin t, bcos t))) order) share (mode_at mf nf m n + off mf nf h)%Z =
  if redundant m n then 0 else
    field_mode (trg h) nT nz (fun kl => zsum 0 T (fun t => gstore t kl)) m n
    + zsum 0 T (fun t => (if h then bcos else bsin) t (mode_at mf nf m n)) / IZR (sz_nfp s).
Proof.
  intros HP Kh Hm Hn. rewrite rhs_val by (assumption || lia). destruct (redundant m n); [reflexivity|].
  rewrite rsum_map. rewrite (rsum_perm _ _ _ HP). change (rsum (zrange 0 T) ?f) with (zsum 0 T f).
  rewrite <- field_sum. unfold Rdiv. rewrite <- zsum_scale_r, <- zsum_plus. apply zsum_ext. intros t Ht. unfold bvec. cbn [fst snd].
  destruct (part_rhs t m n Hm Hn) as [E1 E2]. destruct h; cbn [trg]; [rewrite (E2 (Kh eq_refl))|rewrite E1]; unfold Rdiv; rewrite Rmult_1_l; reflexivity.
Qed.
End T.
