From Coq Require Import ZArith List Bool Reals Lia Lra Permutation.
From Verif Require Import Base BaseLemmas SumLemmas PartModel PartSpec PartProofs SizesModel FourierModel FourierSpec TrigSums DftSpec DftTables VacTables
  DftForces DftFold SingSumModel SingSumSpec SingSumProofs SingSumFinal SurfFinal LapModel LapSpec LapProofs LapMain LapFinal LapThreads.
Import ListNotations.
Open Scope R_scope.

Section E.
Variables (lasym : bool) (nfp mpol ntor ntheta nzeta mg ng : Z) (s : sizes).
Hypothesis MK : make_sizes lasym nfp mpol ntor ntheta nzeta mg ng = Some s.
Variable b0 : basis_tables.
Variables mf nf T : Z.
Hypothesis Hmf : (0 <= mf <= mpol + 1)%Z.
Hypothesis Hnf : (0 <= nf <= ntor)%Z.
Hypothesis HT : (1 <= T)%Z.
Local Notation nT := (sz_nThetaEven s).
Local Notation nTR := (sz_nThetaReduced s).
Local Notation nz := (sz_nZeta s).
Local Notation dim := ((mf + 1) * (2 * nf + 1))%Z.
Local Notation lo := (fun t => fst (tangential_range (sz_nZnT s) T t)).
Local Notation hi := (fun t => snd (tangential_range (sz_nZnT s) T t)).
Variables greenp gstore ssin scos : Z -> Z -> R.
Variables grp0 gst0 : Z -> (Z -> R) * (Z -> R).
Local Notation prt := (fun t => thread_part s (vtab s b0) mf nf (fst (tangential_range (sz_nZnT s) T t)) (snd (tangential_range (sz_nZnT s) T t))
  (greenp t) (gstore t) (ssin t) (scos t) (grp0 t) (gst0 t)).
Variable K : Z -> Z -> R.
Variables Ss Sc : Z -> Z -> Z -> R.

Lemma flds : sz_ok s /\ (sz_mpol s + 1 <= sz_mnyq2 s)%Z /\ sz_lasym s = lasym /\ sz_nfp s = nfp /\ sz_mpol s = mpol /\ sz_ntor s = ntor.
Proof.
  pose proof (make_sizes_ok _ _ _ _ _ _ _ _ _ MK). pose proof (make_sizes_mnyq2 _ _ _ _ _ _ _ _ _ MK) as [Q _].
  destruct (make_sizes_nfp _ _ _ _ _ _ _ _ _ MK) as (E1 & E2 & E3 & E4). auto 8.
Qed.

Lemma symmetric_matrix order share m n m' n' : lasym = false ->
  holds_kernel lo hi T (nT * nz) greenp K -> holds_modes lo hi T mf nf ssin Ss ->
  Permutation order (zrange 0 T) -> (0 <= m <= mf)%Z -> (- nf <= n <= nf)%Z -> (0 <= m' <= mf)%Z -> (- nf <= n' <= nf)%Z ->
  build_matrix s mf nf (map prt order) share (mode_at mf nf m n + mode_at mf nf m' n' * dim)%Z =
  (if redundant m n then 0 else galerkin sin sin nT nz nfp (sz_wInt s) (sz_nZnT s) K Ss m n m' n')
  + (if ((m =? m') && (n =? n'))%Z%bool then 1 / 2 else 0).
Proof.
  intros LA HK HS HP Hm Hn Hm' Hn'. destruct flds as (OK & MQ & E1 & E2 & E3 & E4). rewrite LA in E1.
  pose proof (matrix_entry s OK MQ b0 mf nf T ltac:(lia) ltac:(lia) HT greenp gstore ssin scos grp0 gst0 K Ss Sc HK HS
    ltac:(congruence) order share false false m n m' n' HP (okf s) (okf s) Hm Hn Hm' Hn') as V.
  cbn [Nrow trg Sg wrow] in V. rewrite E2 in V.
  assert (EE : ent s mf nf false false (mode_at mf nf m n) (mode_at mf nf m' n') = (mode_at mf nf m n + mode_at mf nf m' n' * dim)%Z).
  { unfold ent, off, mnpd_dim. rewrite E1, !Z.add_0_r. reflexivity. }
  rewrite EE in V. unfold part in V. rewrite V. unfold diag. cbn [eqb andb].
  pose proof (so_nZnT s OK) as HN. pose proof (so_nTE s OK) as HE. rewrite E1 in HE. pose proof (so_nTR s OK).
  f_equal. destruct (redundant m n); [reflexivity|].
  rewrite (galerkin_w s OK sin sin nfp (wred s) (sz_wInt s)); [|lia|intros l Hl; apply wred_wInt; assumption].
  rewrite HN, HE, Z.mul_comm. reflexivity.
Qed.

Lemma source_vector order share bsin bcos m n :
  Permutation order (zrange 0 T) -> (0 <= m <= mf)%Z -> (- nf <= n <= nf)%Z ->
  let rhs := build_rhs s mf nf (map (fun t => (prt t, (bsin t, bcos t))) order) share in
  let gtot kl := zsum 0 T (fun t => gstore t kl) in
  rhs (mode_at mf nf m n) = (if redundant m n then 0 else
    field_mode sin nT nz gtot m n + zsum 0 T (fun t => bsin t (mode_at mf nf m n)) / IZR nfp) /\
  (lasym = true -> rhs (dim + mode_at mf nf m n)%Z = (if redundant m n then 0 else
    field_mode cos nT nz gtot m n + zsum 0 T (fun t => bcos t (mode_at mf nf m n)) / IZR nfp)).
Proof.
  intros HP Hm Hn. cbv zeta. destruct flds as (OK & MQ & E1 & E2 & E3 & E4).
  split; [|intros LA].
  - pose proof (rhs_entry s OK MQ b0 mf nf T ltac:(lia) ltac:(lia) greenp gstore ssin scos grp0 gst0 bsin bcos order share false m n HP (okf s) Hm Hn) as V.
    cbn [off trg] in V. rewrite Z.add_0_r, E2 in V. exact V.
  - assert (KT : okh s true) by (intros _; congruence).
    pose proof (rhs_entry s OK MQ b0 mf nf T ltac:(lia) ltac:(lia) greenp gstore ssin scos grp0 gst0 bsin bcos order share true m n HP KT Hm Hn) as V.
    cbn [off trg] in V. rewrite E2 in V. rewrite Z.add_comm. exact V.
Qed.

Lemma modes_sum (f : Z -> R) : zsum 0 dim f = zsum (- nf) (nf + 1) (fun n' => zsum 0 (mf + 1) (fun m' => f (mode_at mf nf m' n'))).
Proof.
  rewrite Z.mul_comm. rewrite zsum_flat by lia.
  replace (zsum 0 (2 * nf + 1) (fun l => zsum 0 (mf + 1) (fun k => f (l * (mf + 1) + k)%Z)))
    with (zsum (- nf + nf) (nf + 1 + nf) (fun l => zsum 0 (mf + 1) (fun k => f (l * (mf + 1) + k)%Z))) by (f_equal; lia).
  rewrite zsum_shift. apply zsum_ext. intros n' _. apply zsum_ext. intros m' _. unfold mode_at. rewrite (Z.add_comm n' nf). reflexivity.
Qed.
Lemma symmetric_solution order order' share share' bsin bcos x : lasym = false ->
  holds_kernel lo hi T (nT * nz) greenp K -> holds_modes lo hi T mf nf ssin Ss ->
  Permutation order (zrange 0 T) -> Permutation order' (zrange 0 T) ->
  let A := build_matrix s mf nf (map prt order) share in
  let b := build_rhs s mf nf (map (fun t => (prt t, (bsin t, bcos t))) order') share' in
  (forall r, (0 <= r < dim)%Z -> zsum 0 dim (fun c => A (r + c * dim)%Z * x c) = b r) ->
  solves mf nf (galerkin sin sin nT nz nfp (sz_wInt s) (sz_nZnT s) K Ss)
    (fun m n => field_mode sin nT nz (fun kl => zsum 0 T (fun t => gstore t kl)) m n + zsum 0 T (fun t => bsin t (mode_at mf nf m n)) / IZR nfp)
    (fun m n => x (mode_at mf nf m n)).
Proof.
  intros LA HK HS HP HP' A b HX m n Hm Hn.
  pose proof (mode_at_range mf nf ltac:(lia) m n Hn Hm) as Hr.
  specialize (HX (mode_at mf nf m n) Hr). rewrite modes_sum in HX.
  destruct (source_vector order' share' bsin bcos m n HP' Hm Hn) as [VB _]. cbv zeta in VB. fold b in VB. rewrite VB in HX. clear VB.
  assert (EA : zsum (- nf) (nf + 1) (fun n' => zsum 0 (mf + 1) (fun m' => A (mode_at mf nf m n + mode_at mf nf m' n' * dim)%Z * x (mode_at mf nf m' n'))) =
    (if redundant m n then 0 else zsum (- nf) (nf + 1) (fun n' => zsum 0 (mf + 1) (fun m' => galerkin sin sin nT nz nfp (sz_wInt s) (sz_nZnT s) K Ss m n m' n' * x (mode_at mf nf m' n')))) + x (mode_at mf nf m n) / 2).
  { transitivity (zsum (- nf) (nf + 1) (fun n' => zsum 0 (mf + 1) (fun m' => (if redundant m n then 0 else galerkin sin sin nT nz nfp (sz_wInt s) (sz_nZnT s) K Ss m n m' n' * x (mode_at mf nf m' n'))) +
       zsum 0 (mf + 1) (fun m' => if ((m =? m') && (n =? n'))%Z%bool then x (mode_at mf nf m' n') / 2 else 0))).
    - apply zsum_ext. intros n' Hn'. rewrite <- zsum_plus. apply zsum_ext. intros m' Hm'. unfold A. rewrite symmetric_matrix by (assumption || lia).
      destruct (redundant m n); destruct ((m =? m') && (n =? n'))%Z%bool; field.
    - rewrite zsum_plus. f_equal.
      + destruct (redundant m n); [|reflexivity]. apply zsum_zero. intros. apply zsum_zero. reflexivity.
      + rewrite (zsum_single (- nf) (nf + 1) n); [|lia|].
        * rewrite (zsum_single 0 (mf + 1) m); [|lia|].
          -- rewrite !Z.eqb_refl. reflexivity.
          -- intros m' _ Ne. destruct (Z.eqb_spec m m'); [congruence|reflexivity].
        * intros n' _ Ne. apply zsum_zero. intros m' _. destruct (Z.eqb_spec n n'); [congruence|]. rewrite andb_false_r. reflexivity. }
  rewrite EA in HX. destruct (redundant m n); lra.
Qed.

(** Asymmetric runs. *)
Lemma cosine_rows order share hc m n m' n' : lasym = true ->
  holds_kernel lo hi T (nT * nz) greenp K -> holds_modes lo hi T mf nf ssin Ss -> holds_modes lo hi T mf nf scos Sc ->
  Permutation order (zrange 0 T) -> (0 <= m <= mf)%Z -> (- nf <= n <= nf)%Z -> (0 <= m' <= mf)%Z -> (- nf <= n' <= nf)%Z ->
  build_matrix s mf nf (map prt order) share ((mode_at mf nf m n + dim) + (mode_at mf nf m' n' + (if hc : bool then dim else 0)) * (2 * dim))%Z =
  (if redundant m n then 0 else galerkin cos (if hc then cos else sin) nT nz nfp (sz_wInt s) (sz_nZnT s) K Sc m n m' n')
  + (if (hc && (m =? m') && (n =? n'))%Z%bool then (if ((m =? 0) && (n =? 0))%Z%bool then 1 else 1 / 2) else 0).
Proof.
  intros LA HK HS HC HP Hm Hn Hm' Hn'. destruct flds as (OK & MQ & E1 & E2 & E3 & E4). rewrite LA in E1.
  assert (KT : okh s true) by (intros _; assumption). assert (KH : okh s hc) by (intros _; assumption).
  pose proof (matrix_entry s OK MQ b0 mf nf T ltac:(lia) ltac:(lia) HT greenp gstore ssin scos grp0 gst0 K Ss Sc HK HS
    (fun _ => HC) order share true hc m n m' n' HP KT KH Hm Hn Hm' Hn') as V.
  cbn [Nrow trg Sg wrow] in V. rewrite E2 in V.
  assert (EE : ent s mf nf true hc (mode_at mf nf m n) (mode_at mf nf m' n') = ((mode_at mf nf m n + dim) + (mode_at mf nf m' n' + (if hc then dim else 0)) * (2 * dim))%Z).
  { unfold ent, off, mnpd_dim. rewrite E1. reflexivity. }
  rewrite EE in V. unfold part in V. rewrite V. unfold diag.
  pose proof (so_nZnT s OK) as HN. pose proof (so_nTE s OK) as HE. rewrite E1 in HE. pose proof (so_nTR s OK). pose proof (so_nT s OK).
  rewrite (galerkin_w s OK cos (trg hc) nfp (fun _ => / (IZR nT * IZR nz)) (sz_wInt s)); [|lia|intros l Hl; apply wcos_wInt; assumption].
  rewrite HN, HE, (Z.mul_comm nz). destruct hc; reflexivity.
Qed.
Lemma sine_rows order share hc m n m' n' : lasym = true ->
  holds_kernel lo hi T (nT * nz) greenp K -> holds_modes lo hi T mf nf ssin Ss -> holds_modes lo hi T mf nf scos Sc ->
  Permutation order (zrange 0 T) -> (0 <= m <= mf)%Z -> (- nf <= n <= nf)%Z -> (0 <= m' <= mf)%Z -> (- nf <= n' <= nf)%Z ->
  build_matrix s mf nf (map prt order) share (mode_at mf nf m n + (mode_at mf nf m' n' + (if hc : bool then dim else 0)) * (2 * dim))%Z =
  (if redundant m n then 0 else galerkin sin (if hc then cos else sin) nT nz nfp (wred s) (nTR * nz) K Ss m n m' n')
  + (if (negb hc && (m =? m') && (n =? n'))%Z%bool then 1 / 2 else 0).
Proof.
  intros LA HK HS HC HP Hm Hn Hm' Hn'. destruct flds as (OK & MQ & E1 & E2 & E3 & E4). rewrite LA in E1.
  assert (KT : okh s true) by (intros _; assumption). assert (KH : okh s hc) by (intros _; assumption).
  pose proof (matrix_entry s OK MQ b0 mf nf T ltac:(lia) ltac:(lia) HT greenp gstore ssin scos grp0 gst0 K Ss Sc HK HS
    (fun _ => HC) order share false hc m n m' n' HP (okf s) KH Hm Hn Hm' Hn') as V.
  cbn [Nrow trg Sg wrow] in V. rewrite E2 in V.
  assert (EE : ent s mf nf false hc (mode_at mf nf m n) (mode_at mf nf m' n') = (mode_at mf nf m n + (mode_at mf nf m' n' + (if hc then dim else 0)) * (2 * dim))%Z).
  { unfold ent, off, mnpd_dim. rewrite E1, Z.add_0_r. reflexivity. }
  rewrite EE in V. unfold part in V. rewrite V. unfold diag. destruct hc; reflexivity.
Qed.

(** Under stellarator symmetry the half range suffices for sine-sine. *)
Lemma half_symmetric m n m' n' : lasym = true ->
  (forall kl klp, (0 <= kl < nT * nz)%Z -> (0 <= klp < nT * nz)%Z -> K (partner nT nz kl) (partner nT nz klp) = K kl klp) ->
  (forall klp, (0 <= klp < nT * nz)%Z -> Ss m n (partner nT nz klp) = - Ss m n klp) ->
  galerkin sin sin nT nz nfp (wred s) (nTR * nz) K Ss m n m' n' = galerkin sin sin nT nz nfp (sz_wInt s) (sz_nZnT s) K Ss m n m' n'.
Proof.
  intros LA HK HS. destruct flds as (OK & MQ & E1 & E2 & E3 & E4). rewrite LA in E1.
  pose proof (so_nZnT s OK) as HN. pose proof (so_nTE s OK) as HE. rewrite E1 in HE. pose proof (so_nTR s OK). pose proof (so_nT s OK) as HNT. pose proof (so_nZeta s OK).
  assert (NT : IZR nT <> 0) by (apply not_0_IZR; lia). assert (NZ : IZR nz <> 0) by (apply not_0_IZR; lia).
  set (G := system_kernel sin nT nz nfp K Ss m n).
  assert (PF : forall l k, (0 <= k < nz)%Z -> partner nT nz (l * nz + k) = kl_rev s l k).
  { intros l k Hk. unfold partner, kl_rev. rewrite Z.div_add_l, Z.div_small, Z.add_0_r by lia.
    rewrite (Z.add_comm (l * nz) k), Z.mod_add, (Z.mod_small k) by lia. reflexivity. }
  assert (FR : forall f, field_mode sin nT nz (fun kl => f (partner nT nz kl)) m n = - field_mode sin nT nz f m n).
  { intros f. rewrite <- !(half_sin s OK). replace (- zsum 0 nTR (fun l => wred s l * zsum 0 nz (fun k => (f (l * nz + k)%Z - f (kl_rev s l k)) * (1 / 2) * sin (ph s m n l k))))
      with (-1 * zsum 0 nTR (fun l => wred s l * zsum 0 nz (fun k => (f (l * nz + k)%Z - f (kl_rev s l k)) * (1 / 2) * sin (ph s m n l k)))) by ring.
    rewrite <- zsum_scale. apply zsum_ext. intros l Hl. rewrite <- !zsum_scale. apply zsum_ext. intros k Hk.
    assert (Hl' : (0 <= (nT - l) mod nT < nT)%Z) by (apply Z.mod_pos_bound; lia). assert (Hk' : (0 <= (nz - k) mod nz < nz)%Z) by (apply Z.mod_pos_bound; lia).
    rewrite (PF l k) by lia. unfold kl_rev at 2. rewrite (PF ((nT - l) mod nT)%Z ((nz - k) mod nz)%Z) by lia. unfold kl_rev at 2. rewrite !rr by lia. ring. }
  assert (GR : forall l k, (0 <= l < nT)%Z -> (0 <= k < nz)%Z -> G (kl_rev s l k) = - G (l * nz + k)%Z).
  { intros l k Hl Hk. rewrite <- PF by lia. unfold G, system_kernel. rewrite HS by nia.
    replace (field_mode sin nT nz (fun kl => K kl (partner nT nz (l * nz + k))) m n) with (- field_mode sin nT nz (fun kl => K kl (l * nz + k)%Z) m n).
    - unfold Rdiv. ring.
    - rewrite <- FR. apply (field_ext s). intros kl Hkl.
      assert (Hd : (0 <= kl / nz < nT)%Z) by (split; [apply Z.div_pos; lia|apply Z.div_lt_upper_bound; nia]). assert (Hm : (0 <= kl mod nz < nz)%Z) by (apply Z.mod_pos_bound; lia).
      assert (Hl' : (0 <= (nT - kl / nz) mod nT < nT)%Z) by (apply Z.mod_pos_bound; lia). assert (Hk' : (0 <= (nz - kl mod nz) mod nz < nz)%Z) by (apply Z.mod_pos_bound; lia).
      assert (PP : partner nT nz (partner nT nz kl) = kl).
      { unfold partner at 2. rewrite PF by lia. unfold kl_rev. rewrite !rr by lia. rewrite (Z.div_mod kl nz) at 3 by lia. ring. }
      assert (PR : (0 <= partner nT nz kl < nT * nz)%Z) by (unfold partner; nia).
      rewrite <- (HK (partner nT nz kl) (l * nz + k)%Z) by (assumption || nia). rewrite PP. reflexivity. }
  unfold galerkin. fold G. rewrite HN, HE, (Z.mul_comm nz). rewrite (zsum_flat nTR), (zsum_flat nT) by lia.
  transitivity (field_mode sin nT nz G m' n').
  - rewrite <- (half_sin s OK). apply zsum_ext. intros l Hl. rewrite <- zsum_scale. apply zsum_ext. intros k Hk.
    rewrite GR by lia. rewrite ph_flat by lia. rewrite Z.div_add_l, Z.div_small, Z.add_0_r by lia. change (system_kernel sin nT nz nfp K Ss m n (l * nz + k)%Z) with (G (l * nz + k)%Z). field.
  - unfold field_mode, Rdiv. rewrite zsum_flat by lia. rewrite <- zsum_scale_r. apply zsum_ext. intros l Hl. rewrite <- zsum_scale_r. apply zsum_ext. intros k Hk.
    rewrite Z.div_add_l, Z.div_small, Z.add_0_r by lia. rewrite <- (wcos_wInt s OK l) by (assumption || lia).
    change (system_kernel sin nT nz nfp K Ss m n (l * nz + k)%Z) with (G (l * nz + k)%Z). ring.
Qed.
End E.
