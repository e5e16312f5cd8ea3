From Coq Require Import ZArith List Bool Reals Lia Lra.
From Verif Require Import Base BaseLemmas SumLemmas SizesModel FourierModel FourierSpec TrigSums DftSpec DftTables VacTables
  PartModel PartProofs SingSumModel SingSumSpec SingSumProofs SingSumMain.
Import ListNotations.
Open Scope R_scope.

Lemma s2_nz m : s2 m <> 0.
Proof. unfold s2. destruct (m =? 0)%Z; [lra|]. apply Rgt_not_eq. apply sqrt_lt_R0. lra. Qed.

Section Trig.
Variable s : sizes.
Hypothesis OK : sz_ok s.
Hypothesis MQ : (sz_mpol s + 1 <= sz_mnyq2 s)%Z.
Variable b0 : basis_tables.
Local Notation nT := (sz_nThetaEven s).
Local Notation nTR := (sz_nThetaReduced s).
Local Notation nz := (sz_nZeta s).

Lemma eff_range l : (0 <= l < sz_nThetaEff s)%Z -> (l < nTR)%Z \/ (nTR <= l < nT)%Z.
Proof. pose proof (so_nTE s OK). destruct (sz_lasym s); lia. Qed.

Lemma full_sin m l : (0 <= m <= sz_mnyq2 s)%Z -> (0 <= l < sz_nThetaEff s)%Z ->
  sgnmu nTR l * bt_sinmu (vtab s b0) (i_lm nTR nT (sz_mnyq2 s) l m) = sin (IZR m * ang nT l) * s2 m /\
  bt_cosmu (vtab s b0) (i_lm nTR nT (sz_mnyq2 s) l m) = cos (IZR m * ang nT l) * s2 m.
Proof.
  intros Hm Hl. pose proof (so_nT s OK). pose proof (so_nTR s OK). unfold sgnmu, i_lm, refl.
  destruct (eff_range l Hl) as [A|A].
  - rewrite (proj2 (Z.ltb_lt l nTR)) by lia. rewrite v_sinmu, v_cosmu by lia. split; ring.
  - rewrite (proj2 (Z.ltb_ge l nTR)) by lia. rewrite v_sinmu, v_cosmu by lia.
    assert (E : IZR m * ang nT (nT - l) = - (IZR m * ang nT l) + 2 * INR (Z.to_nat m) * PI).
    { unfold ang. rewrite minus_IZR. rewrite INR_IZR_INZ, Z2Nat.id by lia. field. apply not_0_IZR. lia. }
    rewrite E, sin_period, cos_period, sin_neg, cos_neg. split; ring.
Qed.

Lemma harmonics mf nf cmns fl n m kl :
  (0 <= mf <= sz_mpol s + 1)%Z -> (0 <= nf <= sz_ntor s)%Z -> (0 <= n <= nf)%Z -> (0 <= m <= mf)%Z ->
  (0 <= kl < sz_nZnT s)%Z ->
  let C := cmns ((fl * (nf + 1) + n) * (mf + 1) + m)%Z in
  SP mf nf nz nTR nT (sz_mnyq2 s) (vtab s b0) cmns fl n m kl = C * sin (mode_phase nT nz m n kl) /\
  SM mf nf nz nTR nT (sz_mnyq2 s) (vtab s b0) cmns fl n m kl = C * sin (mode_phase nT nz m (- n) kl) /\
  CP mf nf nz nTR nT (sz_mnyq2 s) (vtab s b0) cmns fl n m kl = C * cos (mode_phase nT nz m n kl) /\
  CM mf nf nz nTR nT (sz_mnyq2 s) (vtab s b0) cmns fl n m kl = C * cos (mode_phase nT nz m (- n) kl).
Proof.
  intros A B Hn Hm Hk. cbv zeta. pose proof (so_nZeta s OK). pose proof (so_nZnT s OK). pose proof (so_nnyq s OK).
  assert (Hl : (0 <= kl / nz < sz_nThetaEff s)%Z).
  { split; [apply Z.div_pos; lia|]. apply Z.div_lt_upper_bound; lia. }
  assert (Hkk : (0 <= kl mod nz < nz)%Z) by (apply Z.mod_pos_bound; lia).
  destruct (full_sin m (kl / nz) ltac:(lia) Hl) as [F1 F2].
  unfold SP, SM, CP, CM, snm, csm, cnv, snv, cf, cfac, i_nk. rewrite F1, F2.
  rewrite v_cosnv, v_sinnv by lia.
  change (mscale m) with (s2 m). change (nscale n) with (s2 n).
  pose proof (s2_nz m). pose proof (s2_nz n).
  unfold mode_phase. fold (ang nT (kl / nz)). fold (ang nz (kl mod nz)).
  rewrite opp_IZR.
  replace (IZR m * ang nT (kl / nz) - - IZR n * ang nz (kl mod nz)) with (IZR m * ang nT (kl / nz) + IZR n * ang nz (kl mod nz)) by ring.
  rewrite sin_minus, sin_plus, cos_minus, cos_plus.
  split; [|split; [|split]]; field; auto.
Qed.
End Trig.

Lemma by_sign_scale m n x y c : by_sign m n (x * c) (y * c) = by_sign m n x y * c.
Proof. unfold by_sign. destruct ((m =? 0) || (n =? 0))%Z%bool; destruct (n <? 0)%Z; destruct (0 <? n)%Z; ring. Qed.

Section Final.
Variable s : sizes.
Hypothesis OK : sz_ok s.
Hypothesis MQ : (sz_mpol s + 1 <= sz_mnyq2 s)%Z.
Variable b0 : basis_tables.
Local Notation nT := (sz_nThetaEven s).
Local Notation nTR := (sz_nThetaReduced s).
Local Notation nz := (sz_nZeta s).
Variables mf nf ztMin ztMax : Z.
Hypothesis Hmf : (0 <= mf <= sz_mpol s + 1)%Z.
Hypothesis Hnf : (0 <= nf <= sz_ntor s)%Z.
Hypothesis Hz : (0 <= ztMin <= ztMax)%Z.
Hypothesis Hz2 : (ztMax <= sz_nZnT s)%Z.
Variable fullUpdate : bool.
Variables cmns : Z -> R.
Variables Tlp Tlm Slp Slm : Z -> Z -> R.
Variable bDotN : Z -> R.
Local Notation pu := (perform_update mf nf nz nTR nT (sz_mnyq2 s) ztMin ztMax (sz_lasym s) fullUpdate
  (vtab s b0) (sz_wInt s) cmns Tlp Tlm Slp Slm bDotN).
Local Notation Cf := (fun l n m => cmns ((l * (nf + 1) + n) * (mf + 1) + m)%Z).
Local Notation glob := (fun (X : Z -> Z -> R) l kl => X l (kl - ztMin)%Z).

Lemma tsum_source (trig : R -> R) (Y : Z -> Z -> Z -> Z -> R) (Ym : Z -> Z -> Z -> Z -> R) n' m' :
  (- nf <= n' <= nf)%Z -> (0 <= m' <= mf)%Z ->
  (forall fl n m kl, (0 <= n <= nf)%Z -> (0 <= m <= mf)%Z -> (ztMin <= kl < ztMax)%Z ->
     Y fl n m kl = Cf fl n m * trig (mode_phase nT nz m n kl) /\
     Ym fl n m kl = Cf fl n m * trig (mode_phase nT nz m (- n) kl)) ->
  tsum mf nf (fun fl n m => zsum ztMin ztMax (fun kl => gterm n m (i_posn mf nf n m) (i_negn mf nf n m) (i_posn mf nf n' m')
     (Tlp fl (kl - ztMin)%Z * bw nz ztMin (sz_wInt s) bDotN kl) (Tlm fl (kl - ztMin)%Z * bw nz ztMin (sz_wInt s) bDotN kl)
     (Y fl n m kl) (Ym fl n m kl))) =
  mode_source trig nT nz (mf + nf) Cf (sz_wInt s) (fun kl => bDotN (kl - ztMin)%Z) (glob Tlp) (glob Tlm) ztMin ztMax m' n'.
Proof.
  intros Hn Hm HY. unfold tsum, mode_source. replace (1 + nf + mf)%Z with (mf + nf + 1)%Z by lia.
  apply zsum_ext. intros fl _.
  rewrite (sum_pick mf nf _ n' m' (zsum ztMin ztMax (fun kl => Cf fl (Z.abs n') m' * by_sign m' n' (Tlp fl (kl - ztMin)%Z) (Tlm fl (kl - ztMin)%Z)
      * bDotN (kl - ztMin)%Z * sz_wInt s (kl / nz)%Z * trig (mode_phase nT nz m' n' kl)))); auto; try lia.
  intros n m An Am.
  rewrite (zsum_ext _ _ _ (fun kl => if ((n =? Z.abs n') && (m =? m'))%Z%bool then Cf fl (Z.abs n') m' * by_sign m' n' (Tlp fl (kl - ztMin)%Z) (Tlm fl (kl - ztMin)%Z)
      * bDotN (kl - ztMin)%Z * sz_wInt s (kl / nz)%Z * trig (mode_phase nT nz m' n' kl) else 0)).
  - destruct ((n =? Z.abs n') && (m =? m'))%Z%bool; [reflexivity|]. apply zsum_zero. reflexivity.
  - intros kl Hk. rewrite gterm_pick by lia.
    destruct ((n =? Z.abs n') && (m =? m'))%Z%bool eqn:E; [|reflexivity].
    apply andb_prop in E. destruct E as [E1 E2]. apply Z.eqb_eq in E1, E2. subst n m.
    destruct (HY fl (Z.abs n') m' kl ltac:(lia) ltac:(lia) ltac:(lia)) as [H1 H2].
    rewrite by_sign_scale, by_sign_scale. unfold bw.
    destruct (Z.ltb_spec n' 0).
    + rewrite H2. replace (- Z.abs n')%Z with n' by lia. ring.
    + rewrite H1. replace (Z.abs n') with n' by lia. ring.
Qed.

Lemma ind_flat i j kl r : (ztMin <= kl < ztMax)%Z -> (0 <= r < numLocal ztMin ztMax)%Z ->
  ind (i * numLocal ztMin ztMax + (kl - ztMin)) (j * numLocal ztMin ztMax + r) = ind i j * (if (kl =? r + ztMin)%Z then 1 else 0).
Proof.
  intros Hk Hr. unfold ind.
  destruct (Z.eqb_spec (i * numLocal ztMin ztMax + (kl - ztMin)) (j * numLocal ztMin ztMax + r)) as [E|E].
  - apply flat_inj in E; [|unfold numLocal in *; lia..]. destruct E as [-> E].
    rewrite Z.eqb_refl. rewrite (proj2 (Z.eqb_eq kl (r + ztMin))) by lia. lra.
  - destruct (Z.eqb_spec i j) as [->|]; [|lra]. destruct (Z.eqb_spec kl (r + ztMin)); [|lra].
    exfalso. apply E. lia.
Qed.

Lemma tsum_kernel (trig : R -> R) (Y : Z -> Z -> Z -> Z -> R) (Ym : Z -> Z -> Z -> Z -> R) n' m' kl0 :
  (- nf <= n' <= nf)%Z -> (0 <= m' <= mf)%Z -> (ztMin <= kl0 < ztMax)%Z ->
  (forall fl n m kl, (0 <= n <= nf)%Z -> (0 <= m <= mf)%Z -> (ztMin <= kl < ztMax)%Z ->
     Y fl n m kl = Cf fl n m * trig (mode_phase nT nz m n kl) /\
     Ym fl n m kl = Cf fl n m * trig (mode_phase nT nz m (- n) kl)) ->
  tsum mf nf (fun fl n m => zsum ztMin ztMax (fun kl => gterm n m (i_posn mf nf n m * numLocal ztMin ztMax + (kl - ztMin))
     (i_negn mf nf n m * numLocal ztMin ztMax + (kl - ztMin)) (i_posn mf nf n' m' * numLocal ztMin ztMax + (kl0 - ztMin))
     (Slp fl (kl - ztMin)%Z) (Slm fl (kl - ztMin)%Z) (Y fl n m kl) (Ym fl n m kl))) =
  mode_kernel trig nT nz (mf + nf) Cf (glob Slp) (glob Slm) kl0 m' n'.
Proof.
  intros Hn Hm Hk0 HY. unfold tsum, mode_kernel. replace (1 + nf + mf)%Z with (mf + nf + 1)%Z by lia.
  apply zsum_ext. intros fl _.
  apply sum_pick with (n' := n') (m' := m'); try lia.
  intros n m An Am.
  rewrite (zsum_single _ _ kl0); [|lia|].
  - transitivity (gterm n m (i_posn mf nf n m) (i_negn mf nf n m) (i_posn mf nf n' m')
      (Slp fl (kl0 - ztMin)%Z) (Slm fl (kl0 - ztMin)%Z) (Y fl n m kl0) (Ym fl n m kl0)).
    { unfold gterm. rewrite !ind_flat by (unfold numLocal; lia).
      rewrite (proj2 (Z.eqb_eq kl0 (kl0 - ztMin + ztMin))) by lia. destruct ((n =? 0) || (m =? 0))%Z%bool; ring. }
    rewrite gterm_pick by lia.
    destruct ((n =? Z.abs n') && (m =? m'))%Z%bool eqn:E; [|reflexivity].
    apply andb_prop in E. destruct E as [E1 E2]. apply Z.eqb_eq in E1, E2. subst n m.
    destruct (HY fl (Z.abs n') m' kl0 ltac:(lia) ltac:(lia) ltac:(lia)) as [H1 H2].
    rewrite by_sign_scale.
    destruct (Z.ltb_spec n' 0).
    + rewrite H2. replace (- Z.abs n')%Z with n' by lia. ring.
    + rewrite H1. replace (Z.abs n') with n' by lia. ring.
  - intros kl Hk Ne. unfold gterm. rewrite !ind_flat by (unfold numLocal; lia).
    rewrite (proj2 (Z.eqb_neq kl (kl0 - ztMin + ztMin))) by lia. destruct ((n =? 0) || (m =? 0))%Z%bool; ring.
Qed.

Lemma source_terms st n m : (- nf <= n <= nf)%Z -> (0 <= m <= mf)%Z ->
  s_bs (pu st) ((nf + n) * (mf + 1) + m)%Z =
    mode_source sin nT nz (mf + nf) Cf (sz_wInt s) (fun kl => bDotN (kl - ztMin)%Z) (glob Tlp) (glob Tlm) ztMin ztMax m n /\
  (sz_lasym s = true -> s_bc (pu st) ((nf + n) * (mf + 1) + m)%Z =
    mode_source cos nT nz (mf + nf) Cf (sz_wInt s) (fun kl => bDotN (kl - ztMin)%Z) (glob Tlp) (glob Tlm) ztMin ztMax m n).
Proof.
  intros Hn Hm. pose proof (so_nZeta s OK) as Hnz.
  destruct (pu_spec mf nf nz nTR nT (sz_mnyq2 s) ztMin ztMax (sz_lasym s) fullUpdate (vtab s b0) (sz_wInt s) cmns Tlp Tlm Slp Slm bDotN
     Hnz ltac:(lia) ltac:(lia) st (i_posn mf nf n m)) as (P1 & _ & P3 & _).
  split.
  - etransitivity; [exact P1|]. unfold ebs. apply tsum_source; auto.
    intros fl n0 m0 kl A B C.
    destruct (harmonics s OK MQ b0 mf nf cmns fl n0 m0 kl Hmf Hnf A B ltac:(lia)) as (H1 & H2 & _). split; assumption.
  - intros L. etransitivity; [exact P3|]. rewrite L. unfold gate, ebc. rewrite Rplus_0_l. apply tsum_source; auto.
    intros fl n0 m0 kl A B C.
    destruct (harmonics s OK MQ b0 mf nf cmns fl n0 m0 kl Hmf Hnf A B ltac:(lia)) as (_ & _ & H1 & H2). split; assumption.
Qed.

Lemma kernel_terms st n m kl : fullUpdate = true -> (- nf <= n <= nf)%Z -> (0 <= m <= mf)%Z -> (ztMin <= kl < ztMax)%Z ->
  s_gs (pu st) (((nf + n) * (mf + 1) + m) * (ztMax - ztMin) + (kl - ztMin))%Z =
    mode_kernel sin nT nz (mf + nf) Cf (glob Slp) (glob Slm) kl m n /\
  (sz_lasym s = true -> s_gc (pu st) (((nf + n) * (mf + 1) + m) * (ztMax - ztMin) + (kl - ztMin))%Z =
    mode_kernel cos nT nz (mf + nf) Cf (glob Slp) (glob Slm) kl m n).
Proof.
  intros FU Hn Hm Hk. pose proof (so_nZeta s OK) as Hnz.
  destruct (pu_spec mf nf nz nTR nT (sz_mnyq2 s) ztMin ztMax (sz_lasym s) fullUpdate (vtab s b0) (sz_wInt s) cmns Tlp Tlm Slp Slm bDotN
     Hnz ltac:(lia) ltac:(lia) st (i_posn mf nf n m * numLocal ztMin ztMax + (kl - ztMin))) as (_ & P2 & _ & P4).
  split.
  - etransitivity; [exact P2|]. rewrite FU. unfold gate, egs. rewrite Rplus_0_l. apply tsum_kernel; auto.
    intros fl n0 m0 kl0 A B C.
    destruct (harmonics s OK MQ b0 mf nf cmns fl n0 m0 kl0 Hmf Hnf A B ltac:(lia)) as (H1 & H2 & _). split; assumption.
  - intros L. etransitivity; [exact P4|]. rewrite L, FU. unfold gate, egc. cbn [andb]. rewrite Rplus_0_l. apply tsum_kernel; auto.
    intros fl n0 m0 kl0 A B C.
    destruct (harmonics s OK MQ b0 mf nf cmns fl n0 m0 kl0 Hmf Hnf A B ltac:(lia)) as (_ & _ & H1 & H2). split; assumption.
Qed.

Lemma tsum_gate0 (e : Z -> Z -> Z -> Z -> R) : tsum mf nf (fun fl n m => zsum ztMin ztMax (fun kl => gate false (e fl n m kl))) = 0.
Proof. unfold tsum, gate. apply zsum_zero. intros. apply zsum_zero. intros. apply zsum_zero. intros. apply zsum_zero. reflexivity. Qed.

Lemma unchanged st j :
  (fullUpdate = false -> s_gs (pu st) j = s_gs st j /\ s_gc (pu st) j = s_gc st j) /\
  (sz_lasym s = false -> s_bc (pu st) j = s_bc st j /\ s_gc (pu st) j = s_gc st j).
Proof.
  pose proof (so_nZeta s OK) as Hnz.
  destruct (pu_spec mf nf nz nTR nT (sz_mnyq2 s) ztMin ztMax (sz_lasym s) fullUpdate (vtab s b0) (sz_wInt s) cmns Tlp Tlm Slp Slm bDotN
     Hnz ltac:(lia) ltac:(lia) st j) as (_ & P2 & P3 & P4).
  split; intros E; split.
  - rewrite P2, E, tsum_gate0. lra.
  - rewrite P4, E, andb_false_r, tsum_gate0. lra.
  - rewrite P3, E, tsum_gate0. lra.
  - rewrite P4, E. cbn [andb]. rewrite tsum_gate0. lra.
Qed.
End Final.

(** Splitting the grid points between threads. *)
Lemma mode_source_split trig nT nz L C w bn Tp Tm lo mid hi m n : (lo <= mid)%Z -> (mid <= hi)%Z ->
  mode_source trig nT nz L C w bn Tp Tm lo hi m n =
  mode_source trig nT nz L C w bn Tp Tm lo mid m n + mode_source trig nT nz L C w bn Tp Tm mid hi m n.
Proof.
  intros A B. unfold mode_source. rewrite <- zsum_plus. apply zsum_ext. intros l _. apply zsum_split; assumption.
Qed.

Lemma mode_source_threads trig nT nz L C w bn Tp Tm N T m n : (0 <= N)%Z -> (1 <= T)%Z ->
  zsum 0 T (fun t => mode_source trig nT nz L C w bn Tp Tm (fst (tangential_range N T t)) (snd (tangential_range N T t)) m n) =
  mode_source trig nT nz L C w bn Tp Tm 0 N m n.
Proof.
  intros HN HT.
  assert (K : forall k, (0 <= Z.of_nat k <= T)%Z ->
    zsum 0 (Z.of_nat k) (fun t => mode_source trig nT nz L C w bn Tp Tm (fst (tangential_range N T t)) (snd (tangential_range N T t)) m n) =
    mode_source trig nT nz L C w bn Tp Tm 0 (blk N T (Z.of_nat k)) m n).
  { induction k as [|k IH]; intros Hk.
    - cbn [Z.of_nat]. rewrite blk_0 by lia. unfold mode_source. rewrite zsum_empty by lia.
      symmetry. apply zsum_zero. intros. apply zsum_empty. lia.
    - replace (Z.of_nat (S k)) with (Z.of_nat k + 1)%Z by lia.
      rewrite zsum_snoc by lia. rewrite IH by lia. rewrite tangential_range_blk by lia. cbn [fst snd].
      pose proof (blk_mono N T 0 (Z.of_nat k) ltac:(lia) HN ltac:(lia)) as M1. rewrite blk_0 in M1 by lia.
      pose proof (blk_mono N T (Z.of_nat k) (Z.of_nat k + 1) ltac:(lia) HN ltac:(lia)) as M2.
      symmetry. apply mode_source_split; assumption. }
  pose proof (K (Z.to_nat T) ltac:(lia)) as E. rewrite Z2Nat.id in E by lia. rewrite E. rewrite blk_T by lia. reflexivity.
Qed.

(** The statement for all threads together, the arrays of each thread being its
    part of common arrays. *)
Lemma source_threads s (OK : sz_ok s) (MQ : (sz_mpol s + 1 <= sz_mnyq2 s)%Z) b0 mf nf fullUpdate cmns
  (gTp gTm gSp gSm : Z -> Z -> R) gb (st : Z -> sums) T n m :
  (0 <= mf <= sz_mpol s + 1)%Z -> (0 <= nf <= sz_ntor s)%Z -> (1 <= T)%Z ->
  (- nf <= n <= nf)%Z -> (0 <= m <= mf)%Z ->
  let lo t := fst (tangential_range (sz_nZnT s) T t) in
  let hi t := snd (tangential_range (sz_nZnT s) T t) in
  let part (X : Z -> Z -> R) t := fun l i => X l (lo t + i)%Z in
  let res t := perform_update mf nf (sz_nZeta s) (sz_nThetaReduced s) (sz_nThetaEven s) (sz_mnyq2 s) (lo t) (hi t) (sz_lasym s) fullUpdate
     (vtab s b0) (sz_wInt s) cmns (part gTp t) (part gTm t) (part gSp t) (part gSm t) (fun i => gb (lo t + i)%Z) (st t) in
  let Cf := (fun l n m => cmns ((l * (nf + 1) + n) * (mf + 1) + m)%Z) in
  zsum 0 T (fun t => s_bs (res t) ((nf + n) * (mf + 1) + m)%Z) =
    mode_source sin (sz_nThetaEven s) (sz_nZeta s) (mf + nf) Cf (sz_wInt s) gb gTp gTm 0 (sz_nZnT s) m n /\
  (sz_lasym s = true -> zsum 0 T (fun t => s_bc (res t) ((nf + n) * (mf + 1) + m)%Z) =
    mode_source cos (sz_nThetaEven s) (sz_nZeta s) (mf + nf) Cf (sz_wInt s) gb gTp gTm 0 (sz_nZnT s) m n).
Proof.
  intros Hmf Hnf HT Hn Hm lo hi part res Cf.
  assert (HN : (0 <= sz_nZnT s)%Z).
  { pose proof (so_nZnT s OK). pose proof (so_nZeta s OK). pose proof (so_nTE s OK). pose proof (so_nTR s OK).
    pose proof (so_nT s OK). assert (0 <= sz_nThetaEff s)%Z by (destruct (sz_lasym s); lia). nia. }
  assert (RG : forall t, (0 <= t < T)%Z -> (0 <= lo t <= hi t)%Z /\ (hi t <= sz_nZnT s)%Z).
  { intros t Ht. unfold lo, hi. rewrite tangential_range_blk by lia. cbn [fst snd].
    pose proof (blk_mono (sz_nZnT s) T 0 t ltac:(lia) HN ltac:(lia)) as M1. rewrite blk_0 in M1 by lia.
    pose proof (blk_mono (sz_nZnT s) T t (t + 1) ltac:(lia) HN ltac:(lia)) as M2.
    pose proof (blk_mono (sz_nZnT s) T (t + 1) T ltac:(lia) HN ltac:(lia)) as M3. rewrite blk_T in M3 by lia. lia. }
  assert (SL : forall trig t, (0 <= t < T)%Z ->
    mode_source trig (sz_nThetaEven s) (sz_nZeta s) (mf + nf) Cf (sz_wInt s) (fun kl => gb (lo t + (kl - lo t))%Z)
      (fun l kl => part gTp t l (kl - lo t)%Z) (fun l kl => part gTm t l (kl - lo t)%Z) (lo t) (hi t) m n =
    mode_source trig (sz_nThetaEven s) (sz_nZeta s) (mf + nf) Cf (sz_wInt s) gb gTp gTm (lo t) (hi t) m n).
  { intros trig t Ht. unfold mode_source. apply zsum_ext. intros l _. apply zsum_ext. intros kl _. unfold part.
    replace (lo t + (kl - lo t))%Z with kl by lia. reflexivity. }
  split; [|intros L]; rewrite <- (mode_source_threads _ _ _ _ _ _ _ _ _ (sz_nZnT s) T m n HN HT); apply zsum_ext; intros t Ht;
    destruct (RG t Ht) as [R1 R2]; fold (lo t); fold (hi t); rewrite <- SL by assumption.
  - apply (source_terms s OK MQ b0 mf nf (lo t) (hi t)); assumption.
  - apply (source_terms s OK MQ b0 mf nf (lo t) (hi t)); assumption.
Qed.

Lemma make_sizes_fields lasym nfp mpol ntor ntheta nzeta mg ng s :
  make_sizes lasym nfp mpol ntor ntheta nzeta mg ng = Some s ->
  sz_lasym s = lasym /\ sz_mpol s = mpol /\ sz_ntor s = ntor.
Proof.
  unfold make_sizes. destruct ((nfp <? 1) || (mpol <? 1) || (ntor <? 0))%Z%bool; [discriminate|].
  intros E. apply some_inj in E. subst s. cbn [sz_lasym sz_mpol sz_ntor]. auto.
Qed.

Lemma source_threads_sizes : forall lasym nfp mpol ntor ntheta nzeta mg ng s b0 mf nf fullUpdate cmns gTp gTm gSp gSm gb st T n m,
  make_sizes lasym nfp mpol ntor ntheta nzeta mg ng = Some s ->
  (0 <= mf <= mpol + 1)%Z -> (0 <= nf <= ntor)%Z -> (1 <= T)%Z ->
  (- nf <= n <= nf)%Z -> (0 <= m <= mf)%Z ->
  let lo t := fst (tangential_range (sz_nZnT s) T t) in
  let hi t := snd (tangential_range (sz_nZnT s) T t) in
  let part (X : Z -> Z -> R) t := fun l i => X l (lo t + i)%Z in
  let res t := perform_update mf nf (sz_nZeta s) (sz_nThetaReduced s) (sz_nThetaEven s) (sz_mnyq2 s) (lo t) (hi t) lasym fullUpdate
     (vtab s b0) (sz_wInt s) cmns (part gTp t) (part gTm t) (part gSp t) (part gSm t) (fun i => gb (lo t + i)%Z) (st t) in
  let C l n m := cmns ((l * (nf + 1) + n) * (mf + 1) + m)%Z in
  zsum 0 T (fun t => s_bs (res t) ((nf + n) * (mf + 1) + m)%Z) =
    mode_source sin (sz_nThetaEven s) (sz_nZeta s) (mf + nf) C (sz_wInt s) gb gTp gTm 0 (sz_nZnT s) m n /\
  (lasym = true -> zsum 0 T (fun t => s_bc (res t) ((nf + n) * (mf + 1) + m)%Z) =
    mode_source cos (sz_nThetaEven s) (sz_nZeta s) (mf + nf) C (sz_wInt s) gb gTp gTm 0 (sz_nZnT s) m n).
Proof.
  intros until m. intros E. pose proof (make_sizes_ok _ _ _ _ _ _ _ _ _ E) as OK.
  destruct (make_sizes_mnyq2 _ _ _ _ _ _ _ _ _ E) as [MQ _]. destruct (make_sizes_fields _ _ _ _ _ _ _ _ _ E) as (E1 & E2 & E3).
  rewrite <- E1, <- E2, <- E3. apply source_threads; assumption.
Qed.
Lemma kernel_terms_sizes :
  forall lasym nfp mpol ntor ntheta nzeta mg ng s b0 mf nf ztMin ztMax cmns Tlp Tlm Slp Slm bDotN st n m kl,
  make_sizes lasym nfp mpol ntor ntheta nzeta mg ng = Some s ->
  (0 <= mf <= mpol + 1)%Z -> (0 <= nf <= ntor)%Z -> (0 <= ztMin <= ztMax)%Z -> (ztMax <= sz_nZnT s)%Z ->
  (- nf <= n <= nf)%Z -> (0 <= m <= mf)%Z -> (ztMin <= kl < ztMax)%Z ->
  let res := perform_update mf nf (sz_nZeta s) (sz_nThetaReduced s) (sz_nThetaEven s) (sz_mnyq2 s) ztMin ztMax lasym true
     (vtab s b0) (sz_wInt s) cmns Tlp Tlm Slp Slm bDotN st in
  let C l n m := cmns ((l * (nf + 1) + n) * (mf + 1) + m)%Z in
  let glob (X : Z -> Z -> R) l kl := X l (kl - ztMin)%Z in
  let j := (((nf + n) * (mf + 1) + m) * (ztMax - ztMin) + (kl - ztMin))%Z in
  s_gs res j = mode_kernel sin (sz_nThetaEven s) (sz_nZeta s) (mf + nf) C (glob Slp) (glob Slm) kl m n /\
  (lasym = true ->
   s_gc res j = mode_kernel cos (sz_nThetaEven s) (sz_nZeta s) (mf + nf) C (glob Slp) (glob Slm) kl m n).
Proof.
  intros until kl. intros E. pose proof (make_sizes_ok _ _ _ _ _ _ _ _ _ E) as OK.
  destruct (make_sizes_mnyq2 _ _ _ _ _ _ _ _ _ E) as [MQ _]. destruct (make_sizes_fields _ _ _ _ _ _ _ _ _ E) as (E1 & E2 & E3).
  rewrite <- E1, <- E2, <- E3. intros. apply kernel_terms; auto.
Qed.
Lemma unchanged_sizes :
  forall lasym nfp mpol ntor ntheta nzeta mg ng s b0 mf nf ztMin ztMax fullUpdate cmns Tlp Tlm Slp Slm bDotN st j,
  make_sizes lasym nfp mpol ntor ntheta nzeta mg ng = Some s -> (0 <= ztMin <= ztMax)%Z ->
  let res := perform_update mf nf (sz_nZeta s) (sz_nThetaReduced s) (sz_nThetaEven s) (sz_mnyq2 s) ztMin ztMax lasym fullUpdate
     (vtab s b0) (sz_wInt s) cmns Tlp Tlm Slp Slm bDotN st in
  (fullUpdate = false -> s_gs res j = s_gs st j /\ s_gc res j = s_gc st j) /\
  (lasym = false -> s_bc res j = s_bc st j /\ s_gc res j = s_gc st j).
Proof.
  intros until j. intros E. pose proof (make_sizes_ok _ _ _ _ _ _ _ _ _ E) as OK.
  destruct (make_sizes_fields _ _ _ _ _ _ _ _ _ E) as (E1 & E2 & E3).
  rewrite <- E1. intros. apply unchanged; auto.
Qed.
Lemma sizes_case : exists s, make_sizes true 5 4 3 0 0 0 0 = Some s /\ sz_nZnT s = 140%Z /\ sz_nZeta s = 10%Z /\
  tangential_range (sz_nZnT s) 3 1 = (47, 94)%Z.
Proof. eexists. split; [reflexivity|]. repeat split. Qed.
