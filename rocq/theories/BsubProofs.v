From Coq Require Import ZArith List Bool Reals Lia Lra.
From Verif Require Import Base BaseLemmas SumLemmas SizesModel FourierModel TrigSums DftTables DftForces DftFold LapThreads LapMain BsubModel.
Open Scope R_scope.

Section B.
Variable s : sizes.
Hypothesis OK : sz_ok s.
Local Notation nZnT := (sz_nZnT s).
Local Notation nTE := (sz_nThetaEff s).
Local Notation nTR := (sz_nThetaReduced s).
Local Notation nT := (sz_nThetaEven s).
Local Notation nz := (sz_nZeta s).

Lemma nTE_pos : (0 < nTE)%Z.
Proof. pose proof (so_nTE s OK). pose proof (so_nTR s OK). pose proof (so_nT s OK). destruct (sz_lasym s); lia. Qed.

Lemma surfSum_sum a j : surfSum s a j = zsum 0 nZnT (fun kl => a (j * nZnT + kl)%Z * sz_wInt s (kl mod nTE)).
Proof.
  unfold surfSum. pose proof (so_nZnT s OK). pose proof (so_nZeta s OK). pose proof nTE_pos.
  assert (0 <= nZnT)%Z by nia.
  pose (I := fun m acc => acc = zsum 0 m (fun kl => a (j * nZnT + kl)%Z * sz_wInt s (kl mod nTE))).
  assert (P : I nZnT (for_up 0 nZnT (fun kl acc => acc + a (j * nZnT + kl)%Z * sz_wInt s (kl mod nTE)) 0)).
  { apply (for_up_ind I); unfold I; [lia|rewrite zsum_empty by lia; reflexivity|].
    intros m acc Hm ->. rewrite zsum_snoc by lia. reflexivity. }
  exact P.
Qed.

(** By rows of constant zeta. *)
Lemma surf_rows (f : Z -> R) : zsum 0 nZnT (fun kl => f kl * sz_wInt s (kl mod nTE)) =
  zsum 0 nz (fun k => zsum 0 nTE (fun l => f (k * nTE + l)%Z * sz_wInt s l)).
Proof.
  pose proof nTE_pos. pose proof (so_nZeta s OK). rewrite (so_nZnT s OK). rewrite LapProofs.zsum_flat by lia.
  apply zsum_ext. intros k Hk. apply zsum_ext. intros l Hl.
  rewrite (Z.add_comm (k * nTE) l) at 2. rewrite Z.mod_add, Z.mod_small by lia. reflexivity.
Qed.

Lemma weights_one : zsum 0 nz (fun k => zsum 0 nTE (fun l => sz_wInt s l)) = 1.
Proof.
  pose proof (so_nZeta s OK). pose proof (so_nT s OK). pose proof (so_nTR s OK). pose proof (so_nTE s OK) as HE.
  destruct (sz_lasym s) eqn:LA.
  - rewrite HE. rewrite (zsum_ext 0 nz _ (fun _ => IZR nT * (/ (IZR nT * IZR nz)))).
    + rewrite zsum_const by lia. rewrite Z.sub_0_r. field. split; apply not_0_IZR; lia.
    + intros k _. rewrite (zsum_ext 0 nT _ (fun _ => / (IZR nT * IZR nz))) by (intros; symmetry; apply (wcos_wInt s OK); assumption).
      rewrite zsum_const by lia. rewrite Z.sub_0_r. reflexivity.
  - rewrite HE. transitivity (red_avg s (fun _ _ => 1)).
    + unfold red_avg. apply zsum_ext. intros k _. apply zsum_ext. intros l Hl. rewrite (wred_wInt s OK) by assumption. ring.
    + rewrite (red_even s OK) by reflexivity. unfold full, norm_, intNorm.
      rewrite (zsum_ext 0 nz _ (fun _ => IZR nT)) by (intros; rewrite zsum_const by lia; rewrite Z.sub_0_r; ring).
      rewrite zsum_const by lia. rewrite Z.sub_0_r, mult_IZR.
      replace (IZR nT) with (2 * IZR (nTR - 1)) by (rewrite <- mult_IZR; f_equal; lia).
      field. split; apply not_0_IZR; lia.
Qed.

Lemma surf_const c : zsum 0 nZnT (fun kl => c * sz_wInt s (kl mod nTE)) = c.
Proof.
  rewrite (surf_rows (fun _ => c)).
  rewrite (zsum_ext 0 nz _ (fun k => c * zsum 0 nTE (fun l => sz_wInt s l))) by (intros; apply zsum_scale).
  rewrite zsum_scale, weights_one. ring.
Qed.

Variable ns : Z.

Lemma row_ne a i b j : (0 <= i < nZnT)%Z -> (0 <= j < nZnT)%Z -> a <> b -> (a * nZnT + i <> b * nZnT + j)%Z.
Proof. intros Hi Hj N E. destruct (flat_inj nZnT a i b j Hi Hj E). contradiction. Qed.

(** One row of stores. *)
Lemma row_store (v : Z -> (Z -> R) -> R) j (b : Z -> R) :
  (forall kl b b', (0 <= kl < nZnT)%Z -> (forall i, (forall k, (0 <= k < nZnT)%Z -> k <> kl -> i <> j * nZnT + k)%Z -> b i = b' i) -> v kl b = v kl b') ->
  let r := for_up 0 nZnT (fun kl b => upd b (j * nZnT + kl)%Z (v kl b)) b in
  (forall i, (0 <= i < nZnT)%Z -> r (j * nZnT + i)%Z = v i b) /\
  (forall a i, a <> j -> (0 <= i < nZnT)%Z -> r (a * nZnT + i)%Z = b (a * nZnT + i)%Z).
Proof.
  intros Hv r.
  pose (I := fun m (r : Z -> R) =>
    (forall i, (0 <= i < m)%Z -> r (j * nZnT + i)%Z = v i b) /\
    (forall q, (forall k, (0 <= k < m)%Z -> q <> j * nZnT + k)%Z -> r q = b q)).
  assert (P : I nZnT r).
  { unfold r. pose proof (so_nZnT s OK). pose proof (so_nZeta s OK). pose proof nTE_pos. apply (for_up_ind I); unfold I.
    - nia.
    - split; intros; [lia|reflexivity].
    - intros m r' Hm (A & B). split.
      + intros i Hi. destruct (Z.eq_dec i m) as [->|N].
        * rewrite upd_eq. apply Hv; [lia|]. intros q Hq. apply B. intros k Hk. apply Hq; lia.
        * rewrite upd_neq by lia. apply A. lia.
      + intros q Hq. rewrite upd_neq by (apply Hq; lia). apply B. intros k Hk. apply Hq. lia. }
  destruct P as (P1 & P2). split; [exact P1|]. intros a i N Hi. apply P2. intros k Hk. apply row_ne; assumption.
Qed.

Lemma blend_at bsubvF bsubv : (2 <= ns)%Z ->
  let r := meshBlending s ns bsubvF bsubv in
  (forall j i, (0 <= j < ns - 2)%Z -> (0 <= i < nZnT)%Z -> r (j * nZnT + i)%Z = 2 * bsubvF ((j + 1) * nZnT + i)%Z - r ((j + 1) * nZnT + i)%Z) /\
  (forall i, (0 <= i < nZnT)%Z -> r ((ns - 2) * nZnT + i)%Z = bsubv ((ns - 2) * nZnT + i)%Z).
Proof.
  intros Hns r.
  pose (I := fun m (r : Z -> R) =>
    (forall j i, (m < j < ns - 2)%Z -> (0 <= i < nZnT)%Z -> r (j * nZnT + i)%Z = 2 * bsubvF ((j + 1) * nZnT + i)%Z - r ((j + 1) * nZnT + i)%Z) /\
    (forall i, (0 <= i < nZnT)%Z -> r ((ns - 2) * nZnT + i)%Z = bsubv ((ns - 2) * nZnT + i)%Z)).
  assert (P : I (0 - 1)%Z r).
  { unfold r, meshBlending. apply (for_down_ind I); unfold I.
    - lia.
    - split; intros; [lia|reflexivity].
    - intros m r' Hm (A & B). cbv zeta.
      destruct (row_store (fun kl b => 2 * bsubvF ((m + 1) * nZnT + kl)%Z - b ((m + 1) * nZnT + kl)%Z) m r') as (S1 & S2).
      { intros kl b b' Hk E. f_equal. apply E. intros k Hk' _. apply row_ne; lia. }
      split.
      + intros j i Hj Hi. destruct (Z.eq_dec j m) as [->|N].
        * rewrite S1 by exact Hi. rewrite S2 by lia. reflexivity.
        * rewrite !S2 by lia. apply A; lia.
      + intros i Hi. rewrite S2 by lia. apply B. exact Hi. }
  destruct P as (P1 & P2). split; [intros; apply P1; lia|exact P2].
Qed.

Lemma fix_at dev b j i : (0 <= j < ns - 1)%Z -> (0 <= i < nZnT)%Z ->
  fixupPoloidalCurrent s ns dev b (j * nZnT + i)%Z = b (j * nZnT + i)%Z - dev j.
Proof.
  intros Hj Hi. unfold fixupPoloidalCurrent.
  pose (I := fun m (r : Z -> R) => forall a k, (0 <= k < nZnT)%Z ->
    ((0 <= a < m)%Z -> r (a * nZnT + k)%Z = b (a * nZnT + k)%Z - dev a) /\
    ((m <= a)%Z -> r (a * nZnT + k)%Z = b (a * nZnT + k)%Z)).
  assert (P : I (ns - 1)%Z (fixupPoloidalCurrent s ns dev b)).
  { unfold fixupPoloidalCurrent. apply (for_up_ind I); unfold I; [lia|intros a k Hk; split; intros; [lia|reflexivity]|].
    intros m r' Hm A a k Hk. cbv zeta.
    destruct (row_store (fun kl r => r (m * nZnT + kl)%Z - dev m) m r') as (S1 & S2).
    { intros kl x x' Hkl E. f_equal. apply E. intros k' Hk' N. lia. }
    destruct (Z.eq_dec a m) as [->|N].
    - split; [intros _|lia]. rewrite S1 by exact Hk. f_equal. apply A; lia.
    - split; intros Ha; rewrite S2 by lia; apply A; lia. }
  apply P; assumption.
Qed.

Lemma dev_at b bvcoH j : (0 <= j < ns - 1)%Z -> poloidalCurrentDeviation s ns b bvcoH j = surfSum s b j - bvcoH j.
Proof.
  intros Hj. unfold poloidalCurrentDeviation.
  apply (for_up_set (fun d : Z -> R => d j)) with (x0 := j); [exact Hj|intros; apply upd_eq|intros; apply upd_neq; lia].
Qed.

Lemma out_avg bsubvF bsubv bvcoH j : (0 <= j < ns - 1)%Z ->
  surfSum s (outputBSubV s ns bsubvF bsubv bvcoH) j = bvcoH j.
Proof.
  intros Hj. unfold outputBSubV. set (b := meshBlending s ns bsubvF bsubv).
  rewrite surfSum_sum. rewrite (zsum_ext 0 nZnT _ (fun kl => b (j * nZnT + kl)%Z * sz_wInt s (kl mod nTE) - (surfSum s b j - bvcoH j) * sz_wInt s (kl mod nTE))).
  - rewrite zsum_minus, surf_const, <- surfSum_sum. ring.
  - intros kl Hk. rewrite fix_at, dev_at by assumption. ring.
Qed.

Lemma out_mean bsubvF bsubv bvcoH j : (0 <= j < ns - 2)%Z ->
  exists c, forall i, (0 <= i < nZnT)%Z ->
    (outputBSubV s ns bsubvF bsubv bvcoH (j * nZnT + i)%Z + outputBSubV s ns bsubvF bsubv bvcoH ((j + 1) * nZnT + i)%Z) / 2
    = bsubvF ((j + 1) * nZnT + i)%Z + c.
Proof.
  intros Hj. unfold outputBSubV. set (b := meshBlending s ns bsubvF bsubv).
  destruct (blend_at bsubvF bsubv ltac:(lia)) as (B & _). fold b in B.
  exists (- (surfSum s b j - bvcoH j + (surfSum s b (j + 1) - bvcoH (j + 1)%Z)) / 2). intros i Hi.
  rewrite !fix_at, !dev_at by lia. rewrite (B j i) by lia. field.
Qed.

Lemma out_edge bsubvF bsubv bvcoH : (2 <= ns)%Z ->
  exists c, forall i, (0 <= i < nZnT)%Z -> outputBSubV s ns bsubvF bsubv bvcoH ((ns - 2) * nZnT + i)%Z = bsubv ((ns - 2) * nZnT + i)%Z + c.
Proof.
  intros Hns. unfold outputBSubV. set (b := meshBlending s ns bsubvF bsubv).
  destruct (blend_at bsubvF bsubv ltac:(lia)) as (_ & B). fold b in B.
  exists (- (surfSum s b (ns - 2) - bvcoH (ns - 2)%Z)). intros i Hi. rewrite fix_at, dev_at, B by lia. ring.
Qed.
End B.
