From Coq Require Import ZArith List Bool Reals Lia Lra Psatz.
From Verif Require Import Base BaseLemmas SumLemmas SizesModel FourierModel FourierSpec FourierProofs TrigSums
  DftModel DftSpec DftTables DftProofs DftForces DftFold DftFinal LapThreads LapMain BsubModel BsubProofs
  FiltModel FiltSpec FiltProofs FiltFinal FiltCex FluxProofs JxbModel.
Import ListNotations.
Open Scope R_scope.

(** ** Sums over a surface *)
Section J.
Variable s : sizes.
Hypothesis OK : sz_ok s.
Local Notation nZnT := (sz_nZnT s).
Local Notation nTE := (sz_nThetaEff s).
Local Notation nTR := (sz_nThetaReduced s).
Local Notation nT := (sz_nThetaEven s).
Local Notation nz := (sz_nZeta s).
Local Notation W := (fun kl => sz_wInt s (kl mod nTE)).

Lemma accum_sum f : accum s f = zsum 0 nZnT (fun kl => f kl (W kl)).
Proof.
  unfold accum. pose proof (so_nZnT s OK). pose proof (so_nZeta s OK). pose proof (nTE_pos s OK).
  assert (0 <= nZnT)%Z by nia.
  pose (I := fun m acc => acc = zsum 0 m (fun kl => f kl (W kl))).
  assert (P : I nZnT (for_up 0 nZnT (fun kl acc => acc + f kl (W kl)) 0)).
  { apply (for_up_ind I); unfold I; [lia|rewrite zsum_empty by lia; reflexivity|].
    intros m acc Hm ->. rewrite zsum_snoc by lia. reflexivity. }
  exact P.
Qed.
Lemma accum_grid f : accum s (fun kl w => f kl * w) = grid_avg s (fun k l => f (k * nTE + l)%Z).
Proof.
  rewrite accum_sum. rewrite (surf_rows s OK f). unfold grid_avg. apply zsum_ext. intros k _. apply zsum_ext. intros l _. ring.
Qed.
Lemma grid_const c : grid_avg s (fun _ _ => c) = c.
Proof.
  rewrite <- (accum_grid (fun _ => c)), accum_sum. apply (surf_const s OK).
Qed.
Lemma wInt_pos l : (0 <= l < nTE)%Z -> 0 < sz_wInt s l.
Proof.
  intros Hl. pose proof (so_nZeta s OK). pose proof (so_nT s OK). pose proof (so_nTR s OK). pose proof (so_nTE s OK) as HE.
  case_eq (sz_lasym s); intros LA; rewrite LA in HE; rewrite HE in Hl.
  - rewrite <- (wcos_wInt s OK) by assumption. apply Rinv_0_lt_compat. apply Rmult_lt_0_compat; apply IZR_lt; lia.
  - rewrite <- (wred_wInt s OK) by assumption. unfold wred, half_end, norm_, intNorm.
    assert (0 < 1 / IZR (nz * (nTR - 1))). { apply Rdiv_lt_0_compat; [lra|apply IZR_lt; nia]. }
    destruct (_ || _); lra.
Qed.
Lemma W_pos kl : 0 < W kl.
Proof. apply wInt_pos. apply Z.mod_pos_bound. exact (nTE_pos s OK). Qed.
Lemma nZnT_pos : (0 < nZnT)%Z.
Proof. rewrite (so_nZnT s OK). pose proof (so_nZeta s OK). pose proof (nTE_pos s OK). nia. Qed.
End J.

Lemma zsum_pos lo hi f : (lo < hi)%Z -> (forall i, (lo <= i < hi)%Z -> 0 < f i) -> 0 < zsum lo hi f.
Proof.
  intros H P. rewrite zsum_cons by lia.
  assert (0 <= zsum (lo + 1) hi f). { rewrite <- (zsum_zero (lo + 1) hi (fun _ => 0)) by reflexivity. apply zsum_le. intros i Hi. apply Rlt_le, P. lia. }
  pose proof (P lo ltac:(lia)). lra.
Qed.
Lemma zsum_nonneg lo hi f : (forall i, (lo <= i < hi)%Z -> 0 <= f i) -> 0 <= zsum lo hi f.
Proof. intros P. rewrite <- (zsum_zero lo hi (fun _ => 0)) by reflexivity. apply zsum_le. exact P. Qed.

(** Cauchy-Schwarz with positive weights [q]: (sum a)^2 <= (sum q) (sum a^2 / q). *)
Lemma cauchy lo hi a q : (forall i, (lo <= i < hi)%Z -> 0 < q i) ->
  zsum lo hi a * zsum lo hi a <= zsum lo hi q * zsum lo hi (fun i => a i * a i / q i).
Proof.
  intros P. destruct (Z_lt_le_dec lo hi) as [L|L]; [|rewrite !zsum_empty by lia; lra].
  set (A := zsum lo hi a). set (Q := zsum lo hi q). set (S := zsum lo hi (fun i => a i * a i / q i)).
  assert (HQ : 0 < Q) by (apply zsum_pos; assumption).
  assert (T : 0 <= zsum lo hi (fun i => q i * ((a i / q i - A / Q) * (a i / q i - A / Q)))).
  { apply zsum_nonneg. intros i Hi. apply Rmult_le_pos; [apply Rlt_le, P, Hi|]. apply Rle_0_sqr. }
  assert (E : zsum lo hi (fun i => q i * ((a i / q i - A / Q) * (a i / q i - A / Q))) = S - A * A / Q).
  { transitivity (zsum lo hi (fun i => a i * a i / q i) - (2 * A / Q) * zsum lo hi a + (A / Q * (A / Q)) * zsum lo hi q).
    - rewrite <- !zsum_scale, <- zsum_minus, <- zsum_plus. apply zsum_ext. intros i Hi. pose proof (P i Hi). field. split; lra.
    - fold A Q S. field. lra. }
  rewrite E in T. apply Rmult_le_reg_r with (/ Q); [apply Rinv_0_lt_compat, HQ|].
  replace (Q * S * / Q) with S by (field; lra). unfold Rdiv in T. lra.
Qed.

(** ** Arrays *)
Lemma profile_at ns f j : (1 <= j < ns - 1)%Z -> profile ns f j = f j.
Proof.
  intros Hj. unfold profile. apply (for_up_set (fun a : Z -> R => a j) _ 1 (ns - 1) j); [exact Hj| |].
  - intros a. apply upd_eq.
  - intros j' a Hj' Ne. apply upd_neq. lia.
Qed.
Lemma profile_out ns f j : (j < 1 \/ ns - 1 <= j)%Z -> profile ns f j = 0.
Proof.
  intros Hj. unfold profile. apply (for_up_keep (fun a : Z -> R => a j)). intros j' a Hj'. apply upd_neq. lia.
Qed.
Section M.
Variable s : sizes.
Hypothesis OK : sz_ok s.
Local Notation nZnT := (sz_nZnT s).
Lemma matrix_at ns f j kl : (1 <= j < ns - 1)%Z -> (0 <= kl < nZnT)%Z -> matrix s ns f (j * nZnT + kl)%Z = f j kl.
Proof.
  intros Hj Hkl. unfold matrix. apply (for_up_set (fun a : Z -> R => a (j * nZnT + kl)%Z) _ 1 (ns - 1) j); [exact Hj| |].
  - intros a. apply (for_up_set (fun a : Z -> R => a (j * nZnT + kl)%Z) _ 0 nZnT kl); [exact Hkl| |].
    + intros a'. apply upd_eq.
    + intros kl' a' Hk' Ne. apply upd_neq. lia.
  - intros j' a Hj' Ne. apply (for_up_keep (fun a : Z -> R => a (j * nZnT + kl)%Z)). intros kl' a' Hk'. apply upd_neq.
    apply (row_ne s); [lia..|lia].
Qed.
Lemma half_at ns f j kl : (0 <= j < ns - 2)%Z -> (0 <= kl < nZnT)%Z ->
  halfMatrix s ns true f (j * nZnT + kl)%Z = f j (j * nZnT + kl)%Z.
Proof.
  intros Hj Hkl. unfold halfMatrix. apply (for_up_set (fun a : Z -> R => a (j * nZnT + kl)%Z) _ 0 (ns - 1 - 1) j); [lia| |].
  - intros a. apply (for_up_set (fun a : Z -> R => a (j * nZnT + kl)%Z) _ 0 nZnT kl); [exact Hkl| |].
    + intros a'. apply upd_eq.
    + intros kl' a' Hk' Ne. apply upd_neq. lia.
  - intros j' a Hj' Ne. apply (for_up_keep (fun a : Z -> R => a (j * nZnT + kl)%Z)). intros kl' a' Hk'. apply upd_neq.
    apply (row_ne s); [lia..|lia].
Qed.
Lemma half_last ns done_ f kl : (0 <= kl < nZnT)%Z ->
  halfMatrix s ns done_ f ((ns - 2) * nZnT + kl)%Z = 0.
Proof.
  intros Hkl. unfold halfMatrix. destruct done_; [|reflexivity].
  apply (for_up_keep (fun a : Z -> R => a ((ns - 2) * nZnT + kl)%Z)). intros j a Hj.
  apply (for_up_keep (fun a : Z -> R => a ((ns - 2) * nZnT + kl)%Z)). intros kl' a' Hk'. apply upd_neq.
  apply (row_ne s); [lia..|lia].
Qed.
Lemma extrapolateRows_at ns a j kl : (3 <= ns)%Z -> (0 <= j < ns)%Z -> (0 <= kl < nZnT)%Z ->
  extrapolateRows s ns a (j * nZnT + kl)%Z = extrapolate ns (fun j => a (j * nZnT + kl)%Z) j.
Proof.
  intros Hns Hj Hkl.
  pose (I := fun (m : Z) (b : Z -> R) => forall j', (0 <= j' < ns)%Z -> forall kl', (0 <= kl' < nZnT)%Z ->
     b (j' * nZnT + kl')%Z = if (kl' <? m)%Z then extrapolate ns (fun j => a (j * nZnT + kl')%Z) j' else a (j' * nZnT + kl')%Z).
  assert (P : I nZnT (extrapolateRows s ns a)).
  { unfold extrapolateRows. apply (for_up_ind I); unfold I; [lia| |].
    - intros j' Hj' kl' Hkl'. destruct (Z.ltb_spec kl' 0); [lia|reflexivity].
    - intros m b Hm H j' Hj' kl' Hkl'. cbv zeta.
      assert (ON : forall jj kk, (0 <= jj < ns)%Z -> (0 <= kk < nZnT)%Z -> kk <> m -> forall i, (0 <= i < ns)%Z -> (jj * nZnT + kk <> i * nZnT + m)%Z).
      { intros jj kk Hjj Hkk Ne i Hi E. apply (flat_inj nZnT) in E; [|lia..]. lia. }
      destruct (Z.eqb_spec kl' m) as [->|Ne].
      + destruct (Z.ltb_spec m (m + 1)); [|lia]. unfold extrapolate.
        assert (B : forall i, (0 <= i < ns)%Z -> b (i * nZnT + m)%Z = a (i * nZnT + m)%Z).
        { intros i Hi. rewrite (H i Hi m) by lia. destruct (Z.ltb_spec m m); [lia|reflexivity]. }
        unfold upd.
        assert (EQ : forall x z, (0 <= x < ns)%Z -> (0 <= z < ns)%Z -> ((x * nZnT + m =? z * nZnT + m)%Z = (x =? z)%Z)).
        { intros x z Hx Hz. destruct (Z.eqb_spec x z) as [->|N]; [apply Z.eqb_refl|]. apply Z.eqb_neq. intros E.
          apply (flat_inj nZnT) in E; lia. }
        rewrite !EQ by lia. rewrite !B by lia. reflexivity.
      + rewrite !upd_neq by (apply ON; lia). rewrite (H j' Hj' kl' Hkl').
        destruct (Z.ltb_spec kl' m), (Z.ltb_spec kl' (m + 1)); try reflexivity; lia. }
  unfold I in P. rewrite (P j Hj kl Hkl). destruct (Z.ltb_spec kl nZnT); [reflexivity|lia].
Qed.
Lemma extrapolate_mid ns a j : (1 <= j < ns - 1)%Z -> extrapolate ns a j = a j.
Proof. intros. unfold extrapolate. rewrite !upd_neq by lia. reflexivity. Qed.
End M.
