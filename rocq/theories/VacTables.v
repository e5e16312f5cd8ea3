(** The basis tables in the FourierBasisFastToroidal layout used by the vacuum
    solver, for all modes stored. *)
From Coq Require Import ZArith List Bool Reals Lia Lra.
From Verif Require Import Base BaseLemmas SumLemmas SizesModel FourierModel FourierSpec FourierProofs TrigSums
  PartModel DftModel DftSpec DftTables.
Import ListNotations.
Open Scope Z_scope.

Lemma make_sizes_mnyq2 lasym nfp mpol ntor ntheta nzeta mg ng s :
  make_sizes lasym nfp mpol ntor ntheta nzeta mg ng = Some s ->
  sz_mpol s + 1 <= sz_mnyq2 s /\ sz_nThetaEven s <= sz_mnyq2 s.
Proof.
  unfold make_sizes. destruct ((nfp <? 1) || (mpol <? 1) || (ntor <? 0)) eqn:C; [discriminate|].
  apply orb_false_elim in C. destruct C as [C C3]. apply orb_false_elim in C. destruct C as [C1 C2].
  apply Z.ltb_ge in C1, C2, C3.
  intros E. apply some_inj in E. subst s. cbn [sz_mpol sz_mnyq2 sz_nThetaEven].
  set (nth := if ntheta <? 2 * mpol + 6 then 2 * mpol + 6 else ntheta).
  assert (2 * mpol + 6 <= nth) by (unfold nth; destruct (Z.ltb_spec ntheta (2 * mpol + 6)); lia).
  assert (Q := Z.quot_rem nth 2 ltac:(lia)). assert (Q2 := Z.rem_bound_pos nth 2 ltac:(lia) ltac:(lia)).
  set (h := Z.quot nth 2) in *.
  assert (E2 : Z.quot (2 * h) 2 = h) by (rewrite Z.mul_comm; apply Z.quot_mul; lia).
  rewrite ?E2. lia.
Qed.

Section VTab.
Variable s : sizes.
Variable b0 : basis_tables.
Definition vtab : basis_tables :=
  computeFourierBasis FastToroidal (sz_nfp s) (sz_nZeta s) (sz_nThetaEven s) (sz_nThetaReduced s)
    (sz_mnyq2 s) (sz_nnyq2 s) b0.
Local Notation nTR := (sz_nThetaReduced s).
Local Notation nT := (sz_nThetaEven s).
Local Notation nz := (sz_nZeta s).
Local Notation mq := (sz_mnyq2 s + 1).
Local Open Scope R_scope.

Lemma vpol_tab (pr : basis_tables -> Z -> R) (val : Z -> Z -> R) :
  (forall k n b, pr (toroidal_entry FastToroidal (sz_nfp s) nz (sz_nnyq2 s) k n b) = pr b) ->
  (forall m l b j, pr (poloidal_entry FastToroidal nz nT nTR (sz_mnyq2 s) m l b) j =
     if (j =? l * mq + m)%Z then val m l else pr b j) ->
  forall m l, (0 <= m <= sz_mnyq2 s)%Z -> (0 <= l < nTR)%Z -> pr vtab (l * mq + m)%Z = val m l.
Proof.
  intros Ht Hp m l Hm Hl. unfold vtab, computeFourierBasis.
  rewrite (for_up_same pr).
  2:{ intros j b. apply (for_up_same pr). intros. apply Ht. }
  rewrite (for_up_pairs (fun m l b => poloidal_entry FastToroidal nz nT nTR (sz_mnyq2 s) m l b)).
  set (L := pairs 0 mq 0 nTR).
  assert (In (m, l) L) by (apply pairs_In; lia).
  apply (local_assign pr _ (fun q => snd q * mq + fst q)%Z (fun q => val (fst q) (snd q)) L
    ) with (a := (m, l)); [| |  |assumption].
  - intros b [m' l'] j _. apply Hp.
  - apply pairs_NoDup.
  - intros [m1 l1] [m2 l2] I1 I2 E. apply pairs_In in I1, I2. cbn [fst snd] in E.
    apply flat_inj in E; try lia. destruct E; subst; reflexivity.
Qed.
Lemma vtor_tab (pr : basis_tables -> Z -> R) (val : Z -> Z -> R) :
  (forall k n b j, pr (toroidal_entry FastToroidal (sz_nfp s) nz (sz_nnyq2 s) k n b) j =
     if (j =? n * nz + k)%Z then val k n else pr b j) ->
  forall k n, (0 <= k < nz)%Z -> (0 <= n <= sz_nnyq2 s)%Z -> pr vtab (n * nz + k)%Z = val k n.
Proof.
  intros Ht k n Hk Hn. unfold vtab, computeFourierBasis.
  rewrite (for_up_pairs (fun k n b => toroidal_entry FastToroidal (sz_nfp s) nz (sz_nnyq2 s) k n b)).
  set (L := pairs 0 nz 0 (sz_nnyq2 s + 1)).
  assert (In (k, n) L) by (apply pairs_In; lia).
  apply (local_assign pr _ (fun q => snd q * nz + fst q)%Z (fun q => val (fst q) (snd q)) L
    ) with (a := (k, n)); [| |  |assumption].
  - intros b [m' l'] j _. apply Ht.
  - apply pairs_NoDup.
  - intros [m1 l1] [m2 l2] I1 I2 E. apply pairs_In in I1, I2. cbn [fst snd] in E.
    apply flat_inj in E; try lia. destruct E; subst; reflexivity.
Qed.

Lemma v_cosmu : forall m l, (0 <= m <= sz_mnyq2 s)%Z -> (0 <= l < nTR)%Z ->
  bt_cosmu vtab (l * mq + m)%Z = cos (IZR m * ang nT l) * s2 m.
Proof. apply (vpol_tab bt_cosmu (fun m l => cos (IZR m * ang nT l) * s2 m)). reflexivity. intros. reflexivity. Qed.
Lemma v_sinmu : forall m l, (0 <= m <= sz_mnyq2 s)%Z -> (0 <= l < nTR)%Z ->
  bt_sinmu vtab (l * mq + m)%Z = sin (IZR m * ang nT l) * s2 m.
Proof. apply (vpol_tab bt_sinmu (fun m l => sin (IZR m * ang nT l) * s2 m)). reflexivity. intros. reflexivity. Qed.
Lemma v_cosmui : forall m l, (0 <= m <= sz_mnyq2 s)%Z -> (0 <= l < nTR)%Z ->
  bt_cosmui vtab (l * mq + m)%Z = half_end s l (cos (IZR m * ang nT l) * s2 m * norm_ s).
Proof. apply (vpol_tab bt_cosmui (fun m l => half_end s l (cos (IZR m * ang nT l) * s2 m * norm_ s))). reflexivity.
  intros. unfold poloidal_entry, half_end. cbn [bt_cosmui PoloidalBasisIndex]. unfold upd.
  rewrite Z.eqb_refl. destruct ((l =? 0)%Z || (l =? nTR - 1)%Z); destruct (Z.eqb_spec j (l * mq + m)); rewrite ?Z.eqb_refl; reflexivity. Qed.
Lemma v_sinmui : forall m l, (0 <= m <= sz_mnyq2 s)%Z -> (0 <= l < nTR)%Z ->
  bt_sinmui vtab (l * mq + m)%Z = sin (IZR m * ang nT l) * s2 m * norm_ s.
Proof. apply (vpol_tab bt_sinmui (fun m l => sin (IZR m * ang nT l) * s2 m * norm_ s)). reflexivity.
  intros. unfold poloidal_entry. cbn [bt_sinmui PoloidalBasisIndex]. unfold upd.
  rewrite Z.eqb_refl. reflexivity. Qed.
Lemma v_cosmum : forall m l, (0 <= m <= sz_mnyq2 s)%Z -> (0 <= l < nTR)%Z ->
  bt_cosmum vtab (l * mq + m)%Z = IZR m * (cos (IZR m * ang nT l) * s2 m).
Proof. apply (vpol_tab bt_cosmum (fun m l => IZR m * (cos (IZR m * ang nT l) * s2 m))). reflexivity.
  intros. unfold poloidal_entry. cbn [bt_cosmum PoloidalBasisIndex]. unfold upd.
  rewrite Z.eqb_refl. reflexivity. Qed.
Lemma v_sinmum : forall m l, (0 <= m <= sz_mnyq2 s)%Z -> (0 <= l < nTR)%Z ->
  bt_sinmum vtab (l * mq + m)%Z = IZR (- m) * (sin (IZR m * ang nT l) * s2 m).
Proof. apply (vpol_tab bt_sinmum (fun m l => IZR (- m) * (sin (IZR m * ang nT l) * s2 m))). reflexivity.
  intros. unfold poloidal_entry. cbn [bt_sinmum PoloidalBasisIndex]. unfold upd.
  rewrite Z.eqb_refl. reflexivity. Qed.
Lemma v_cosnv : forall k n, (0 <= k < nz)%Z -> (0 <= n <= sz_nnyq2 s)%Z ->
  bt_cosnv vtab (n * nz + k)%Z = cos (IZR n * ang nz k) * s2 n.
Proof. apply (vtor_tab bt_cosnv (fun k n => cos (IZR n * ang nz k) * s2 n)). intros. reflexivity. Qed.
Lemma v_sinnv : forall k n, (0 <= k < nz)%Z -> (0 <= n <= sz_nnyq2 s)%Z ->
  bt_sinnv vtab (n * nz + k)%Z = sin (IZR n * ang nz k) * s2 n.
Proof. apply (vtor_tab bt_sinnv (fun k n => sin (IZR n * ang nz k) * s2 n)). intros. reflexivity. Qed.
Lemma v_cosnvn : forall k n, (0 <= k < nz)%Z -> (0 <= n <= sz_nnyq2 s)%Z ->
  bt_cosnvn vtab (n * nz + k)%Z = IZR (n * sz_nfp s) * (cos (IZR n * ang nz k) * s2 n).
Proof. apply (vtor_tab bt_cosnvn (fun k n => IZR (n * sz_nfp s) * (cos (IZR n * ang nz k) * s2 n))).
  intros. unfold toroidal_entry. cbn [bt_cosnvn ToroidalBasisIndex]. unfold upd. rewrite Z.eqb_refl. reflexivity. Qed.
Lemma v_sinnvn : forall k n, (0 <= k < nz)%Z -> (0 <= n <= sz_nnyq2 s)%Z ->
  bt_sinnvn vtab (n * nz + k)%Z = IZR (- n * sz_nfp s) * (sin (IZR n * ang nz k) * s2 n).
Proof. apply (vtor_tab bt_sinnvn (fun k n => IZR (- n * sz_nfp s) * (sin (IZR n * ang nz k) * s2 n))).
  intros. unfold toroidal_entry. cbn [bt_sinnvn ToroidalBasisIndex]. unfold upd. rewrite Z.eqb_refl. reflexivity. Qed.
End VTab.
