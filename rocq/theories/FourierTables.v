(** Mode tables, basis tables and sizes. *)
From Coq Require Import ZArith List Bool Reals Lra Lia.
From Verif Require Import Base BaseLemmas SumLemmas SizesModel FourierModel FourierSpec FourierProofs.
Import ListNotations.
Open Scope Z_scope.

Lemma mode_pos_range mpol ntor m n : 0 <= ntor -> valid_mode mpol ntor m n ->
  0 <= mode_pos ntor m n < n_modes mpol ntor.
Proof.
  intros Hn (Hm & Hn' & H0). unfold mode_pos, n_modes. destruct (Z.eqb_spec m 0); [subst; nia|nia].
Qed.
Lemma mode_pos_surj mpol ntor i : 1 <= mpol -> 0 <= ntor -> 0 <= i < n_modes mpol ntor ->
  exists m n, valid_mode mpol ntor m n /\ mode_pos ntor m n = i.
Proof.
  intros Hm Hn Hi. unfold n_modes in Hi. destruct (Z.le_gt_cases i ntor) as [L|L].
  - exists 0, i. unfold valid_mode, mode_pos. cbn. repeat split; lia.
  - set (k := i - (ntor + 1)). set (d := 2 * ntor + 1).
    pose proof (Z.div_mod k d ltac:(lia)) as DM. pose proof (Z.mod_pos_bound k d ltac:(lia)) as MB.
    assert (0 <= k / d) by (apply Z.div_pos; lia).
    assert (k / d < mpol - 1) by (apply Z.div_lt_upper_bound; subst k d; lia).
    exists (k / d + 1), (k mod d - ntor). unfold valid_mode, mode_pos.
    destruct (Z.eqb_spec (k / d + 1) 0); [lia|]. repeat split; subst k d; lia.
Qed.
Lemma mode_pos_inj mpol ntor m n m' n' : 0 <= ntor -> valid_mode mpol ntor m n -> valid_mode mpol ntor m' n' ->
  mode_pos ntor m n = mode_pos ntor m' n' -> m = m' /\ n = n'.
Proof.
  intros Hn (A & B & C) (A' & B' & C') E. unfold mode_pos in E.
  destruct (Z.eqb_spec m 0), (Z.eqb_spec m' 0); subst.
  - auto.
  - exfalso. nia.
  - exfalso. nia.
  - assert (E2 : ((m - 1) * (2 * ntor + 1) + (n + ntor) = (m' - 1) * (2 * ntor + 1) + (n' + ntor))%Z) by lia.
    apply (flat_inj (2 * ntor + 1)) in E2; lia.
Qed.
Lemma mnIdx_pos ntor mpol m n : valid_mode mpol ntor m n -> mnIdx ntor m n = Some (mode_pos ntor m n).
Proof.
  intros (A & B & C). unfold mnIdx, mode_pos. destruct (Z.eqb_spec m 0); [|reflexivity].
  destruct (Z.ltb_spec n 0); [lia|reflexivity].
Qed.
Lemma tables_spec ns ms nfp : 0 <= ns -> 1 <= ms ->
  let r := computeConversionIndices ns ms nfp in
  fst r = n_modes ms ns /\
  forall m n, valid_mode ms ns m n ->
    fst (snd r) (mode_pos ns m n) = m /\ snd (snd r) (mode_pos ns m n) = n * nfp.
Proof.
  intros Hn Hm r.
  assert (E := conv_fold ns ms 0
    (fun n mn (t : (Z -> Z) * (Z -> Z)) => (upd (fst t) mn 0, upd (snd t) mn (n * nfp)))
    (fun m n mn t => (upd (fst t) mn m, upd (snd t) mn (n * nfp))) (fun _ => 0, fun _ => 0) Hn Hm ltac:(lia)).
  set (md := map (fun n => (0, n)) (zrange 0 (ns + 1)) ++ pairs 1 ms (- ns) (ns + 1)).
  assert (G : forall (pr : (Z -> Z) * (Z -> Z) -> Z -> Z) (v : Z * Z -> Z),
     (forall t m n mn, pr (upd (fst t) mn m, upd (snd t) mn (n * nfp)) = upd (pr t) mn (v (m, n))) ->
     pr (snd r) = fold_left (fun t q => upd t (mode_pos ns (fst q) (snd q)) (v q)) md (pr (fun _ => 0, fun _ => 0))).
  { intros pr v Hpr. unfold r. unfold computeConversionIndices. rewrite E. cbn [snd].
    unfold md. rewrite fold_left_app, fold_map.
    rewrite (fold_project pr _ (fun t q => upd t (mode_pos ns (fst q) (snd q)) (v q))).
    - f_equal. unfold for_up. apply (fold_project pr). intros. apply Hpr.
    - intros t (m, n) Hq. rewrite Hpr. cbn [fst snd]. apply pairs_In in Hq. rewrite (pos_mpos ns) by lia. reflexivity. }
  split; [unfold r, computeConversionIndices; rewrite E; reflexivity|].
  assert (V : forall q, In q md <-> valid_mode ms ns (fst q) (snd q)).
  { intros (m, n). unfold md. rewrite in_app_iff, in_map_iff, pairs_In. unfold valid_mode. cbn [fst snd]. split.
    - intros [(x & EE & H)|H]; [injection EE as <- <-; apply zrange_In in H; lia|lia].
    - intros H. destruct (Z.eq_dec m 0); [left; exists n; subst; split; auto; apply zrange_In; lia|right; lia]. }
  intros m n H. split.
  - rewrite (G fst fst) by reflexivity.
    apply (assign_get md (fun q => mode_pos ns (fst q) (snd q)) fst _ (m, n)); [|apply V; auto].
    intros p q Hp Hq EE. apply V in Hp. apply V in Hq. apply (mode_pos_inj ms) in EE; tauto.
  - rewrite (G snd (fun q => snd q * nfp)) by reflexivity.
    apply (assign_get md (fun q => mode_pos ns (fst q) (snd q)) (fun q => snd q * nfp) _ (m, n)); [|apply V; auto].
    intros p q Hp Hq EE. apply V in Hp. apply V in Hq. apply (mode_pos_inj ms) in EE; auto. destruct EE as (_ & ->). reflexivity.
Qed.

(** ** Sizes *)
Lemma even_quot a : Z.quot (2 * a) 2 = a.
Proof. rewrite Z.mul_comm. apply Z.quot_mul. lia. Qed.
Lemma quot2_bounds a : 0 <= a -> 2 * Z.quot a 2 <= a < 2 * Z.quot a 2 + 2.
Proof. intros. pose proof (Z.quot_rem' a 2). pose proof (Z.rem_bound_pos a 2). lia. Qed.

Lemma wint_at lasym nZ nTR nTE nEff l : 0 <= l < nEff ->
  wint lasym nZ nTR nTE nEff l =
  if negb lasym && ((l =? 0) || (l =? nTR - 1)) then (dnorm3 lasym nZ nTR nTE / 2)%R else dnorm3 lasym nZ nTR nTE.
Proof.
  intros H. unfold wint. generalize (fun _ : Z => 0%R). intros w0.
  assert (G : forall k, 0 <= k -> forall i, 0 <= i < k ->
     for_up 0 k (fun l (w : Z -> R) => let w := upd w l (dnorm3 lasym nZ nTR nTE) in
        if negb lasym && ((l =? 0) || (l =? nTR - 1)) then upd w l (w l / 2)%R else w) w0 i =
     if negb lasym && ((i =? 0) || (i =? nTR - 1)) then (dnorm3 lasym nZ nTR nTE / 2)%R else dnorm3 lasym nZ nTR nTE).
  { intros k Hk. pattern k. apply natlike_ind; [intros; lia| |auto]. intros x Hx IH j Hj.
    unfold Z.succ. rewrite for_up_snoc by lia. cbv zeta. destruct (Z.eq_dec j x) as [->|N].
    - destruct (negb lasym && _); unfold upd; rewrite !Z.eqb_refl; reflexivity.
    - destruct (negb lasym && ((x =? 0) || (x =? nTR - 1))); unfold upd; destruct (Z.eqb_spec j x); try lia; apply IH; lia. }
  apply G; lia.
Qed.
Open Scope R_scope.
Lemma wint_sum (lasym : bool) nZ nTE : (1 <= nZ)%Z -> (2 <= nTE)%Z -> (nTE = 2 * Z.quot nTE 2)%Z ->
  let nTR := (Z.quot nTE 2 + 1)%Z in
  let nEff := if lasym then nTE else nTR in
  IZR nZ * zsum 0 nEff (wint lasym nZ nTR nTE nEff) = 1.
Proof.
  intros HZ HT HE nTR nEff.
  rewrite (zsum_ext 0 nEff _ (fun l => if negb lasym && ((l =? 0)%Z || (l =? nTR - 1)%Z) then (dnorm3 lasym nZ nTR nTE / 2)%R else dnorm3 lasym nZ nTR nTE))
    by (intros; apply wint_at; auto).
  assert (PZ : IZR nZ <> 0) by (apply not_0_IZR; lia).
  destruct lasym; cbn [negb andb].
  - unfold nEff. rewrite zsum_const by lia. unfold dnorm3. rewrite mult_IZR, Z.sub_0_r.
    field. split; auto. apply not_0_IZR; lia.
  - unfold nEff. unfold nTR at 1.
    set (L := Z.quot nTE 2) in *. assert (1 <= L)%Z by lia.
    rewrite zsum_snoc, (zsum_cons 0 L) by lia. replace (nTR - 1)%Z with L by (unfold nTR; lia).
    rewrite (zsum_ext (0 + 1) L _ (fun _ => dnorm3 false nZ nTR nTE)).
    + rewrite zsum_const by lia. cbn [Z.eqb orb]. rewrite Z.eqb_refl, orb_true_r.
      unfold dnorm3. replace (nTR - 1)%Z with L by (unfold nTR; lia). rewrite mult_IZR, minus_IZR.
      cbn [IZR Z.add]. field. split; auto. apply not_0_IZR; lia.
    + intros j Hj. destruct (Z.eqb_spec j 0), (Z.eqb_spec j L); try lia. reflexivity.
Qed.
Close Scope R_scope.
