From Coq Require Import ZArith List Bool Reals Lia Lra.
From Verif Require Import Base BaseLemmas SumLemmas SizesModel FourierModel FourierSpec FourierProofs TrigSums
  PartModel DftModel DftSpec DftTables DftProofs DftGeo DftForces DftFold DftFinal LapMain FiltModel FiltSpec FiltProofs.
Import ListNotations.
Open Scope R_scope.

(** A matrix filled row by row. *)
Lemma rows_at {S T} (pr : Z -> S -> T) (idx : Z -> Z -> Z) (w : Z -> Z -> S -> S) (v : Z -> Z -> T) num N st j q :
  (forall j kl st, (0 <= kl < N)%Z -> pr (idx j kl) (w j kl st) = v j kl) ->
  (forall j kl st i, i <> idx j kl -> pr i (w j kl st) = pr i st) ->
  (forall j kl j' kl', (0 <= kl < N)%Z -> (0 <= kl' < N)%Z -> idx j kl = idx j' kl' -> j = j' /\ kl = kl') ->
  (0 <= j < num)%Z -> (0 <= q < N)%Z ->
  pr (idx j q) (for_up 0 num (fun j st => for_up 0 N (fun kl st => w j kl st) st) st) = v j q.
Proof.
  intros H1 H2 H3 Hj Hq. apply (for_up_set (pr (idx j q)) _ 0 num j); [exact Hj| |].
  - intros st'. apply (for_up_set (pr (idx j q)) _ 0 N q); [exact Hq| |].
    + intros. apply H1. exact Hq.
    + intros x s' Hx Ne. apply H2. intros E. apply H3 in E; [lia|assumption..].
  - intros x s' Hx Ne. apply for_up_keep. intros y s'' Hy. apply H2. intros E. apply H3 in E; [lia|assumption..].
Qed.

Section F.
Variable s : sizes.
Hypothesis OK : sz_ok s.
Hypothesis NY1 : (sz_mpol s <= sz_mnyq s)%Z.
Hypothesis NY2 : (0 < sz_ntor s)%Z -> (sz_ntor s < sz_nnyq s)%Z.
Variable b0 : basis_tables.
Local Notation t := (tab s b0).
Local Notation mpol := (sz_mpol s).
Local Notation ntor := (sz_ntor s).
Local Notation nfp := (sz_nfp s).
Local Notation nz := (sz_nZeta s).
Local Notation nTR := (sz_nThetaReduced s).
Local Notation nT := (sz_nThetaEven s).
Local Notation nTE := (sz_nThetaEff s).
Local Notation nZr := (nZnT_reduced s).
Local Notation nZnT := (sz_nZnT s).
Local Notation rk := (rk s).
Local Notation rl := (rl s).
Local Notation rp := (rp s).

Lemma at_pt_flat j k l : at_pt s j k l = (j * nZnT + (k * nTE + l))%Z.
Proof. unfold at_pt. rewrite (so_nZnT s OK). ring. Qed.
Lemma nZr_eq : nZr = (nz * nTR)%Z. Proof. unfold nZnT_reduced. ring. Qed.
Lemma q_in k l : (0 <= k < nz)%Z -> (0 <= l < nTR)%Z -> (0 <= k * nTR + l < nZr)%Z.
Proof. intros Hk Hl. rewrite nZr_eq. nia. Qed.
Lemma rev_eq k l : (0 <= k < nz)%Z -> (0 <= l < nTR)%Z -> kl_reversed s (k * nTR + l) = (rk k * nT + rl l)%Z.
Proof.
  intros Hk Hl. unfold kl_reversed. destruct (rp_quot s k l Hk Hl) as [-> ->]. cbv zeta.
  pose proof (so_nT s OK). pose proof (so_nTR s OK).
  rewrite !Z.rem_mod_nonneg by lia. reflexivity.
Qed.
Lemma flat_row N j kl j' kl' : (0 <= kl < N)%Z -> (0 <= kl' < N)%Z -> (j * N + kl = j' * N + kl')%Z -> j = j' /\ kl = kl'.
Proof. intros A B E. apply flat_inj in E; [exact E|lia|lia]. Qed.

(** ** the parts *)
Section Asym.
Hypothesis LA : sz_lasym s = true.
Lemma TE_la : nTE = nT. Proof. rewrite (so_nTE s OK), LA. reflexivity. Qed.
Lemma decomposeU_at num b j k l : (0 <= j < num)%Z -> (0 <= k < nz)%Z -> (0 <= l < nTR)%Z ->
  fst (decomposeU s num b) (rp j k l) = 1 / 2 * (b (at_pt s j k l) + b (at_pt s j (rk k) (rl l))) /\
  snd (decomposeU s num b) (rp j k l) = 1 / 2 * (b (at_pt s j k l) - b (at_pt s j (rk k) (rl l))).
Proof.
  intros Hj Hk Hl. rewrite !at_pt_flat, TE_la, <- rev_eq by assumption. unfold FiltProofs.rp, decomposeU.
  pose proof (q_in k l Hk Hl) as Hq. destruct (rp_quot s k l Hk Hl) as [Q1 Q2].
  split.
  - rewrite (rows_at (fun i (p : (Z -> R) * (Z -> R)) => fst p i) (fun j kl => j * nZr + kl)%Z
      (fun j kl p => (upd (fst p) (j * nZr + kl)%Z (1 / 2 * (b (j * nZnT + (Z.quot kl nTR * nT + Z.rem kl nTR))%Z + b (j * nZnT + kl_reversed s kl)%Z)),
        upd (snd p) (j * nZr + kl)%Z (1 / 2 * (b (j * nZnT + (Z.quot kl nTR * nT + Z.rem kl nTR))%Z - b (j * nZnT + kl_reversed s kl)%Z))))
      (fun j kl => 1 / 2 * (b (j * nZnT + (Z.quot kl nTR * nT + Z.rem kl nTR))%Z + b (j * nZnT + kl_reversed s kl)%Z))
      num nZr).
    + rewrite Q1, Q2. reflexivity.
    + intros. cbn [fst]. apply upd_eq.
    + intros. cbn [fst]. apply upd_neq. assumption.
    + intros j1 q1 j2 q2 A B. apply flat_row; assumption.
    + exact Hj.
    + exact Hq.
  - rewrite (rows_at (fun i (p : (Z -> R) * (Z -> R)) => snd p i) (fun j kl => j * nZr + kl)%Z
      (fun j kl p => (upd (fst p) (j * nZr + kl)%Z (1 / 2 * (b (j * nZnT + (Z.quot kl nTR * nT + Z.rem kl nTR))%Z + b (j * nZnT + kl_reversed s kl)%Z)),
        upd (snd p) (j * nZr + kl)%Z (1 / 2 * (b (j * nZnT + (Z.quot kl nTR * nT + Z.rem kl nTR))%Z - b (j * nZnT + kl_reversed s kl)%Z))))
      (fun j kl => 1 / 2 * (b (j * nZnT + (Z.quot kl nTR * nT + Z.rem kl nTR))%Z - b (j * nZnT + kl_reversed s kl)%Z))
      num nZr).
    + rewrite Q1, Q2. reflexivity.
    + intros. cbn [snd]. apply upd_eq.
    + intros. cbn [snd]. apply upd_neq. assumption.
    + intros j1 q1 j2 q2 A B. apply flat_row; assumption.
    + exact Hj.
    + exact Hq.
Qed.
Lemma decomposeS_at num b j k l : (0 <= j < num)%Z -> (0 <= k < nz)%Z -> (0 <= l < nTR)%Z ->
  fst (decomposeS s num b) (rp j k l) = 1 / 2 * (b (j * nZnT + (k * nTR + l))%Z - b (at_pt s j (rk k) (rl l))) /\
  snd (decomposeS s num b) (rp j k l) = 1 / 2 * (b (j * nZnT + (k * nTR + l))%Z + b (at_pt s j (rk k) (rl l))).
Proof.
  intros Hj Hk Hl. rewrite !at_pt_flat, TE_la, <- rev_eq by assumption. unfold FiltProofs.rp, decomposeS.
  pose proof (q_in k l Hk Hl) as Hq.
  split.
  - rewrite (rows_at (fun i (p : (Z -> R) * (Z -> R)) => fst p i) (fun j kl => j * nZr + kl)%Z
      (fun j kl p => (upd (fst p) (j * nZr + kl)%Z (1 / 2 * (b (j * nZnT + kl)%Z - b (j * nZnT + kl_reversed s kl)%Z)),
        upd (snd p) (j * nZr + kl)%Z (1 / 2 * (b (j * nZnT + kl)%Z + b (j * nZnT + kl_reversed s kl)%Z))))
      (fun j kl => 1 / 2 * (b (j * nZnT + kl)%Z - b (j * nZnT + kl_reversed s kl)%Z))
      num nZr).
    + reflexivity.
    + intros. cbn [fst]. apply upd_eq.
    + intros. cbn [fst]. apply upd_neq. assumption.
    + intros j1 q1 j2 q2 A B. apply flat_row; assumption.
    + exact Hj.
    + exact Hq.
  - rewrite (rows_at (fun i (p : (Z -> R) * (Z -> R)) => snd p i) (fun j kl => j * nZr + kl)%Z
      (fun j kl p => (upd (fst p) (j * nZr + kl)%Z (1 / 2 * (b (j * nZnT + kl)%Z - b (j * nZnT + kl_reversed s kl)%Z)),
        upd (snd p) (j * nZr + kl)%Z (1 / 2 * (b (j * nZnT + kl)%Z + b (j * nZnT + kl_reversed s kl)%Z))))
      (fun j kl => 1 / 2 * (b (j * nZnT + kl)%Z + b (j * nZnT + kl_reversed s kl)%Z))
      num nZr).
    + reflexivity.
    + intros. cbn [snd]. apply upd_eq.
    + intros. cbn [snd]. apply upd_neq. assumption.
    + intros j1 q1 j2 q2 A B. apply flat_row; assumption.
    + exact Hj.
    + exact Hq.
Qed.

Definition ext_val (fs fa : Z -> R) (j k l : Z) : R :=
  if (l <? nTR)%Z then fs (rp j k l) + fa (rp j k l) else fs (rp j (rk k) (rl l)) - fa (rp j (rk k) (rl l)).
Lemma full_row j k l j' k' l' : (0 <= k < nz)%Z -> (0 <= l < nTE)%Z -> (0 <= k' < nz)%Z -> (0 <= l' < nTE)%Z ->
  (j * nZnT + (k * nTE + l) = j' * nZnT + (k' * nTE + l'))%Z -> j = j' /\ k = k' /\ l = l'.
Proof.
  intros Hk Hl Hk' Hl' E. assert (E' : at_pt s j k l = at_pt s j' k' l') by (rewrite !at_pt_flat; exact E).
  rewrite !at_pt_flat in E'. apply flat_inj in E'.
  - destruct E' as [-> E']. apply flat_inj in E'; [tauto|lia|lia].
  - rewrite (so_nZnT s OK). nia.
  - rewrite (so_nZnT s OK). nia.
Qed.
Lemma ends : (nTR <= nT)%Z /\ (1 < nTR)%Z.
Proof. pose proof (so_nT s OK). pose proof (so_nTR s OK). lia. Qed.
Lemma extendU_at num fs fa a0 j k l : (0 <= j < num)%Z -> (0 <= k < nz)%Z -> (0 <= l < nTE)%Z ->
  extendU s num fs fa a0 (at_pt s j k l) = ext_val fs fa j k l.
Proof.
  intros Hj Hk Hl. destruct ends as [E1 E2]. rewrite at_pt_flat. unfold extendU.
  assert (Hl2 := Hl). rewrite TE_la in Hl2.
  apply (for_up_set (fun a : Z -> R => a (j * nZnT + (k * nTE + l))%Z) _ 0 num j); [exact Hj| |].
  2:{ intros j' a Hj' Ne. apply (for_up_keep (fun a : Z -> R => a (j * nZnT + (k * nTE + l))%Z)). intros k' a' Hk'.
    rewrite (for_up_keep (fun a : Z -> R => a (j * nZnT + (k * nTE + l))%Z)).
    2:{ intros l' a'' Hl'. apply upd_neq. intros E. apply full_row in E; [lia|try lia; rewrite ?TE_la; lia..]. }
    apply (for_up_keep (fun a : Z -> R => a (j * nZnT + (k * nTE + l))%Z)).
    intros l' a'' Hl'. apply upd_neq. intros E. apply full_row in E; [lia|try lia; rewrite ?TE_la; lia..]. }
  intros a. apply (for_up_set (fun a : Z -> R => a (j * nZnT + (k * nTE + l))%Z) _ 0 nz k); [exact Hk| |].
  2:{ intros k' a' Hk' Ne.
    rewrite (for_up_keep (fun a : Z -> R => a (j * nZnT + (k * nTE + l))%Z)).
    2:{ intros l' a'' Hl'. apply upd_neq. intros E. apply full_row in E; [lia|try lia; rewrite ?TE_la; lia..]. }
    apply (for_up_keep (fun a : Z -> R => a (j * nZnT + (k * nTE + l))%Z)).
    intros l' a'' Hl'. apply upd_neq. intros E. apply full_row in E; [lia|try lia; rewrite ?TE_la; lia..]. }
  clear a. intros a. unfold ext_val. destruct (Z.ltb_spec l nTR) as [L|L].
  - rewrite (for_up_keep (fun a : Z -> R => a (j * nZnT + (k * nTE + l))%Z)).
    2:{ intros l' a'' Hl'. apply upd_neq. intros E. apply full_row in E; [lia|try lia; rewrite ?TE_la; lia..]. }
    apply (for_up_set (fun a : Z -> R => a (j * nZnT + (k * nTE + l))%Z) _ 0 nTR l); [lia| |].
    + intros a'. cbv zeta. apply upd_eq.
    + intros l' a'' Hl' Ne. apply upd_neq. intros E. apply full_row in E; [lia|try lia; rewrite ?TE_la; lia..].
  - apply (for_up_set (fun a : Z -> R => a (j * nZnT + (k * nTE + l))%Z) _ nTR nT l); [lia| |].
    + intros a'. cbv zeta. rewrite upd_eq. rewrite !Z.rem_mod_nonneg by lia. reflexivity.
    + intros l' a'' Hl' Ne. apply upd_neq. intros E. apply full_row in E; [lia|try lia; rewrite ?TE_la; lia..].
Qed.
Lemma extendS_at num fs fa a0 j k l : (0 <= j < num)%Z -> (0 <= k < nz)%Z -> (0 <= l < nTE)%Z ->
  extendS s num fs fa a0 (at_pt s j k l) = ext_val fs fa j k l.
Proof.
  intros Hj Hk Hl. destruct ends as [E1 E2]. rewrite at_pt_flat. unfold extendS.
  assert (Hl2 := Hl). rewrite TE_la in Hl2.
  apply (for_up_set (fun a : Z -> R => a (j * nZnT + (k * nTE + l))%Z) _ 0 num j); [exact Hj| |].
  2:{ intros j' a Hj' Ne. apply (for_up_keep (fun a : Z -> R => a (j * nZnT + (k * nTE + l))%Z)). intros k' a' Hk'.
    rewrite (for_up_keep (fun a : Z -> R => a (j * nZnT + (k * nTE + l))%Z)).
    2:{ intros l' a'' Hl'. apply upd_neq. intros E. apply full_row in E; [lia|try lia; rewrite ?TE_la; lia..]. }
    apply (for_up_keep (fun a : Z -> R => a (j * nZnT + (k * nTE + l))%Z)).
    intros l' a'' Hl'. apply upd_neq. intros E. apply full_row in E; [lia|try lia; rewrite ?TE_la; lia..]. }
  intros a. apply (for_up_set (fun a : Z -> R => a (j * nZnT + (k * nTE + l))%Z) _ 0 nz k); [exact Hk| |].
  2:{ intros k' a' Hk' Ne.
    rewrite (for_up_keep (fun a : Z -> R => a (j * nZnT + (k * nTE + l))%Z)).
    2:{ intros l' a'' Hl'. apply upd_neq. intros E. apply full_row in E; [lia|try lia; rewrite ?TE_la; lia..]. }
    apply (for_up_keep (fun a : Z -> R => a (j * nZnT + (k * nTE + l))%Z)).
    intros l' a'' Hl'. apply upd_neq. intros E. apply full_row in E; [lia|try lia; rewrite ?TE_la; lia..]. }
  clear a. intros a. unfold ext_val. destruct (Z.ltb_spec l nTR) as [L|L].
  - apply (for_up_set (fun a : Z -> R => a (j * nZnT + (k * nTE + l))%Z) _ 0 nTR l); [lia| |].
    + intros a'. cbv zeta. apply upd_eq.
    + intros l' a'' Hl' Ne. apply upd_neq. intros E. apply full_row in E; [lia|try lia; rewrite ?TE_la; lia..].
  - rewrite (for_up_keep (fun a : Z -> R => a (j * nZnT + (k * nTE + l))%Z)).
    2:{ intros l' a'' Hl'. apply upd_neq. intros E. apply full_row in E; [lia|try lia; rewrite ?TE_la; lia..]. }
    apply (for_up_set (fun a : Z -> R => a (j * nZnT + (k * nTE + l))%Z) _ nTR nT l); [lia| |].
    + intros a'. cbv zeta. rewrite upd_eq. rewrite !Z.rem_mod_nonneg by lia. reflexivity.
    + intros l' a'' Hl' Ne. apply upd_neq. intros E. apply full_row in E; [lia|try lia; rewrite ?TE_la; lia..].
Qed.

(** the reflected point of the upper half lies in the lower half *)
Lemma rl_low l : (nTR <= l < nT)%Z -> (0 <= rl l < nTR)%Z.
Proof. intros H. destruct ends. pose proof (so_nT s OK). unfold DftFold.rl. rewrite Z.mod_small by lia. lia. Qed.

(** projections of the two parts *)
Lemma part_component f src j (asy : bool) c b m n : c <> cL -> In b (pkinds asy c) ->
  (forall k l, (0 <= k < nz)%Z -> (0 <= l < nTR)%Z -> src (rp j k l) = 1 / 2 * (f k l + sgn_q asy (c_A c) * f (rk k) (rl l))) ->
  red_avg s (fun k l => src (rp j k l) * Phi nfp b m n (theta_pt s l) (phi_pt s k)) = component s f b m n.
Proof.
  intros Hc Hb Hs. apply (red_part s OK LA (sgn_q asy (c_A c)) f (fun k l => Phi nfp b m n (theta_pt s l) (phi_pt s k))).
  - apply sgn_sq.
  - intros k l Hk Hl. destruct (Phi_refl s OK asy c b m n k l Hb Hk Hl) as (A & _). exact (A Hc).
  - intros k l Hk Hl. rewrite Hs by assumption. reflexivity.
Qed.
End Asym.

(** ** copies *)
Section Sym.
Hypothesis LA : sz_lasym s = false.
Lemma TE_ls : nTE = nTR. Proof. rewrite (so_nTE s OK), LA. reflexivity. Qed.
Lemma nZr_nZnT : nZr = nZnT. Proof. rewrite nZr_eq, (so_nZnT s OK), TE_ls. reflexivity. Qed.
Lemma rp_at j k l : rp j k l = at_pt s j k l.
Proof. unfold FiltProofs.rp. rewrite at_pt_flat, nZr_nZnT, TE_ls. reflexivity. Qed.
Lemma copy_at num N b j k l : N = nZnT -> (0 <= j < num)%Z -> (0 <= k < nz)%Z -> (0 <= l < nTR)%Z ->
  copyRows s num N b (rp j k l) = b (at_pt s j k l).
Proof.
  intros -> Hj Hk Hl. unfold FiltProofs.rp, copyRows. pose proof (q_in k l Hk Hl) as Hq. rewrite nZr_nZnT in *.
  rewrite (rows_at (fun i (p : Z -> R) => p i) (fun j kl => j * nZnT + kl)%Z
      (fun j kl p => upd p (j * nZnT + kl)%Z (b (j * nZnT + kl)%Z)) (fun j kl => b (j * nZnT + kl)%Z) num nZnT).
  - rewrite at_pt_flat, TE_ls. reflexivity.
  - intros. apply upd_eq.
  - intros. apply upd_neq. assumption.
  - intros j1 q1 j2 q2 A B. apply flat_row; assumption.
  - exact Hj.
  - exact Hq.
Qed.
Lemma overwrite_at num f a0 j k l : (0 <= j < num)%Z -> (0 <= k < nz)%Z -> (0 <= l < nTR)%Z ->
  overwrite s num f a0 (at_pt s j k l) = f (rp j k l).
Proof.
  intros Hj Hk Hl. rewrite <- rp_at. unfold FiltProofs.rp, overwrite. pose proof (q_in k l Hk Hl) as Hq. rewrite nZr_nZnT in *.
  rewrite (rows_at (fun i (p : Z -> R) => p i) (fun j kl => j * nZnT + kl)%Z
      (fun j kl p => upd p (j * nZnT + kl)%Z (f (j * nZnT + kl)%Z)) (fun j kl => f (j * nZnT + kl)%Z) num nZnT).
  - reflexivity.
  - intros. apply upd_eq.
  - intros. apply upd_neq. assumption.
  - intros j1 q1 j2 q2 A B. apply flat_row; assumption.
  - exact Hj.
  - exact Hq.
Qed.
Lemma sym_component f src j b m n :
  (forall k l, (0 <= k < nz)%Z -> (0 <= l < nTR)%Z -> src (rp j k l) = f k l) ->
  red_avg s (fun k l => src (rp j k l) * Phi nfp b m n (theta_pt s l) (phi_pt s k)) = component s f b m n.
Proof.
  intros Hs. unfold component. rewrite <- (red_grid s OK _ LA). apply red_ext. intros k l Hk Hl. rewrite Hs by assumption. reflexivity.
Qed.
End Sym.

(** ** the filter *)
Definition psy (D : Z -> bk -> Z -> Z -> R -> R -> R) (f : Z -> Z -> R) (b : bk) (k l : Z) : R :=
  zsum 0 mpol (fun m => zsum 0 (ntor + 1) (fun n => component s f b m n * D nfp b m n (theta_pt s l) (phi_pt s k))).
Lemma synth_psy D f ks k l : synth s ks (component s f) D (theta_pt s l) (phi_pt s k) = rsum ks (fun b => psy D f b k l).
Proof. reflexivity. Qed.
Lemma sy_psy D f b src j k l :
  (forall m n, red_avg s (fun k l => src (rp j k l) * Phi nfp b m n (theta_pt s l) (phi_pt s k)) = component s f b m n) ->
  sy s D b src j k l = psy D f b k l.
Proof. intros H. apply zsum_ext. intros m _. apply zsum_ext. intros n _. rewrite H. reflexivity. Qed.
Lemma psy_refl D f b sg k l : (forall m n, D nfp b m n (theta_pt s (rl l)) (phi_pt s (rk k)) = sg * D nfp b m n (theta_pt s l) (phi_pt s k)) ->
  psy D f b (rk k) (rl l) = sg * psy D f b k l.
Proof.
  intros H. unfold psy. rewrite <- zsum_scale. apply zsum_ext. intros m _. rewrite <- zsum_scale. apply zsum_ext. intros n _.
  rewrite H. ring.
Qed.

Lemma filterU_at num b j k l : (0 <= j < num)%Z -> (0 <= k < nz)%Z -> (0 <= l < nTE)%Z ->
  surface s (filterU s t num b) j k l =
  synth s (parity_kinds (sz_lasym s) true) (component s (surface s b j)) Phi (theta_pt s l) (phi_pt s k).
Proof.
  intros Hj Hk Hl. unfold surface at 1. unfold filterU, decomposedU. rewrite synth_psy. case_eq (sz_lasym s); intros LA.
  - set (fs := fst (decomposeU s num b)). set (fa := snd (decomposeU s num b)). rewrite (extendU_at LA) by assumption.
    assert (C1 : forall b', In b' [b_cc; b_ss] -> forall m n,
      red_avg s (fun k l => fs (rp j k l) * Phi nfp b' m n (theta_pt s l) (phi_pt s k)) = component s (surface s b j) b' m n).
    { intros b' Hb m n. apply (part_component LA (surface s b j) fs j false cR); [discriminate|exact Hb|].
      intros k' l' Hk' Hl'. unfold fs. destruct (decomposeU_at LA num b j k' l' Hj Hk' Hl') as [-> _]. unfold surface, sgn_q. cbn. ring. }
    assert (C2 : forall b', In b' [b_sc; b_cs] -> forall m n,
      red_avg s (fun k l => fa (rp j k l) * Phi nfp b' m n (theta_pt s l) (phi_pt s k)) = component s (surface s b j) b' m n).
    { intros b' Hb m n. apply (part_component LA (surface s b j) fa j true cR); [discriminate|exact Hb|].
      intros k' l' Hk' Hl'. unfold fa. destruct (decomposeU_at LA num b j k' l' Hj Hk' Hl') as [_ ->]. unfold surface, sgn_q. cbn. ring. }
    assert (V : forall k' l', (0 <= k' < nz)%Z -> (0 <= l' < nTR)%Z ->
      filt_s s t num fs (rp j k' l') = psy Phi (surface s b j) b_cc k' l' + psy Phi (surface s b j) b_ss k' l' /\
      filt_a s t num fa (rp j k' l') = psy Phi (surface s b j) b_sc k' l' + psy Phi (surface s b j) b_cs k' l').
    { intros k' l' Hk' Hl'. rewrite (filt_s_at s OK NY1 NY2), (filt_a_at s OK NY1 NY2) by assumption.
      rewrite !(sy_psy Phi (surface s b j)) by (first [apply C1 | apply C2]; cbn; auto). split; reflexivity. }
    unfold ext_val. destruct (Z.ltb_spec l nTR) as [L|L].
    + destruct (V k l Hk ltac:(lia)) as [-> ->]. unfold parity_kinds. cbn. ring.
    + rewrite (TE_la LA) in Hl. destruct (V (rk k) (rl l) (rk_range s OK k) (rl_low l ltac:(lia))) as [-> ->].
      assert (PR : forall asy b', In b' (pkinds asy cR) -> psy Phi (surface s b j) b' (rk k) (rl l) = sgn_q asy (c_A cR) * psy Phi (surface s b j) b' k l).
      { intros asy b' Hb. apply psy_refl. intros m n. destruct (Phi_refl s OK asy cR b' m n k l Hb Hk ltac:(lia)) as (A & _). apply A. discriminate. }
      rewrite (PR false b_cc), (PR false b_ss), (PR true b_sc), (PR true b_cs) by (cbn; auto).
      unfold parity_kinds, sgn_q. cbn. ring.
  - rewrite (TE_ls LA) in Hl. cbn [fst snd]. rewrite (overwrite_at LA) by assumption.
    rewrite (filt_s_at s OK NY1 NY2) by assumption.
    rewrite !(sy_psy Phi (surface s b j)) by
      (intros; apply (sym_component LA); intros; apply (copy_at LA); [reflexivity|assumption..]).
    unfold parity_kinds. cbn. ring.
Qed.

(** exactness and averages *)
Lemma component_synth even x b m n : In b (parity_kinds (sz_lasym s) even) -> (0 <= m < mpol)%Z -> (0 <= n <= ntor)%Z ->
  component s (fun k l => synth s (parity_kinds (sz_lasym s) even) x Phi (theta_pt s l) (phi_pt s k)) b m n =
  if live b m n then x b m n else 0.
Proof.
  intros Hb Hm Hn. unfold component, synth, parity_kinds in *. set (c := if even then cR else cZ) in *.
  assert (NL : c <> cL) by (unfold c; destruct even; discriminate).
  set (P := fun b m n k l => Phi nfp b m n (theta_pt s l) (phi_pt s k)).
  transitivity (rsum (kinds (sz_lasym s) c) (fun b' => zsum 0 mpol (fun m' =>
    zsum 0 (ntor + 1) (fun n' => x b' m' n' * grid_avg s (fun k l => P b' m' n' k l * P b m n k l))))).
  - transitivity (grid_avg s (fun k l => rsum (kinds (sz_lasym s) c) (fun b' => zsum 0 mpol (fun m' =>
      zsum 0 (ntor + 1) (fun n' => x b' m' n' * (P b' m' n' k l * P b m n k l)))))).
    + apply grid_ext. intros k l _ _. rewrite <- rsum_scale_r. apply rsum_ext. intros b' _.
      rewrite <- zsum_scale_r. apply zsum_ext. intros m' _.
      rewrite <- zsum_scale_r. apply zsum_ext. intros n' _. unfold P. ring.
    + rewrite grid_rsum. apply rsum_ext. intros b' _. rewrite grid_zsum. apply zsum_ext. intros m' _.
      rewrite grid_zsum. apply zsum_ext. intros n' _. apply grid_scale.
  - assert (V : forall b' m' n', In b' (kinds (sz_lasym s) c) -> (0 <= m' < mpol)%Z -> (0 <= n' < ntor + 1)%Z ->
      grid_avg s (fun k l => P b' m' n' k l * P b m n k l) = if bk_eqb b b' && (m =? m')%Z && (n =? n')%Z && live b m n then 1 else 0).
    { intros b' m' n' Hb' Hm' Hn'. apply (grid_orth s OK c); auto; lia. }
    rewrite (rsum_one bk_eqb bk_eqb_spec _ b _ (kinds_nodup _ _) Hb).
    + rewrite (zsum_single 0 mpol m).
      * rewrite (zsum_single 0 (ntor + 1) n); [|lia|].
        -- rewrite V by (auto; lia). rewrite !Z.eqb_refl. destruct (bk_eqb_spec b b); [|congruence]. cbn [andb].
           destruct (live b m n); ring.
        -- intros n' Hn' NE. rewrite V by (auto; lia). destruct (Z.eqb_spec n n'); [congruence|].
           rewrite andb_false_r. cbn [andb]. ring.
      * lia.
      * intros m' Hm' NE. apply zsum_zero. intros n' Hn'.
        rewrite V by (auto; lia). destruct (Z.eqb_spec m m'); [congruence|]. rewrite andb_false_r. cbn [andb]. ring.
    + intros b' Hb' NE. apply zsum_zero. intros m' Hm'. apply zsum_zero. intros n' Hn'.
      rewrite V by (auto; lia). destruct (bk_eqb_spec b b'); [congruence|]. cbn [andb]. ring.
Qed.
Lemma dead_zero b m n theta phi : live b m n = false ->
  Phi nfp b m n theta phi = 0 /\ Phi_theta nfp b m n theta phi = 0 /\ Phi_phi nfp b m n theta phi = 0.
Proof.
  intros H. unfold Phi, Phi_theta, Phi_phi.
  assert (C : (b <> b_cc /\ b <> b_cs /\ m = 0%Z) \/ (b <> b_cc /\ b <> b_sc /\ n = 0%Z)).
  { destruct b; cbn in H; [discriminate|..]; destruct (Z.eqb_spec m 0), (Z.eqb_spec n 0); cbn in H; try discriminate;
    first [left; repeat split; [discriminate..|assumption] | right; repeat split; [discriminate..|assumption]]. }
  destruct C as [(N1 & N2 & ->)|(N1 & N2 & ->)].
  - assert (E : in_theta b (0 * theta) = 0) by (destruct b; try congruence; cbn; rewrite Rmult_0_l; apply sin_0).
    rewrite E. split; [ring|split; ring].
  - assert (E : in_zeta b (0 * (IZR nfp * phi)) = 0) by (destruct b; try congruence; cbn; rewrite Rmult_0_l; apply sin_0).
    rewrite E. rewrite Z.mul_0_l. split; [ring|split; ring].
Qed.
Lemma component_ext f g b m n : (forall k l, (0 <= k < nz)%Z -> (0 <= l < nTE)%Z -> f k l = g k l) -> component s f b m n = component s g b m n.
Proof. intros H. apply grid_ext. intros. rewrite H by assumption. reflexivity. Qed.
Lemma synth_exact even x f D theta phi :
  (forall b m n theta phi, live b m n = false -> D nfp b m n theta phi = 0) ->
  (forall k l, (0 <= k < nz)%Z -> (0 <= l < nTE)%Z -> f k l = synth s (parity_kinds (sz_lasym s) even) x Phi (theta_pt s l) (phi_pt s k)) ->
  synth s (parity_kinds (sz_lasym s) even) (component s f) D theta phi = synth s (parity_kinds (sz_lasym s) even) x D theta phi.
Proof.
  intros HD Hf. apply rsum_ext. intros b Hb. apply zsum_ext. intros m Hm. apply zsum_ext. intros n Hn.
  rewrite (component_ext f _ b m n Hf), component_synth by (auto; lia). destruct (live b m n) eqn:L; [reflexivity|].
  rewrite HD by exact L. ring.
Qed.
Lemma Phi_00 theta phi : Phi nfp b_cc 0 0 theta phi = 1.
Proof. unfold Phi. cbn [in_theta in_zeta]. rewrite !Rmult_0_l, cos_0. unfold s2. cbn. ring. Qed.
Lemma average_kept f x : x = component s f ->
  grid_avg s (fun k l => synth s (parity_kinds (sz_lasym s) true) x Phi (theta_pt s l) (phi_pt s k)) = grid_avg s f.
Proof.
  intros ->. pose proof (component_synth true (component s f) b_cc 0 0) as A.
  pose proof (so_mpol s OK). pose proof (so_ntor s OK).
  specialize (A ltac:(unfold parity_kinds; cbn; auto) ltac:(lia) ltac:(lia)). cbn [live] in A.
  transitivity (component s (fun k l => synth s (parity_kinds (sz_lasym s) true) (component s f) Phi (theta_pt s l) (phi_pt s k)) b_cc 0 0).
  - apply grid_ext. intros. rewrite Phi_00. ring.
  - rewrite A. apply grid_ext. intros. rewrite Phi_00. ring.
Qed.

(** ** derivatives *)
Lemma dtheta_at num b j k l : sz_lasym s = false -> (0 <= j < num)%Z -> (0 <= k < nz)%Z -> (0 <= l < nTE)%Z ->
  surface s (deriv_theta s t num b) j k l = synth s (parity_kinds (sz_lasym s) true) (component s (surface s b j)) Phi_theta (theta_pt s l) (phi_pt s k) /\
  surface s (deriv_phi s t num b) j k l = synth s (parity_kinds (sz_lasym s) true) (component s (surface s b j)) Phi_phi (theta_pt s l) (phi_pt s k).
Proof.
  intros LA Hj Hk Hl. rewrite !synth_psy. unfold surface at 1 3. unfold deriv_theta, deriv_phi, decomposedU, filt_dtheta, filt_dphi. rewrite LA. cbn [fst snd].
  rewrite (TE_ls LA) in Hl. rewrite <- (rp_at LA).
  change (modes s num (fun j m n a => accumulate s (bt_sinmum t) (bt_cosnv t) (bt_cosmum t) (bt_sinnv t)
    (transform s (bt_cosmui t) (bt_cosnv t) (copyRows s num nZnT b) j m n) (transform s (bt_sinmui t) (bt_sinnv t) (copyRows s num nZnT b) j m n) j m n a) zeros (rp j k l))
    with (filt_su_a s t num (copyRows s num nZnT b) (rp j k l)).
  change (modes s num (fun j m n a => accumulate s (bt_cosmu t) (bt_sinnvn t) (bt_sinmu t) (bt_cosnvn t)
    (transform s (bt_cosmui t) (bt_cosnv t) (copyRows s num nZnT b) j m n) (transform s (bt_sinmui t) (bt_sinnv t) (copyRows s num nZnT b) j m n) j m n a) zeros (rp j k l))
    with (filt_sv_a s t num (copyRows s num nZnT b) (rp j k l)).
  rewrite (filt_su_a_at s OK NY1 NY2), (filt_sv_a_at s OK NY1 NY2) by assumption.
  rewrite !(sy_psy _ (surface s b j)) by
      (intros; apply (sym_component LA); intros; apply (copy_at LA); [reflexivity|assumption..]).
  unfold parity_kinds. cbn. split; ring.
Qed.

(** radial component: in symmetric runs, and in asymmetric ones with one toroidal plane *)
Lemma ds_at num b j k l : sz_lasym s = false \/ nz = 1%Z -> (0 <= j < num)%Z -> (0 <= k < nz)%Z -> (0 <= l < nTE)%Z ->
  surface s (deriv_theta_s s t num b) j k l = synth s (parity_kinds (sz_lasym s) false) (component s (surface s b j)) Phi_theta (theta_pt s l) (phi_pt s k) /\
  surface s (deriv_phi_s s t num b) j k l = synth s (parity_kinds (sz_lasym s) false) (component s (surface s b j)) Phi_phi (theta_pt s l) (phi_pt s k).
Proof.
  intros SM Hj Hk Hl. rewrite !synth_psy. unfold surface at 1 3. unfold deriv_theta_s, deriv_phi_s, decomposedS. case_eq (sz_lasym s); intros LA.
  - assert (N1 : nz = 1%Z) by (destruct SM as [X|X]; [congruence|exact X]). clear SM.
    set (fs := fst (decomposeS s num b)). set (fa := snd (decomposeS s num b)). rewrite !(extendS_at LA) by assumption.
    assert (SR : forall k' l', (0 <= k' < nz)%Z -> b (j * nZnT + (k' * nTR + l'))%Z = surface s b j k' l').
    { intros k' l' Hk'. unfold surface. rewrite at_pt_flat. f_equal. assert (k' = 0%Z) by lia. subst k'. lia. }
    assert (C1 : forall b', In b' [b_sc; b_cs] -> forall m n,
      red_avg s (fun k l => fs (rp j k l) * Phi nfp b' m n (theta_pt s l) (phi_pt s k)) = component s (surface s b j) b' m n).
    { intros b' Hb m n. apply (part_component LA (surface s b j) fs j false cZ); [discriminate|exact Hb|].
      intros k' l' Hk' Hl'. unfold fs. destruct (decomposeS_at LA num b j k' l' Hj Hk' Hl') as [-> _]. rewrite SR by exact Hk'. unfold surface, sgn_q. cbn. ring. }
    assert (C2 : forall b', In b' [b_cc; b_ss] -> forall m n,
      red_avg s (fun k l => fa (rp j k l) * Phi nfp b' m n (theta_pt s l) (phi_pt s k)) = component s (surface s b j) b' m n).
    { intros b' Hb m n. apply (part_component LA (surface s b j) fa j true cZ); [discriminate|exact Hb|].
      intros k' l' Hk' Hl'. unfold fa. destruct (decomposeS_at LA num b j k' l' Hj Hk' Hl') as [_ ->]. rewrite SR by exact Hk'. unfold surface, sgn_q. cbn. ring. }
    assert (V : forall k' l', (0 <= k' < nz)%Z -> (0 <= l' < nTR)%Z ->
      filt_su_s s t num fs (rp j k' l') = psy Phi_theta (surface s b j) b_sc k' l' + psy Phi_theta (surface s b j) b_cs k' l' /\
      filt_su_a s t num fa (rp j k' l') = psy Phi_theta (surface s b j) b_cc k' l' + psy Phi_theta (surface s b j) b_ss k' l' /\
      filt_sv_s s t num fs (rp j k' l') = psy Phi_phi (surface s b j) b_sc k' l' + psy Phi_phi (surface s b j) b_cs k' l' /\
      filt_sv_a s t num fa (rp j k' l') = psy Phi_phi (surface s b j) b_cc k' l' + psy Phi_phi (surface s b j) b_ss k' l').
    { intros k' l' Hk' Hl'.
      rewrite (filt_su_s_at s OK NY1 NY2), (filt_su_a_at s OK NY1 NY2), (filt_sv_s_at s OK NY1 NY2), (filt_sv_a_at s OK NY1 NY2) by assumption.
      rewrite !(sy_psy _ (surface s b j)) by (first [apply C1; cbn; auto; fail | apply C2; cbn; auto; fail]). repeat split; reflexivity. }
    unfold ext_val. destruct (Z.ltb_spec l nTR) as [L|L].
    + destruct (V k l Hk ltac:(lia)) as (-> & -> & -> & ->). unfold parity_kinds. cbn. split; ring.
    + rewrite (TE_la LA) in Hl. destruct (V (rk k) (rl l) (rk_range s OK k) (rl_low l ltac:(lia))) as (-> & -> & -> & ->).
      assert (PR : forall asy b', In b' (pkinds asy cZ) -> psy Phi_theta (surface s b j) b' (rk k) (rl l) = sgn_q asy (c_B cZ) * psy Phi_theta (surface s b j) b' k l /\
         psy Phi_phi (surface s b j) b' (rk k) (rl l) = sgn_q asy (c_C cZ) * psy Phi_phi (surface s b j) b' k l).
      { intros asy b' Hb. split; apply psy_refl; intros m n; destruct (Phi_refl s OK asy cZ b' m n k l Hb Hk ltac:(lia)) as (_ & A & B); assumption. }
      destruct (PR false b_sc ltac:(cbn; auto)) as [-> ->]. destruct (PR false b_cs ltac:(cbn; auto)) as [-> ->].
      destruct (PR true b_cc ltac:(cbn; auto)) as [-> ->]. destruct (PR true b_ss ltac:(cbn; auto)) as [-> ->].
      unfold parity_kinds, sgn_q. cbn. split; ring.
  - rewrite (TE_ls LA) in Hl. cbn [fst snd]. rewrite !(overwrite_at LA) by assumption.
    rewrite (filt_su_s_at s OK NY1 NY2), (filt_sv_s_at s OK NY1 NY2) by assumption.
    rewrite !(sy_psy _ (surface s b j)) by
      (intros; apply (sym_component LA); intros; apply (copy_at LA); [apply (nZr_nZnT LA)|assumption..]).
    unfold parity_kinds. cbn. split; ring.
Qed.
End F.
