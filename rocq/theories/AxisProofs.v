(** The axis guess: boundary points on the grid, search, planes. *)
From Coq Require Import ZArith List Bool Reals Lia Lra.
From Verif Require Import Base BaseLemmas SumLemmas TrigSums SizesModel FourierModel FourierSpec FourierProofs DftTables BoundaryModel BoundarySpec BoundaryProofs AxisModel AxisSpec.
Import ListNotations.
Open Scope R_scope.

(** ** Loops *)
Lemma for_up_acc (body : Z -> R -> R) (c : Z -> R) lo hi a :
  (forall j x, (lo <= j < hi)%Z -> body j x = x + c j) -> for_up lo hi body a = a + zsum lo hi c.
Proof.
  intros H. unfold zsum, for_up.
  assert (K : forall l, (forall j, In j l -> (lo <= j < hi)%Z) -> forall a, fold_left (fun s j => body j s) l a = a + rsum l c).
  { induction l as [|j l IH]; intros Hl b; [cbn; lra|]. cbn [fold_left rsum].
    rewrite IH by (intros; apply Hl; right; auto). rewrite H by (apply Hl; left; auto). lra. }
  apply K. intros j. apply zrange_In.
Qed.

(** Copies whose sources are not among the targets. *)
Lemma copy2 (tgt src : Z * Z -> Z * Z) (val : Z * Z -> R -> R) L : forall a : Z -> Z -> R, NoDup (map tgt L) ->
  (forall p q, In p L -> In q L -> tgt p <> src q) ->
  let r := fold_left (fun a p => upd2 a (fst (tgt p)) (snd (tgt p)) (val p (a (fst (src p)) (snd (src p))))) L a in
  (forall p, In p L -> r (fst (tgt p)) (snd (tgt p)) = val p (a (fst (src p)) (snd (src p)))) /\
  (forall i j, ~ In (i, j) (map tgt L) -> r i j = a i j).
Proof.
  induction L as [|p L IH]; intros a ND Hs; cbv zeta; cbn [fold_left].
  - split; [intros q []|reflexivity].
  - cbn [map] in ND. apply NoDup_cons_iff in ND. destruct ND as (Np & ND).
    set (a' := upd2 a (fst (tgt p)) (snd (tgt p)) (val p (a (fst (src p)) (snd (src p))))).
    destruct (IH a' ND) as (I1 & I2); [intros; apply Hs; right; assumption|]. cbv zeta in I1, I2.
    assert (U : forall x, In x (p :: L) -> a' (fst (src x)) (snd (src x)) = a (fst (src x)) (snd (src x))).
    { intros x Hx. unfold a', upd2. destruct (Z.eqb_spec (fst (src x)) (fst (tgt p))) as [E1|]; [|reflexivity].
      destruct (Z.eqb_spec (snd (src x)) (snd (tgt p))) as [E2|]; [|reflexivity]. exfalso. apply (Hs p x); [left; reflexivity|exact Hx|].
      destruct (tgt p), (src x). cbn in *. congruence. }
    split.
    + intros q [<-|Hq].
      * rewrite I2 by (rewrite <- surjective_pairing; exact Np). unfold a', upd2. rewrite !Z.eqb_refl. reflexivity.
      * rewrite I1 by exact Hq. rewrite U by (right; exact Hq). reflexivity.
    + intros i j Hn. rewrite I2 by (intros H; apply Hn; right; exact H). unfold a', upd2.
      destruct (Z.eqb_spec i (fst (tgt p))) as [E1|]; [|reflexivity]. destruct (Z.eqb_spec j (snd (tgt p))) as [E2|]; [|reflexivity].
      exfalso. apply Hn. left. rewrite E1, E2. apply surjective_pairing.
Qed.

(** smallest and largest element *)
Lemma min_elem_spec s (f : Z -> R) : (1 <= sz_nThetaEven s)%Z ->
  (exists l, (0 <= l < sz_nThetaEven s)%Z /\ min_elem s f = f l) /\ forall l, (0 <= l < sz_nThetaEven s)%Z -> min_elem s f <= f l.
Proof.
  intros H. unfold min_elem.
  apply (for_up_ind (fun j acc => (exists l, (0 <= l < j)%Z /\ acc = f l) /\ forall l, (0 <= l < j)%Z -> acc <= f l)); [exact H| |].
  - split; [exists 0%Z; split; [lia|reflexivity]|]. intros l Hl. replace l with 0%Z by lia. apply Rle_refl.
  - intros j acc Hj ((l0 & Hl0 & E) & Hm). destruct (Rlt_dec (f j) acc) as [L|L].
    + split; [exists j; split; [lia|reflexivity]|]. intros l Hl. destruct (Z.eq_dec l j) as [->|]; [apply Rle_refl|]. pose proof (Hm l ltac:(lia)). lra.
    + split; [exists l0; split; [lia|exact E]|]. intros l Hl. destruct (Z.eq_dec l j) as [->|]; [lra|]. apply Hm. lia.
Qed.
Lemma max_elem_spec s (f : Z -> R) : (1 <= sz_nThetaEven s)%Z ->
  (exists l, (0 <= l < sz_nThetaEven s)%Z /\ max_elem s f = f l) /\ forall l, (0 <= l < sz_nThetaEven s)%Z -> f l <= max_elem s f.
Proof.
  intros H. unfold max_elem.
  apply (for_up_ind (fun j acc => (exists l, (0 <= l < j)%Z /\ acc = f l) /\ forall l, (0 <= l < j)%Z -> f l <= acc)); [exact H| |].
  - split; [exists 0%Z; split; [lia|reflexivity]|]. intros l Hl. replace l with 0%Z by lia. apply Rle_refl.
  - intros j acc Hj ((l0 & Hl0 & E) & Hm). destruct (Rlt_dec acc (f j)) as [L|L].
    + split; [exists j; split; [lia|reflexivity]|]. intros l Hl. destruct (Z.eq_dec l j) as [->|]; [apply Rle_refl|]. pose proof (Hm l ltac:(lia)). lra.
    + split; [exists l0; split; [lia|exact E]|]. intros l Hl. destruct (Z.eq_dec l j) as [->|]; [lra|]. apply Hm. lia.
Qed.

Section Grid.
  Context (s : sizes) (OK : sz_ok s) (b0 : basis_tables) (b : bdy) (M2 : (2 <= sz_mpol s)%Z).
  Let t := tab s b0.
  Local Notation lasym := (sz_lasym s).
  Local Notation lthreed := (sz_lthreed s).
  Local Notation mpol := (sz_mpol s).
  Local Notation ntor := (sz_ntor s).
  Local Notation nZ := (sz_nZeta s).
  Local Notation nT := (sz_nThetaEven s).
  Local Notation nTR := (sz_nThetaReduced s).

  (** The boundary surface these coefficients stand for. *)
  Definition surf : bdy := ensureM1Constrained lasym lthreed ntor 1 b.

  (** one product term *)
  Lemma term_eq (x p v q w : R) m n : p = v * s2 m -> q = w * s2 n -> 1 / (mscale m * nscale n) * x * p * q = x * (v * w).
  Proof. intros -> ->. pose proof (basis_norm_s2 m n) as B. unfold basis_norm in B. transitivity (x * (v * w) * (1 / (mscale m * nscale n) * (s2 m * s2 n))); [ring|]. rewrite B. ring. Qed.

  Lemma transform_eq P1 P2 (f1 f2 : Z -> R) c k l : (0 <= k < nZ)%Z -> (0 <= l < nTR)%Z ->
    (forall m, (0 <= m < mpol)%Z -> P1 (m * nTR + l)%Z = f1 m * s2 m) -> (forall m, (0 <= m < mpol)%Z -> P2 (m * nTR + l)%Z = f2 m * s2 m) ->
    transform s t P1 P2 c k l = zsum 0 mpol (fun m => zsum 0 (ntor + 1) (fun n =>
      q_a c m n * (f1 m * cos (IZR n * ang nZ k))
      + (if lthreed then q_3 c m n * (f2 m * sin (IZR n * ang nZ k)) else 0)
      + (if lasym then q_s c m n * (f2 m * cos (IZR n * ang nZ k)) + (if lthreed then q_3s c m n * (f1 m * sin (IZR n * ang nZ k)) else 0) else 0))).
  Proof using OK.
    intros Hk Hl H1 H2. unfold transform.
    rewrite (for_up_acc _ (fun m => zsum 0 (ntor + 1) (fun n =>
      q_a c m n * (f1 m * cos (IZR n * ang nZ k))
      + (if lthreed then q_3 c m n * (f2 m * sin (IZR n * ang nZ k)) else 0)
      + (if lasym then q_s c m n * (f2 m * cos (IZR n * ang nZ k)) + (if lthreed then q_3s c m n * (f1 m * sin (IZR n * ang nZ k)) else 0) else 0)))).
    - ring.
    - intros m acc Hm. apply for_up_acc. intros n x Hn. cbv zeta.
      assert (C := t_cosnv s OK b0 k n Hk ltac:(lia)). assert (S := t_sinnv s OK b0 k n Hk ltac:(lia)). fold t in C, S.
      rewrite (term_eq (q_a c m n) _ (f1 m) _ (cos (IZR n * ang nZ k)) m n (H1 m Hm) C).
      rewrite (term_eq (q_3 c m n) _ (f2 m) _ (sin (IZR n * ang nZ k)) m n (H2 m Hm) S).
      rewrite (term_eq (q_s c m n) _ (f2 m) _ (cos (IZR n * ang nZ k)) m n (H2 m Hm) C).
      rewrite (term_eq (q_3s c m n) _ (f1 m) _ (sin (IZR n * ang nZ k)) m n (H1 m Hm) S).
      destruct lthreed, lasym; ring.
  Qed.

  Lemma surf_at m n : (0 <= m < mpol)%Z -> (0 <= n <= ntor)%Z -> let i := (m * (ntor + 1) + n)%Z in
    rbcc surf i = q_a (r_bdy s b) m n /\ zbsc surf i = q_a (z_bdy s b) m n /\
    (lthreed = true -> rbss surf i = q_3 (r_bdy s b) m n /\ zbcs surf i = q_3 (z_bdy s b) m n) /\
    (lasym = true -> rbsc surf i = q_s (r_bdy s b) m n /\ zbcc surf i = q_s (z_bdy s b) m n) /\
    rbcs surf i = q_3s (r_bdy s b) m n /\ zbss surf i = q_3s (z_bdy s b) m n.
  Proof using M2 OK.
    intros Hm Hn i. pose proof (ensureM1_at lasym lthreed mpol ntor 1 b M2 (so_ntor s OK) m n Hm Hn) as E. fold surf in E. fold i in E.
    unfold view, m1_view in E. unfold r_bdy, z_bdy, undo_p, undo_m. cbn [q_a q_3 q_s q_3s]. fold i.
    destruct (m =? 1)%Z; injection E as E1 E2 E3 E4 E5 E6 E7 E8; (split; [exact E1|split; [exact E2|split; [|split; [|split; assumption]]]]);
    intros L; rewrite ?L in *; split; assumption.
  Qed.

  Lemma r_grid k l : (0 <= k < nZ)%Z -> (0 <= l < nTR)%Z ->
    transform s t (bt_cosmu t) (bt_sinmu t) (r_bdy s b) k l = R_internal lasym lthreed mpol ntor surf (ang nT l) (ang nZ k).
  Proof using M2 OK.
    intros Hk Hl. rewrite (transform_eq _ _ (fun m => cos (IZR m * ang nT l)) (fun m => sin (IZR m * ang nT l)) _ k l Hk Hl).
    2:{ intros m Hm. apply t_cosmu; assumption. }
    2:{ intros m Hm. apply t_sinmu; assumption. }
    unfold R_internal, series_out.
    destruct lthreed eqn:L3, lasym eqn:LA; rewrite ?Rplus_0_r, <- ?zsum_plus; apply zsum_ext; intros m Hm; rewrite <- ?zsum_plus; apply zsum_ext; intros n Hn;
      destruct (surf_at m n Hm ltac:(lia)) as (E1 & E2 & E3 & E4 & E5 & E6); rewrite E1; try (rewrite (proj1 (E3 L3))); try (rewrite (proj1 (E4 LA))); rewrite ?E5; ring.
  Qed.
  Lemma z_grid k l : (0 <= k < nZ)%Z -> (0 <= l < nTR)%Z ->
    transform s t (bt_sinmu t) (bt_cosmu t) (z_bdy s b) k l = Z_internal lasym lthreed mpol ntor surf (ang nT l) (ang nZ k).
  Proof using M2 OK.
    intros Hk Hl. rewrite (transform_eq _ _ (fun m => sin (IZR m * ang nT l)) (fun m => cos (IZR m * ang nT l)) _ k l Hk Hl).
    2:{ intros m Hm. apply t_sinmu; assumption. }
    2:{ intros m Hm. apply t_cosmu; assumption. }
    unfold Z_internal, series_out.
    destruct lthreed eqn:L3, lasym eqn:LA; rewrite ?Rplus_0_r, <- ?zsum_plus; apply zsum_ext; intros m Hm; rewrite <- ?zsum_plus; apply zsum_ext; intros n Hn;
      destruct (surf_at m n Hm ltac:(lia)) as (E1 & E2 & E3 & E4 & E5 & E6); rewrite E2; try (rewrite (proj2 (E3 L3))); try (rewrite (proj2 (E4 LA))); rewrite ?E6; ring.
  Qed.

  (** ** Storage and mirroring *)
  Lemma on_grid_at f k l : on_grid s f k l = if ((0 <=? k) && (k <? nZ) && (0 <=? l) && (l <? nTR))%Z then f k l else 0.
  Proof using.
    clear OK M2. unfold on_grid. rewrite (for_up_pairs (fun k l a => upd2 a k l (f k l))).
    set (P := pairs 0 nZ 0 nTR).
    destruct (copy2 (fun p => p) (fun p => (-1, -1)%Z) (fun p _ => f (fst p) (snd p)) P (fun _ _ => 0)) as (C1 & C2).
    - rewrite map_id. apply pairs_NoDup.
    - intros (a, c) q Hp _ E. apply pairs_In in Hp. injection E as -> ->. lia.
    - cbv zeta in C1, C2. rewrite map_id in C2.
      destruct ((0 <=? k) && (k <? nZ) && (0 <=? l) && (l <? nTR))%Z eqn:E.
      + apply (C1 (k, l)). apply pairs_In. rewrite !andb_true_iff, !Z.leb_le, !Z.ltb_lt in E. lia.
      + apply C2. intros H. apply pairs_In in H. rewrite !andb_false_iff, !Z.leb_gt, !Z.ltb_ge in E. lia.
  Qed.

  Lemma mirror_at sg a k l : lasym = false -> (0 <= k < nZ)%Z -> (0 <= l < nT)%Z ->
    mirror s sg a k l = if (l <? nTR)%Z then a k l else sg * a ((nZ - k) mod nZ)%Z (nT - l)%Z.
  Proof using OK.
    intros LA Hk Hl. unfold mirror. rewrite LA.
    rewrite (for_up_pairs (fun k l a => upd2 a ((nZ - k) mod nZ)%Z ((nT - l) mod nT)%Z (sg * a k l))).
    pose proof (so_nT s OK) as HT. pose proof (so_nTR s OK) as HR.
    set (P := pairs 0 nZ 1 (nTR - 1)).
    assert (Lr : forall k l, In (k, l) P -> ((nT - l) mod nT = nT - l)%Z) by (intros k' l' H; apply pairs_In in H; apply Z.mod_small; lia).
    destruct (copy2 (fun p => ((nZ - fst p) mod nZ, (nT - snd p) mod nT)%Z) (fun p => p) (fun _ x => sg * x) P a) as (C1 & C2).
    - apply nodup_map_inj; [apply pairs_NoDup|]. intros (k1, l1) (k2, l2) H1 H2 E. cbn [fst snd] in E. injection E as E1 E2.
      rewrite (Lr _ _ H1), (Lr _ _ H2) in E2. apply pairs_In in H1, H2.
      assert (k1 = k2); [|f_equal; lia]. 
      destruct (Z.eq_dec k1 0) as [->|]; destruct (Z.eq_dec k2 0) as [->|]; try reflexivity; rewrite ?Z.sub_0_r, ?Z_mod_same_full in E1; rewrite ?(Z.mod_small (nZ - _)) in E1 by lia; lia.
    - intros (k1, l1) (k2, l2) H1 H2 E. cbn [fst snd] in E. injection E as E1 E2. rewrite (Lr _ _ H1) in E2. apply pairs_In in H1, H2. lia.
    - cbv zeta in C1, C2. cbn [fst snd] in C1. destruct (Z.ltb_spec l nTR) as [L|L].
      + apply C2. intros H. apply in_map_iff in H. destruct H as ((k1, l1) & E & H1). cbn [fst snd] in E. injection E as E1 E2. rewrite (Lr _ _ H1) in E2. apply pairs_In in H1. lia.
      + specialize (C1 ((nZ - k) mod nZ, nT - l)%Z). cbn [fst snd] in C1.
        assert (I : In ((nZ - k) mod nZ, nT - l)%Z P) by (apply pairs_In; split; [apply Z.mod_pos_bound; lia|lia]).
        specialize (C1 I). rewrite (Lr _ _ I) in C1. replace (nT - (nT - l))%Z with l in C1 by lia.
        replace ((nZ - (nZ - k) mod nZ) mod nZ)%Z with k in C1; [exact C1|].
        destruct (Z.eq_dec k 0) as [->|]; [rewrite Z.sub_0_r, Z_mod_same_full, Z.sub_0_r, Z_mod_same_full; reflexivity|].
        rewrite (Z.mod_small (nZ - k)) by lia. rewrite Z.mod_small by lia. lia.
  Qed.
End Grid.
