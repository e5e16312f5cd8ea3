(** The axis guess: bounding box, search, planes and Fourier coefficients. *)
From Coq Require Import ZArith List Bool Reals Lia Lra.
From Verif Require Import Base BaseLemmas SumLemmas TrigSums SizesModel FourierModel FourierSpec FourierProofs DftTables BoundaryModel BoundarySpec BoundaryProofs AxisModel AxisSpec AxisProofs.
Import ListNotations.
Open Scope R_scope.

(** ** Reflected angles *)
Lemma ang_refl_cos N a k : (0 < N)%Z -> (0 <= k < N)%Z -> cos (IZR a * ang N ((N - k) mod N)) = cos (IZR a * ang N k).
Proof.
  intros HN Hk. assert (NN : IZR N <> 0) by (apply not_0_IZR; lia). unfold ang. destruct (Z.eq_dec k 0) as [->|].
  - rewrite Z.sub_0_r, Z_mod_same_full. reflexivity.
  - rewrite Z.mod_small by lia. rewrite minus_IZR. rewrite <- (cos_neg (IZR a * (2 * PI * IZR k / IZR N))).
    rewrite <- (cos_period_Z (- (IZR a * (2 * PI * IZR k / IZR N))) a). f_equal. field. exact NN.
Qed.
Lemma ang_refl_sin N a k : (0 < N)%Z -> (0 <= k < N)%Z -> sin (IZR a * ang N ((N - k) mod N)) = - sin (IZR a * ang N k).
Proof.
  intros HN Hk. assert (NN : IZR N <> 0) by (apply not_0_IZR; lia). unfold ang. destruct (Z.eq_dec k 0) as [->|].
  - rewrite Z.sub_0_r, Z_mod_same_full. replace (IZR a * (2 * PI * 0 / IZR N)) with 0 by (unfold Rdiv; ring). rewrite sin_0. ring.
  - rewrite Z.mod_small by lia. rewrite minus_IZR. rewrite <- (sin_neg (IZR a * (2 * PI * IZR k / IZR N))).
    rewrite <- (sin_period_Z (- (IZR a * (2 * PI * IZR k / IZR N))) a). f_equal. field. exact NN.
Qed.

(** A stellarator-symmetric surface seen from the reflected point. *)
Lemma R_sym l3 mpol ntor bb th th' ze ze' :
  (forall m, cos (IZR m * th') = cos (IZR m * th)) -> (forall m, sin (IZR m * th') = - sin (IZR m * th)) ->
  (forall n, cos (IZR n * ze') = cos (IZR n * ze)) -> (forall n, sin (IZR n * ze') = - sin (IZR n * ze)) ->
  R_internal false l3 mpol ntor bb th' ze' = R_internal false l3 mpol ntor bb th ze /\ Z_internal false l3 mpol ntor bb th' ze' = - Z_internal false l3 mpol ntor bb th ze.
Proof.
  intros C1 S1 C2 S2. unfold R_internal, Z_internal, series_out. rewrite !Rplus_0_r. split.
  - f_equal; [|destruct l3; [|reflexivity]]; apply zsum_ext; intros m Hm; apply zsum_ext; intros n Hn; rewrite ?C1, ?S1, ?C2, ?S2; ring.
  - assert (O : forall lo hi f, - zsum lo hi f = zsum lo hi (fun j => - f j)).
    { intros lo hi f. transitivity (-1 * zsum lo hi f); [ring|]. rewrite <- zsum_scale. apply zsum_ext. intros. ring. }
    rewrite Ropp_plus_distr. f_equal; [|destruct l3; [|ring]]; rewrite O; apply zsum_ext; intros m Hm; rewrite O; apply zsum_ext; intros n Hn; rewrite ?C1, ?S1, ?C2, ?S2; ring.
Qed.

Section Search.
  Context (s : sizes) (OK : sz_ok s) (b0 : basis_tables) (b : bdy) (M2 : (2 <= sz_mpol s)%Z).
  Context (raxis_c raxis_s zaxis_s zaxis_c : Z -> R) (ns sj : Z).
  Local Notation t := (tab s b0).
  Local Notation lasym := (sz_lasym s).
  Local Notation lthreed := (sz_lthreed s).
  Local Notation mpol := (sz_mpol s).
  Local Notation ntor := (sz_ntor s).
  Local Notation nZ := (sz_nZeta s).
  Local Notation nT := (sz_nThetaEven s).
  Local Notation nTR := (sz_nThetaReduced s).
  Local Notation Rb := (R_internal lasym lthreed mpol ntor (surf s b)).
  Local Notation Zb := (Z_internal lasym lthreed mpol ntor (surf s b)).
  Local Notation r_lcfs := (r_lcfs s t b).
  Local Notation z_lcfs := (z_lcfs s t b).
  Local Notation min_r := (min_r s t b).
  Local Notation max_r := (max_r s t b).
  Local Notation min_z := (min_z s t b).
  Local Notation max_z := (max_z s t b).
  Local Notation search := (search s t b raxis_c raxis_s zaxis_s zaxis_c ns sj).
  Local Notation new_r_axis := (new_r_axis s t b raxis_c raxis_s zaxis_s zaxis_c ns sj).
  Local Notation new_z_axis := (new_z_axis s t b raxis_c raxis_s zaxis_s zaxis_c ns sj).

  Lemma nT_1 : (1 <= nT)%Z. Proof using OK. pose proof (so_nT s OK). pose proof (so_nTR s OK). lia. Qed.

  (** With stellarator symmetry every stored point is a boundary point. *)
  Lemma lcfs_sym k l : lasym = false -> (0 <= k < nZ)%Z -> (0 <= l < nT)%Z ->
    r_lcfs k l = Rb (ang nT l) (ang nZ k) /\ z_lcfs k l = Zb (ang nT l) (ang nZ k).
  Proof using OK M2.
    intros LA Hk Hl. unfold AxisModel.r_lcfs, AxisModel.z_lcfs. rewrite !mirror_at by assumption.
    pose proof (so_nT s OK) as HT. pose proof (so_nTR s OK) as HR. pose proof (so_nZeta s OK) as HZ.
    assert (G : forall f k l, (0 <= k < nZ)%Z -> (0 <= l < nTR)%Z -> on_grid s f k l = f k l).
    { intros f k' l' A B. rewrite on_grid_at. destruct (Z.leb_spec 0 k'), (Z.ltb_spec k' nZ), (Z.leb_spec 0 l'), (Z.ltb_spec l' nTR); try lia. reflexivity. }
    destruct (Z.ltb_spec l nTR) as [L|L].
    - rewrite !G by lia. rewrite (r_grid s OK b0 b M2) by lia. rewrite (z_grid s OK b0 b M2) by lia. split; reflexivity.
    - assert (Hr : (0 <= (nZ - k) mod nZ < nZ)%Z) by (apply Z.mod_pos_bound; lia).
      rewrite !G by lia. rewrite (r_grid s OK b0 b M2) by lia. rewrite (z_grid s OK b0 b M2) by lia. rewrite LA.
      assert (ML : ((nT - l) mod nT = nT - l)%Z) by (apply Z.mod_small; lia).
      destruct (R_sym lthreed mpol ntor (surf s b) (ang nT l) (ang nT (nT - l)) (ang nZ k) (ang nZ ((nZ - k) mod nZ))) as (E1 & E2).
      + intros m. rewrite <- ML. apply ang_refl_cos; lia.
      + intros m. rewrite <- ML. apply ang_refl_sin; lia.
      + intros n. apply ang_refl_cos; lia.
      + intros n. apply ang_refl_sin; lia.
      + rewrite E1, E2. split; ring.
  Qed.

  Lemma box_bounds k : min_r k <= max_r k /\ min_z k <= max_z k.
  Proof using OK.
    unfold AxisModel.min_r, AxisModel.max_r, AxisModel.min_z, AxisModel.max_z. pose proof nT_1.
    destruct (min_elem_spec s (r_lcfs k) nT_1) as (_ & A). destruct (max_elem_spec s (r_lcfs k) nT_1) as (_ & B).
    destruct (min_elem_spec s (z_lcfs k) nT_1) as (_ & C). destruct (max_elem_spec s (z_lcfs k) nT_1) as (_ & D).
    pose proof (A 0%Z ltac:(lia)). pose proof (B 0%Z ltac:(lia)). pose proof (C 0%Z ltac:(lia)). pose proof (D 0%Z ltac:(lia)). lra.
  Qed.

  Lemma grid_in lo hi i : lo <= hi -> (0 <= i < 61)%Z -> lo <= lo + IZR i * ((hi - lo) / (61 - 1)) <= hi.
  Proof using.
    clear. intros H Hi. assert (0 <= IZR i) by (apply IZR_le; lia). assert (IZR i <= 60) by (apply IZR_le; lia).
    assert (0 <= (hi - lo) / (61 - 1)) by (apply Rmult_le_pos; [lra|]; apply Rlt_le, Rinv_0_lt_compat; lra).
    split; [|].
    - pose proof (Rmult_le_pos (IZR i) ((hi - lo) / (61 - 1)) ltac:(lra) ltac:(lra)). lra.
    - assert (IZR i * ((hi - lo) / (61 - 1)) <= 60 * ((hi - lo) / (61 - 1))) by (apply Rmult_le_compat_r; lra).
      replace (60 * ((hi - lo) / (61 - 1))) with (hi - lo) in H3 by field. lra.
  Qed.

  Lemma search_r k : min_r k <= fst (snd (search k)) <= max_r k.
  Proof using OK.
    destruct (box_bounds k) as (Br & _).
    set (In_ := fun st : R * (R * R) => min_r k <= fst (snd st) <= max_r k).
    change (In_ (search k)). unfold AxisModel.search.
    apply (for_up_ind (fun _ st => In_ st)); [destruct (sym_plane s k); lia| |].
    - unfold In_. cbn [fst snd]. lra.
    - intros iz st Hz Hst. cbv zeta. apply (for_up_ind (fun _ st => In_ st)); [lia|exact Hst|].
      intros ir st' Hr Hin. destruct st' as (best & (nr & nz)). unfold visit.
      assert (R1 : min_r k <= min_r k + IZR ir * delta_r s t b k <= max_r k) by (apply grid_in; [exact Br|lia]).
      unfold In_ in *. cbn [fst snd] in *. destruct (Rlt_dec _ _); cbn [fst snd]; [lra|]. destruct (Req_EM_T _ _); [|cbn [fst snd]; lra]. destruct (Rlt_dec _ _); cbn [fst snd]; lra.
  Qed.

  (** The search stays in the box. *)
  Lemma search_box k : (sym_plane s k = true -> min_z k <= 0 <= max_z k) ->
    min_r k <= fst (snd (search k)) <= max_r k /\ min_z k <= snd (snd (search k)) <= max_z k.
  Proof using OK.
    intros H0. destruct (box_bounds k) as (Br & Bz).
    set (In_ := fun st : R * (R * R) => min_r k <= fst (snd st) <= max_r k /\ min_z k <= snd (snd st) <= max_z k).
    change (In_ (search k)). unfold AxisModel.search.
    apply (for_up_ind (fun _ st => In_ st)); [destruct (sym_plane s k); lia| |].
    - unfold In_. cbn [fst snd]. lra.
    - intros iz st Hz Hst. cbv zeta. apply (for_up_ind (fun _ st => In_ st)); [lia|exact Hst|].
      intros ir st' Hr Hin. destruct st' as (best & (nr & nz)). unfold visit.
      assert (R1 : min_r k <= min_r k + IZR ir * delta_r s t b k <= max_r k) by (apply grid_in; [exact Br|lia]).
      assert (Z1 : min_z k <= (if sym_plane s k then 0 else min_z k + IZR iz * delta_z s t b k) <= max_z k).
      { destruct (sym_plane s k); [apply H0; reflexivity|]. apply grid_in; [exact Bz|lia]. }
      unfold In_ in *. cbn [fst snd] in *. destruct (Rlt_dec _ _); cbn [fst snd]; [lra|]. destruct (Req_EM_T _ _); [|cbn [fst snd]; lra]. destruct (Rlt_dec _ _); cbn [fst snd]; lra.
  Qed.

  (** On the symmetry planes the box is symmetric in Z. *)
  Lemma z_antisym k l : lasym = false -> (0 <= k < nZ)%Z -> ((nZ - k) mod nZ = k)%Z -> (0 <= l < nT)%Z ->
    z_lcfs k ((nT - l) mod nT) = - z_lcfs k l.
  Proof using OK M2.
    intros LA Hk Hs Hl. assert (Hr : (0 <= (nT - l) mod nT < nT)%Z) by (apply Z.mod_pos_bound; lia).
    destruct (lcfs_sym k l LA Hk Hl) as (_ & ->). destruct (lcfs_sym k _ LA Hk Hr) as (_ & ->). rewrite LA.
    pose proof (so_nZeta s OK).
    apply R_sym; intros; [apply ang_refl_cos|apply ang_refl_sin| |]; try lia.
    - rewrite <- Hs at 2. rewrite ang_refl_cos by lia. reflexivity.
    - rewrite <- Hs at 1. rewrite ang_refl_sin by lia. reflexivity.
  Qed.
  Lemma sym_box k : lasym = false -> (0 <= k < nZ)%Z -> ((nZ - k) mod nZ = k)%Z -> max_z k = - min_z k.
  Proof using OK M2.
    intros LA Hk Hs. unfold AxisModel.min_z, AxisModel.max_z.
    destruct (min_elem_spec s (z_lcfs k) nT_1) as ((l1 & H1 & E1) & A). destruct (max_elem_spec s (z_lcfs k) nT_1) as ((l2 & H2 & E2) & B).
    assert (P1 := A ((nT - l2) mod nT)%Z (Z.mod_pos_bound (nT - l2) nT ltac:(lia))). rewrite z_antisym in P1 by assumption.
    assert (P2 := B ((nT - l1) mod nT)%Z (Z.mod_pos_bound (nT - l1) nT ltac:(lia))). rewrite z_antisym in P2 by assumption. lra.
  Qed.
  Lemma sym_zero k : lasym = false -> (0 <= k < nZ)%Z -> ((nZ - k) mod nZ = k)%Z -> min_z k <= 0 <= max_z k.
  Proof using OK M2. intros LA Hk Hs. pose proof (sym_box k LA Hk Hs). pose proof (box_bounds k). lra. Qed.

  (** ** Planes *)
  Lemma planes_at f k : planes s f k = if ((0 <=? k) && (k <=? Z.quot nZ 2))%Z then f k else 0.
  Proof using OK.
    clear M2. pose proof (so_nZeta s OK) as HZ. assert (0 <= Z.quot nZ 2)%Z by (apply Z.quot_pos; lia).
    unfold planes. pose proof (for_up_ind (fun j a => a k = if ((0 <=? k) && (k <? j))%Z then f k else 0)
      (fun k a => upd a k (f k)) 0 (Z.quot nZ 2 + 1) (fun _ => 0) ltac:(lia)) as G.
    cbv beta in G. rewrite G; clear G.
    - destruct (Z.leb_spec 0 k), (Z.leb_spec k (Z.quot nZ 2)), (Z.ltb_spec k (Z.quot nZ 2 + 1)); cbn [andb]; try lia; reflexivity.
    - destruct (Z.leb_spec 0 k), (Z.ltb_spec k 0); try lia; reflexivity.
    - intros j a Hj E. unfold upd. destruct (Z.eqb_spec k j) as [->|].
      + destruct (Z.leb_spec 0 j), (Z.ltb_spec j (j + 1)); try lia; reflexivity.
      + rewrite E. destruct (Z.leb_spec 0 k), (Z.ltb_spec k j), (Z.ltb_spec k (j + 1)); cbn [andb]; try lia; reflexivity.
  Qed.
  Lemma flip_at sg a k : lasym = false -> (0 <= k < nZ)%Z ->
    flip_planes s sg a k = if (nZ - Z.quot nZ 2 <? k)%Z then sg * a (nZ - k)%Z else a k.
  Proof using OK.
    intros LA Hk. clear M2. pose proof (so_nZeta s OK) as HZ. unfold flip_planes. rewrite LA.
    assert (Q := Z.quot_rem' nZ 2). assert (Rm := Z.rem_bound_pos nZ 2 ltac:(lia) ltac:(lia)).
    set (h := Z.quot nZ 2) in *.
    destruct (Z_le_gt_dec 1 h) as [H1|H1].
    - pose proof (for_up_ind (fun j a' => (forall i, (0 <= i <= h)%Z -> a' i = a i) /\ (a' k = if ((nZ - j <? k))%Z then sg * a (nZ - k)%Z else a k))
        (fun k a => upd a ((nZ - k) mod nZ)%Z (sg * a k)) 1 h a H1) as G. apply G; clear G.
      + split; [reflexivity|]. destruct (Z.ltb_spec (nZ - 1) k); [lia|reflexivity].
      + intros j a' Hj (K1 & K2). rewrite Z.mod_small by lia. split.
        * intros i Hi. unfold upd. destruct (Z.eqb_spec i (nZ - j)); [lia|]. apply K1. lia.
        * unfold upd. destruct (Z.eqb_spec k (nZ - j)) as [->|].
          -- destruct (Z.ltb_spec (nZ - (j + 1)) (nZ - j)); [|lia]. rewrite K1 by lia. f_equal. f_equal. lia.
          -- rewrite K2. destruct (Z.ltb_spec (nZ - j) k), (Z.ltb_spec (nZ - (j + 1)) k); try lia; reflexivity.
    - assert (h = 0)%Z by lia. rewrite H. unfold for_up. change (zrange 1 0) with (@nil Z). cbn [fold_left]. destruct (Z.ltb_spec (nZ - 0) k); [lia|reflexivity].
  Qed.

  (** Where the new axis is in each plane: with stellarator symmetry ... *)
  Lemma axis_sym k : lasym = false -> (0 <= k < nZ)%Z ->
    new_r_axis k = (if (k <=? Z.quot nZ 2)%Z then fst (snd (search k)) else if (nZ - Z.quot nZ 2 <? k)%Z then fst (snd (search (nZ - k)%Z)) else 0) /\
    new_z_axis k = (if (k <=? Z.quot nZ 2)%Z then snd (snd (search k)) else if (nZ - Z.quot nZ 2 <? k)%Z then - snd (snd (search (nZ - k)%Z)) else 0).
  Proof using OK.
    intros LA Hk. unfold AxisModel.new_r_axis, AxisModel.new_z_axis. rewrite !flip_at by assumption. pose proof (so_nZeta s OK) as HZ.
    assert (Q := Z.quot_rem' nZ 2). assert (Rm := Z.rem_bound_pos nZ 2 ltac:(lia) ltac:(lia)). set (h := Z.quot nZ 2) in *.
    rewrite !planes_at. fold h.
    destruct (Z.ltb_spec (nZ - h) k), (Z.leb_spec k h), (Z.leb_spec 0 (nZ - k)), (Z.leb_spec (nZ - k) h), (Z.leb_spec 0 k); cbn [andb]; try lia; split; ring.
  Qed.
  (** ... and without. *)
  Lemma axis_asym k : lasym = true -> (0 <= k < nZ)%Z ->
    new_r_axis k = (if (k <=? Z.quot nZ 2)%Z then fst (snd (search k)) else 0) /\
    new_z_axis k = (if (k <=? Z.quot nZ 2)%Z then snd (snd (search k)) else 0).
  Proof using OK.
    intros LA Hk. unfold AxisModel.new_r_axis, AxisModel.new_z_axis, flip_planes. rewrite LA, !planes_at.
    destruct (Z.leb_spec 0 k), (Z.leb_spec k (Z.quot nZ 2)); cbn [andb]; try lia; split; reflexivity.
  Qed.

  (** ** Inside the boundary's box *)
  Lemma box_in k r z : lasym = false -> (0 <= k < nZ)%Z -> min_r k <= r <= max_r k -> min_z k <= z <= max_z k ->
    in_box (fun th => Rb th (ang nZ k)) (fun th => Zb th (ang nZ k)) r z.
  Proof using OK M2.
    intros LA Hk Hr Hz. unfold AxisModel.min_r, AxisModel.max_r, AxisModel.min_z, AxisModel.max_z in *.
    destruct (min_elem_spec s (r_lcfs k) nT_1) as ((l1 & H1 & E1) & _). destruct (max_elem_spec s (r_lcfs k) nT_1) as ((l2 & H2 & E2) & _).
    destruct (min_elem_spec s (z_lcfs k) nT_1) as ((l3 & H3 & E3) & _). destruct (max_elem_spec s (z_lcfs k) nT_1) as ((l4 & H4 & E4) & _).
    rewrite E1, E2 in Hr. rewrite E3, E4 in Hz.
    rewrite (proj1 (lcfs_sym k l1 LA Hk H1)), (proj1 (lcfs_sym k l2 LA Hk H2)) in Hr. rewrite (proj2 (lcfs_sym k l3 LA Hk H3)), (proj2 (lcfs_sym k l4 LA Hk H4)) in Hz.
    split; [exists (ang nT l1), (ang nT l2); exact Hr|exists (ang nT l3), (ang nT l4); exact Hz].
  Qed.

  Lemma sym_fix k : (nZ = 1 \/ Z.even nZ = true)%Z -> sym_plane s k = true -> (0 <= k < nZ)%Z -> ((nZ - k) mod nZ = k)%Z.
  Proof using OK.
    intros Ev Sp Hk. unfold sym_plane in Sp. apply andb_true_iff in Sp. destruct Sp as (_ & Sp). apply orb_true_iff in Sp.
    assert (k = 0 \/ k = Z.quot nZ 2)%Z as [->| ->].
    { destruct Sp as [E|E]; apply Z.eqb_eq in E; auto. }
    - rewrite Z.sub_0_r. apply Z_mod_same_full.
    - destruct Ev as [E|E]; [rewrite E; reflexivity|]. apply Z.even_spec in E. destruct E as (h & E). rewrite E, Z.mul_comm, Z.quot_mul by lia. rewrite E, Z.mul_comm, Z.quot_mul in Hk by lia.
      rewrite Z.mod_small by lia. lia.
  Qed.

  Theorem planes_in_box k : lasym = false -> (nZ = 1 \/ Z.even nZ = true)%Z -> (0 <= k < nZ)%Z ->
    in_box (fun th => Rb th (ang nZ k)) (fun th => Zb th (ang nZ k)) (new_r_axis k) (new_z_axis k).
  Proof using OK M2.
    intros LA Ev Hk. pose proof (so_nZeta s OK) as HZ.
    assert (Q := Z.quot_rem' nZ 2). assert (Rm := Z.rem_bound_pos nZ 2 ltac:(lia) ltac:(lia)).
    assert (Q2 : (nZ = 1 /\ Z.quot nZ 2 = 0 \/ nZ = 2 * Z.quot nZ 2)%Z).
    { destruct Ev as [E|E]; [left; rewrite E; split; reflexivity|right]. apply Z.even_spec in E. destruct E as (h & E). assert (Z.quot nZ 2 = h) by (rewrite E, Z.mul_comm; apply Z.quot_mul; lia). lia. }
    destruct (axis_sym k LA Hk) as (-> & ->). destruct (Z.leb_spec k (Z.quot nZ 2)) as [L|L].
    - destruct (search_box k) as (A & B).
      + intros Sp. apply sym_zero; [exact LA|exact Hk|]. apply sym_fix; assumption.
      + apply box_in; assumption.
    - destruct (Z.ltb_spec (nZ - Z.quot nZ 2) k); [|lia].
      assert (Hk' : (0 <= nZ - k < nZ)%Z) by lia.
      destruct (search_box (nZ - k)%Z) as (A & B).
      + intros Sp. apply sym_zero; [exact LA|exact Hk'|]. apply sym_fix; assumption.
      + destruct (box_in (nZ - k)%Z _ _ LA Hk' A B) as ((r1 & r2 & Hr) & (z1 & z2 & Hz)).
        assert (S : forall th, R_internal false lthreed mpol ntor (surf s b) (- th) (ang nZ k) = R_internal false lthreed mpol ntor (surf s b) th (ang nZ (nZ - k)) /\
                               Z_internal false lthreed mpol ntor (surf s b) (- th) (ang nZ k) = - Z_internal false lthreed mpol ntor (surf s b) th (ang nZ (nZ - k))).
        { intros th. assert (MK : ((nZ - k) mod nZ = nZ - k)%Z) by (apply Z.mod_small; lia). rewrite <- MK.
          destruct (R_sym lthreed mpol ntor (surf s b) th (- th) (ang nZ ((nZ - k) mod nZ)) (ang nZ k)) as (E1 & E2).
          - intros m. rewrite <- Ropp_mult_distr_r. apply cos_neg.
          - intros m. rewrite <- Ropp_mult_distr_r. apply sin_neg.
          - intros n. rewrite ang_refl_cos by lia. reflexivity.
          - intros n. rewrite ang_refl_sin by lia. ring.
          - split; assumption. }
        rewrite LA in *. split.
        * exists (- r1), (- r2). rewrite !(fun th => proj1 (S th)). exact Hr.
        * exists (- z2), (- z1). rewrite !(fun th => proj2 (S th)). lra.
  Qed.
End Search.
