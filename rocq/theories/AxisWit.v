(** The axis guess: planes that are never filled. *)
From Coq Require Import ZArith List Bool Reals Lia Lra.
From Verif Require Import Base BaseLemmas SumLemmas TrigSums SizesModel FourierModel FourierSpec FourierProofs DftTables BoundaryModel BoundarySpec BoundaryProofs AxisModel AxisSpec AxisProofs AxisSearch AxisFourier.
Import ListNotations.
Open Scope R_scope.

Lemma ms_facts la nfp mpol ntor nth nz mg ng s : make_sizes la nfp mpol ntor nth nz mg ng = Some s ->
  (sz_ntor s = 0 \/ sz_ntor s < Z.quot (sz_nZeta s) 2)%Z.
Proof.
  unfold make_sizes. destruct ((nfp <? 1) || (mpol <? 1) || (ntor <? 0))%Z eqn:C; [discriminate|].
  apply orb_false_elim in C. destruct C as [_ C]. apply Z.ltb_ge in C. intros E. apply some_inj in E. subst s. cbn [sz_ntor sz_nZeta].
  destruct (Z.eq_dec ntor 0) as [->|N0]; [left; reflexivity|right].
  destruct (Z.gtb_spec ntor 0); [|lia]. set (z0 := if ((ntor =? 0) && (nz <? 1))%Z then 1%Z else nz). 
  assert (H1 : (2 * ntor + 4 <= if z0 <? 2 * ntor + 4 then 2 * ntor + 4 else z0)%Z) by (destruct (Z.ltb_spec z0 (2 * ntor + 4)); lia).
  set (N := if (z0 <? 2 * ntor + 4)%Z then (2 * ntor + 4)%Z else z0) in *.
  assert (Q := Z.quot_rem' N 2). assert (Rm := Z.rem_bound_pos N 2 ltac:(lia) ltac:(lia)). lia.
Qed.

Lemma low_term lo hi (f : Z -> R) c : (lo <= hi)%Z -> zsum lo hi f < IZR (hi - lo) * c -> exists k, (lo <= k < hi)%Z /\ f k < c.
Proof.
  intros H. revert f. pattern hi. apply Zlt_lower_bound_ind with (z := lo); [|exact H]. clear hi H.
  intros hi IH H f L. destruct (Z.eq_dec hi lo) as [->|].
  - rewrite zsum_empty, Z.sub_diag, Rmult_0_l in L by lia. lra.
  - destruct (Rlt_dec (f (hi - 1)%Z) c) as [B|B]; [exists (hi - 1)%Z; split; [lia|exact B]|].
    destruct (IH (hi - 1)%Z ltac:(lia) f) as (k & Hk & E); [|exists k; split; [lia|exact E]].
    replace hi with (hi - 1 + 1)%Z in L by lia. rewrite zsum_snoc in L by lia.
    replace (hi - 1 + 1 - lo)%Z with ((hi - 1 - lo) + 1)%Z in L by lia. rewrite plus_IZR in L. lra.
Qed.

(** R = 100 + cos theta, Z = sin theta *)
Definition ring_bdy : bdy := mkBdy (fun i => if (i =? 0)%Z then 100 else if (i =? 2)%Z then 1 else 0) (fun i => if (i =? 2)%Z then 1 else 0)
  (fun _ => 0) (fun _ => 0) (fun _ => 0) (fun _ => 0) (fun _ => 0) (fun _ => 0).

Section Wit.
  Context (s : sizes) (OK : sz_ok s) (b0 : basis_tables) (E3 : sz_lthreed s = true) (EM : sz_mpol s = 2%Z) (EN : sz_ntor s = 1%Z).
  Context (rc rs zs zc : Z -> R) (ns sj : Z).
  Local Notation t := (tab s b0).
  Local Notation nZ := (sz_nZeta s).
  Local Notation b := ring_bdy.

  Lemma ring_R th ze : R_internal (sz_lasym s) (sz_lthreed s) (sz_mpol s) (sz_ntor s) (surf s b) th ze = 100 + cos th.
  Proof using OK E3 EM EN.
    assert (S : forall m n, (0 <= m < 2)%Z -> (0 <= n <= 1)%Z -> rbcc (surf s b) (m * 2 + n)%Z = rbcc b (m * 2 + n)%Z /\ rbss (surf s b) (m * 2 + n)%Z = 0 /\ (sz_lasym s = true -> rbsc (surf s b) (m * 2 + n)%Z = 0) /\ rbcs (surf s b) (m * 2 + n)%Z = 0).
    { intros m n Hm Hn. pose proof (surf_at s OK b ltac:(lia) m n) as A. rewrite EM, EN in A. specialize (A Hm Hn). cbv zeta in A. change (1 + 1)%Z with 2%Z in A.
      destruct A as (A1 & _ & A2 & A3 & A4 & _). rewrite A1. unfold r_bdy, undo_p in *. cbn [q_a q_3 q_s q_3s] in *. rewrite EN in *. change (1 + 1)%Z with 2%Z in *.
      split; [reflexivity|]. split; [rewrite (proj1 (A2 E3)); cbn [rbss zbcs ring_bdy]; destruct (m =? 1)%Z; ring|]. split; [|rewrite A4; reflexivity].
      intros LA. rewrite (proj1 (A3 LA)). cbn [rbsc zbcc ring_bdy]. destruct (m =? 1)%Z; ring. }
    unfold R_internal, series_out. rewrite E3, EM, EN. unfold zsum. change (zrange 0 2) with (0 :: 1 :: nil)%Z. change (zrange 0 (1 + 1)) with (0 :: 1 :: nil)%Z. cbn [rsum]. change (1 + 1)%Z with 2%Z.
    destruct (S 0%Z 0%Z ltac:(lia) ltac:(lia)) as (a1 & a2 & a3 & a4). destruct (S 0%Z 1%Z ltac:(lia) ltac:(lia)) as (c1 & c2 & c3 & c4).
    destruct (S 1%Z 0%Z ltac:(lia) ltac:(lia)) as (d1 & d2 & d3 & d4). destruct (S 1%Z 1%Z ltac:(lia) ltac:(lia)) as (e1 & e2 & e3 & e4).
    rewrite a1, a2, a4, c1, c2, c4, d1, d2, d4, e1, e2, e4.
    assert (A0 : (if sz_lasym s then rbsc (surf s b) (0 * 2 + 0)%Z else 0) = 0) by (destruct (sz_lasym s); auto).
    assert (C0 : (if sz_lasym s then rbsc (surf s b) (0 * 2 + 1)%Z else 0) = 0) by (destruct (sz_lasym s); auto).
    assert (D0 : (if sz_lasym s then rbsc (surf s b) (1 * 2 + 0)%Z else 0) = 0) by (destruct (sz_lasym s); auto).
    assert (E0 : (if sz_lasym s then rbsc (surf s b) (1 * 2 + 1)%Z else 0) = 0) by (destruct (sz_lasym s); auto).
    destruct (sz_lasym s); rewrite ?A0, ?C0, ?D0, ?E0; cbn [rbcc ring_bdy Z.mul Z.add Z.eqb Pos.eqb Pos.mul Pos.add]; rewrite !Rmult_0_l, !cos_0, ?Rmult_1_l; ring.
  Qed.

  Lemma ring_lcfs k l : (0 <= k < nZ)%Z -> (0 <= l < sz_nThetaEven s)%Z -> r_lcfs s t b k l <= 101.
  Proof using OK E3 EM EN.
    intros Hk Hl. destruct (sz_lasym s) eqn:LA.
    - unfold r_lcfs, mirror. rewrite LA, on_grid_at.
      destruct (Z.leb_spec 0 k), (Z.ltb_spec k nZ), (Z.leb_spec 0 l), (Z.ltb_spec l (sz_nThetaReduced s)); cbn [andb]; try lra.
      rewrite (r_grid s OK b0 b ltac:(lia)) by lia. rewrite ring_R. pose proof (COS_bound (ang (sz_nThetaEven s) l)). lra.
    - rewrite (proj1 (lcfs_sym s OK b0 b ltac:(lia) k l LA Hk Hl)). rewrite ring_R. pose proof (COS_bound (ang (sz_nThetaEven s) l)). lra.
  Qed.
  Lemma ring_search k : (0 <= k < nZ)%Z -> fst (snd (search s t b rc rs zs zc ns sj k)) <= 101.
  Proof using OK E3 EM EN.
    intros Hk. eapply Rle_trans; [apply search_r, OK|]. unfold max_r. destruct (max_elem_spec s (r_lcfs s t b k) (nT_1 s OK)) as ((l & Hl & ->) & _). apply ring_lcfs; assumption.
  Qed.

  Lemma sum_rule : (sz_ntor s = 0 \/ sz_ntor s < Z.quot nZ 2)%Z ->
    zsum 0 nZ (fun k => axis_R (sz_lasym s) (sz_ntor s) (new_raxis_c s t b rc rs zs zc ns sj) (new_raxis_s s t b rc rs zs zc ns sj) (ang nZ k))
    = zsum 0 nZ (new_r_axis s t b rc rs zs zc ns sj).
  Proof using OK.
    intros HT. pose proof (res_cos s OK b0 HT (new_r_axis s t b rc rs zs zc ns sj) (sz_lasym s) true 0 eq_refl ltac:(pose proof (so_ntor s OK); lia)) as E.
    rewrite (zsum_ext _ _ _ (fun k => new_r_axis s t b rc rs zs zc ns sj k - axis_R (sz_lasym s) (sz_ntor s) (new_raxis_c s t b rc rs zs zc ns sj) (new_raxis_s s t b rc rs zs zc ns sj) (ang nZ k))) in E.
    - rewrite zsum_minus in E. lra.
    - intros k _. rewrite Rmult_0_l, cos_0, Rmult_1_r. reflexivity.
  Qed.

  Lemma outside k r z : r < 99 -> ~ in_box (fun th => R_internal (sz_lasym s) (sz_lthreed s) (sz_mpol s) (sz_ntor s) (surf s b) th (ang nZ k))
    (fun th => Z_internal (sz_lasym s) (sz_lthreed s) (sz_mpol s) (sz_ntor s) (surf s b) th (ang nZ k)) r z.
  Proof using OK E3 EM EN. intros L ((th1 & th2 & A & _) & _). rewrite ring_R in A. pose proof (COS_bound th1). lra. Qed.
End Wit.
