(** C51, C77, C78: the magnetic axis proposed after a bad initial Jacobian.
    [surf s b] is the boundary described by the solver's internal coefficients b
    (C18 and C22 relate it to the boundary of the input); the axis passed in is
    (rc, rs, zs, zc). *)
From Coq Require Import ZArith List Bool Reals Lia Lra.
From Verif Require Import Base BaseLemmas SumLemmas TrigSums SizesModel FourierModel DftTables BoundaryModel BoundarySpec AxisModel AxisSpec AxisProofs AxisSearch AxisFourier AxisJac AxisWit.
Import ListNotations.
Open Scope R_scope.

Definition Rsurf (s : sizes) (b : bdy) := R_internal (sz_lasym s) (sz_lthreed s) (sz_mpol s) (sz_ntor s) (surf s b).
Definition Zsurf (s : sizes) (b : bdy) := Z_internal (sz_lasym s) (sz_lthreed s) (sz_mpol s) (sz_ntor s) (surf s b).

(** C51, first part: with stellarator symmetry and an even number of toroidal planes
    (or a single one) the position found in every plane lies in the bounding box of
    the boundary's cross section in that plane. Missing from C51: the axis that is
    returned is the Fourier fit of these positions (see the next theorem); odd
    numbers of planes and asymmetric runs (see the refutations). *)
Theorem C51_planes_partial la nfp mpol ntor nth nz mg ng s b0 b rc rs zs zc ns sj k :
  make_sizes la nfp mpol ntor nth nz mg ng = Some s -> (2 <= sz_mpol s)%Z -> sz_lasym s = false ->
  (sz_nZeta s = 1 \/ Z.even (sz_nZeta s) = true)%Z -> (0 <= k < sz_nZeta s)%Z ->
  in_box (fun th => Rsurf s b th (ang (sz_nZeta s) k)) (fun th => Zsurf s b th (ang (sz_nZeta s) k))
    (new_r_axis s (tab s b0) b rc rs zs zc ns sj k) (new_z_axis s (tab s b0) b rc rs zs zc ns sj k).
Proof. intros MS HM. exact (planes_in_box s (make_sizes_ok _ _ _ _ _ _ _ _ _ MS) b0 b HM rc rs zs zc ns sj k). Qed.
Print Assumptions C51_planes_partial.

(** C51, second part: when some axis with the available modes passes through all the
    positions, the proposed axis does, so it lies in the box in every plane. *)
Theorem C51_axis_partial la nfp mpol ntor nth nz mg ng s b0 b rc rs zs zc ns sj c1 c2 :
  make_sizes la nfp mpol ntor nth nz mg ng = Some s -> (2 <= sz_mpol s)%Z -> sz_lasym s = false ->
  (sz_nZeta s = 1 \/ Z.even (sz_nZeta s) = true)%Z ->
  (forall k, (0 <= k < sz_nZeta s)%Z ->
     axis_R false (sz_ntor s) c1 c1 (ang (sz_nZeta s) k) = new_r_axis s (tab s b0) b rc rs zs zc ns sj k /\
     axis_Z false (sz_ntor s) c2 c2 (ang (sz_nZeta s) k) = new_z_axis s (tab s b0) b rc rs zs zc ns sj k) ->
  forall k, (0 <= k < sz_nZeta s)%Z ->
  in_box (fun th => Rsurf s b th (ang (sz_nZeta s) k)) (fun th => Zsurf s b th (ang (sz_nZeta s) k))
    (axis_R false (sz_ntor s) (new_raxis_c s (tab s b0) b rc rs zs zc ns sj) rs (ang (sz_nZeta s) k))
    (axis_Z false (sz_ntor s) (new_zaxis_s s (tab s b0) b rc rs zs zc ns sj) zc (ang (sz_nZeta s) k)).
Proof.
  intros MS HM LA HZ H k Hk. pose proof (make_sizes_ok _ _ _ _ _ _ _ _ _ MS) as OK. pose proof (ms_facts _ _ _ _ _ _ _ _ _ MS) as HT.
  assert (ER : axis_R false (sz_ntor s) (new_raxis_c s (tab s b0) b rc rs zs zc ns sj) rs (ang (sz_nZeta s) k) = new_r_axis s (tab s b0) b rc rs zs zc ns sj k).
  { apply (exact_fit s OK b0 HT (new_r_axis s (tab s b0) b rc rs zs zc ns sj) false true c1 c1); [|exact Hk]. intros j Hj. symmetry. exact (proj1 (H j Hj)). }
  assert (EZ : axis_Z false (sz_ntor s) (new_zaxis_s s (tab s b0) b rc rs zs zc ns sj) zc (ang (sz_nZeta s) k) = new_z_axis s (tab s b0) b rc rs zs zc ns sj k).
  { unfold axis_Z. rewrite Rplus_comm. apply (exact_fit s OK b0 HT (new_z_axis s (tab s b0) b rc rs zs zc ns sj) true false c2 c2); [|exact Hk]. intros j Hj. symmetry. unfold fit. rewrite Rplus_comm. exact (proj2 (H j Hj)). }
  rewrite ER, EZ. exact (planes_in_box s OK b0 b HM rc rs zs zc ns sj k LA HZ Hk).
Qed.
Print Assumptions C51_axis_partial.

(** In particular the proposed axis of an axisymmetric run with one toroidal plane
    lies in the box. *)
Theorem C51_axisymmetric_partial la nfp mpol nth mg ng s b0 b rc rs zs zc ns sj :
  make_sizes la nfp mpol 0 nth 1 mg ng = Some s -> (2 <= sz_mpol s)%Z -> sz_lasym s = false ->
  in_box (fun th => Rsurf s b th 0) (fun th => Zsurf s b th 0)
    (new_raxis_c s (tab s b0) b rc rs zs zc ns sj 0) 0.
Proof.
  intros MS HM LA. pose proof (make_sizes_ok _ _ _ _ _ _ _ _ _ MS) as OK.
  assert (F : sz_ntor s = 0%Z /\ sz_nZeta s = 1%Z).
  { pose proof MS as MS'. unfold make_sizes in MS'. destruct ((nfp <? 1) || (mpol <? 1) || (0 <? 0))%Z; [discriminate|]. apply some_inj in MS'. subst s. split; reflexivity. }
  destruct F as (F1 & F2).
  assert (Z0 : new_z_axis s (tab s b0) b rc rs zs zc ns sj 0 = 0).
  { destruct (axis_sym s OK b0 b rc rs zs zc ns sj 0 LA ltac:(lia)) as (_ & ->). rewrite F2. change ((0 <=? Z.quot 1 2)%Z) with true. cbv iota.
    set (S := search s (tab s b0) b rc rs zs zc ns sj 0). assert (SB : max_z s (tab s b0) b 0 = - min_z s (tab s b0) b 0) by (apply (sym_box s OK b0 b HM 0 LA); rewrite F2; [lia|reflexivity]).
    pose proof (search_inv s b0 b rc rs zs zc ns sj 0) as I. fold S in I. destruct S as (best & (nr & nz)). destruct I as (_ & _ & _ & B3). cbn [fst snd].
    destruct B3 as [(_ & ->)|(i & j & _ & -> & _)]; [rewrite SB; lra|]. unfold gz, sym_plane. rewrite LA. reflexivity. }
  assert (C0 : forall (c : Z -> R), axis_R false (sz_ntor s) c c (ang (sz_nZeta s) 0) = c 0%Z).
  { intros c. unfold axis_R. rewrite F1. unfold zsum. change (zrange 0 (0 + 1)) with (0 :: nil)%Z. cbn [rsum]. rewrite Rmult_0_l, cos_0. ring. }
  assert (S0 : forall (c : Z -> R), axis_Z false (sz_ntor s) c c (ang (sz_nZeta s) 0) = 0).
  { intros c. unfold axis_Z. rewrite F1. unfold zsum. change (zrange 0 (0 + 1)) with (0 :: nil)%Z. cbn [rsum]. rewrite Rmult_0_l, sin_0. ring. }
  assert (A0 : ang (sz_nZeta s) 0 = 0) by (unfold ang, Rdiv; ring).
  pose proof (C51_axis_partial la nfp mpol 0 nth 1 mg ng s b0 b rc rs zs zc ns sj (fun _ => new_r_axis s (tab s b0) b rc rs zs zc ns sj 0) (fun _ => 0) MS HM LA (or_introl F2)) as T.
  specialize (T ltac:(intros k Hk; rewrite F2 in Hk; assert (k = 0%Z) by lia; subst k; rewrite C0, S0; split; [reflexivity|symmetry; exact Z0]) 0%Z ltac:(lia)).
  assert (E1 : axis_R false (sz_ntor s) (new_raxis_c s (tab s b0) b rc rs zs zc ns sj) rs (ang (sz_nZeta s) 0) = new_raxis_c s (tab s b0) b rc rs zs zc ns sj 0) by exact (C0 _).
  assert (E2 : axis_Z false (sz_ntor s) (new_zaxis_s s (tab s b0) b rc rs zs zc ns sj) zc (ang (sz_nZeta s) 0) = 0) by exact (S0 (new_zaxis_s s (tab s b0) b rc rs zs zc ns sj)).
  unfold in_box in *. rewrite E1, E2 in T. cbv beta in T. rewrite A0 in T. exact T.
Qed.
Print Assumptions C51_axisymmetric_partial.

(** C51 is false: with 7 toroidal planes the position in plane 4 is never filled in
    and stays at (0, 0), so for R = 100 + cos theta, Z = sin theta the proposed axis
    leaves the boundary in some plane, whatever the axis passed in. *)
Theorem C51_refuted : exists s b, make_sizes false 1 2 1 0 7 0 0 = Some s /\
  forall b0 rc rs zs zc ns sj, exists k, (0 <= k < sz_nZeta s)%Z /\
  ~ in_box (fun th => Rsurf s b th (ang (sz_nZeta s) k)) (fun th => Zsurf s b th (ang (sz_nZeta s) k))
    (axis_R (sz_lasym s) (sz_ntor s) (new_raxis_c s (tab s b0) b rc rs zs zc ns sj) (new_raxis_s s (tab s b0) b rc rs zs zc ns sj) (ang (sz_nZeta s) k))
    (axis_Z (sz_lasym s) (sz_ntor s) (new_zaxis_s s (tab s b0) b rc rs zs zc ns sj) (new_zaxis_c s (tab s b0) b rc rs zs zc ns sj) (ang (sz_nZeta s) k)).
Proof.
  destruct (make_sizes false 1 2 1 0 7 0 0) as [s|] eqn:MS; [|discriminate MS]. exists s, ring_bdy. split; [reflexivity|].
  pose proof (make_sizes_ok _ _ _ _ _ _ _ _ _ MS) as OK. pose proof (ms_facts _ _ _ _ _ _ _ _ _ MS) as HT.
  assert (F : sz_lasym s = false /\ sz_lthreed s = true /\ sz_mpol s = 2%Z /\ sz_ntor s = 1%Z /\ sz_nZeta s = 7%Z) by (apply some_inj in MS; subst s; repeat split; reflexivity).
  destruct F as (LA & L3 & EM & EN & EZ). intros b0 rc rs zs zc ns sj.
  pose proof (sum_rule s OK b0 rc rs zs zc ns sj HT) as SR. rewrite EZ in SR.
  set (f := fun k => axis_R _ _ _ _ _) in SR.
  destruct (low_term 0 7 f 99 ltac:(lia)) as (k & Hk & L).
  - rewrite SR. unfold zsum. change (zrange 0 7) with (0 :: 1 :: 2 :: 3 :: 4 :: 5 :: 6 :: nil)%Z. cbn [rsum].
    assert (B : forall k, (0 <= k < 7)%Z -> new_r_axis s (tab s b0) ring_bdy rc rs zs zc ns sj k <= (if (k =? 4)%Z then 0 else 101)).
    { intros k Hk. destruct (axis_sym s OK b0 ring_bdy rc rs zs zc ns sj k LA ltac:(lia)) as (-> & _). rewrite EZ. change (Z.quot 7 2) with 3%Z. change (7 - 3)%Z with 4%Z.
      destruct (Z.leb_spec k 3), (Z.ltb_spec 4 k), (Z.eqb_spec k 4); try lia; try (apply ring_search; try assumption; lia); lra. }
    pose proof (B 0%Z ltac:(lia)). pose proof (B 1%Z ltac:(lia)). pose proof (B 2%Z ltac:(lia)). pose proof (B 3%Z ltac:(lia)). pose proof (B 4%Z ltac:(lia)). pose proof (B 5%Z ltac:(lia)). pose proof (B 6%Z ltac:(lia)).
    cbn [Z.eqb Pos.eqb] in *. change (IZR (7 - 0)) with 7. lra.
  - exists k. split; [lia|]. apply outside; try assumption. rewrite EZ. exact L.
Qed.
Print Assumptions C51_refuted.

(** ... and without stellarator symmetry the planes beyond the half period are never
    filled in, for any number of planes above two. *)
Theorem C51_asymmetric_refuted : exists s b, make_sizes true 1 2 1 0 6 0 0 = Some s /\
  forall b0 rc rs zs zc ns sj, exists k, (0 <= k < sz_nZeta s)%Z /\
  ~ in_box (fun th => Rsurf s b th (ang (sz_nZeta s) k)) (fun th => Zsurf s b th (ang (sz_nZeta s) k))
    (axis_R (sz_lasym s) (sz_ntor s) (new_raxis_c s (tab s b0) b rc rs zs zc ns sj) (new_raxis_s s (tab s b0) b rc rs zs zc ns sj) (ang (sz_nZeta s) k))
    (axis_Z (sz_lasym s) (sz_ntor s) (new_zaxis_s s (tab s b0) b rc rs zs zc ns sj) (new_zaxis_c s (tab s b0) b rc rs zs zc ns sj) (ang (sz_nZeta s) k)).
Proof.
  destruct (make_sizes true 1 2 1 0 6 0 0) as [s|] eqn:MS; [|discriminate MS]. exists s, ring_bdy. split; [reflexivity|].
  pose proof (make_sizes_ok _ _ _ _ _ _ _ _ _ MS) as OK. pose proof (ms_facts _ _ _ _ _ _ _ _ _ MS) as HT.
  assert (F : sz_lasym s = true /\ sz_lthreed s = true /\ sz_mpol s = 2%Z /\ sz_ntor s = 1%Z /\ sz_nZeta s = 6%Z) by (apply some_inj in MS; subst s; repeat split; reflexivity).
  destruct F as (LA & L3 & EM & EN & EZ). intros b0 rc rs zs zc ns sj.
  pose proof (sum_rule s OK b0 rc rs zs zc ns sj HT) as SR. rewrite EZ in SR.
  set (f := fun k => axis_R _ _ _ _ _) in SR.
  destruct (low_term 0 6 f 99 ltac:(lia)) as (k & Hk & L).
  - rewrite SR. unfold zsum. change (zrange 0 6) with (0 :: 1 :: 2 :: 3 :: 4 :: 5 :: nil)%Z. cbn [rsum].
    assert (B : forall k, (0 <= k < 6)%Z -> new_r_axis s (tab s b0) ring_bdy rc rs zs zc ns sj k <= (if (k <=? 3)%Z then 101 else 0)).
    { intros k Hk. destruct (axis_asym s OK b0 ring_bdy rc rs zs zc ns sj k LA ltac:(lia)) as (-> & _). rewrite EZ. change (Z.quot 6 2) with 3%Z.
      destruct (Z.leb_spec k 3); try (apply ring_search; try assumption; lia); lra. }
    pose proof (B 0%Z ltac:(lia)). pose proof (B 1%Z ltac:(lia)). pose proof (B 2%Z ltac:(lia)). pose proof (B 3%Z ltac:(lia)). pose proof (B 4%Z ltac:(lia)). pose proof (B 5%Z ltac:(lia)).
    cbn [Z.leb Z.compare Pos.compare Pos.compare_cont] in *. change (IZR (6 - 0)) with 6. lra.
  - exists k. split; [lia|]. apply outside; try assumption. rewrite EZ. exact L.
Qed.
Print Assumptions C51_asymmetric_refuted.

(** C77: the derivatives in s are taken relative to the axis that was passed in, in
    every plane and both symmetries. *)
Theorem C77_old_axis la nfp mpol ntor nth nz mg ng s b0 rc rs zs zc k :
  make_sizes la nfp mpol ntor nth nz mg ng = Some s -> (0 <= k < sz_nZeta s)%Z ->
  r_axis s (tab s b0) rc rs k = axis_R (sz_lasym s) (sz_ntor s) rc rs (ang (sz_nZeta s) k) /\
  z_axis s (tab s b0) zs zc k = axis_Z (sz_lasym s) (sz_ntor s) zs zc (ang (sz_nZeta s) k).
Proof. intros MS. exact (old_axis s (make_sizes_ok _ _ _ _ _ _ _ _ _ MS) b0 rc rs zs zc k). Qed.
Print Assumptions C77_old_axis.

(** C77 on a symmetry plane (the plane of zeta = 0, or of half a period): the
    position has Z = 0, and either it attains the largest smallest Jacobian over the
    61 points of the line Z = 0 across the boundary's R extent, and that Jacobian has
    the required sign everywhere; or no such point exists and R is the midpoint. *)
Theorem C77_symmetry_plane_partial la nfp mpol ntor nth nz mg ng s b0 b rc rs zs zc ns sj k :
  make_sizes la nfp mpol ntor nth nz mg ng = Some s -> (2 <= sz_mpol s)%Z -> (2 <= ns)%Z -> sz_lasym s = false ->
  (k = 0 \/ 2 * k = sz_nZeta s)%Z ->
  let r := fst (snd (search s (tab s b0) b rc rs zs zc ns sj k)) in
  let lo := min_r s (tab s b0) b k in let hi := max_r s (tab s b0) b k in
  snd (snd (search s (tab s b0) b rc rs zs zc ns sj k)) = 0 /\ exists best, 0 <= best /\
  (forall i, (0 <= i < 61)%Z -> exists l, (0 <= l < sz_nThetaEven s)%Z /\ J s b rc rs zs zc ns sj k (grid lo hi i) 0 (ang (sz_nThetaEven s) l) <= best) /\
  (0 < best -> forall l, (0 <= l < sz_nThetaEven s)%Z -> best <= J s b rc rs zs zc ns sj k r 0 (ang (sz_nThetaEven s) l)) /\
  (best = 0 -> r = (hi + lo) / 2).
Proof.
  intros MS M2 N2 LA K. pose proof (make_sizes_ok _ _ _ _ _ _ _ _ _ MS) as OK. pose proof (so_nZeta s OK) as HZ.
  assert (K' : (k = 0 \/ k = Z.quot (sz_nZeta s) 2 /\ 2 * k = sz_nZeta s)%Z).
  { destruct K as [->|E]; [left; reflexivity|right; split; [|exact E]]. rewrite <- E, Z.mul_comm, Z.quot_mul by lia. reflexivity. }
  apply (search_sym s OK b0 b M2 rc rs zs zc ns sj N2 LA k).
  - lia.
  - unfold sym_plane. rewrite LA. destruct K' as [->|(<- & _)]; rewrite Z.eqb_refl, ?orb_true_r; reflexivity.
  - destruct K as [->|E]; [rewrite Z.sub_0_r; apply Z_mod_same_full|]. rewrite Z.mod_small by lia. lia.
Qed.
Print Assumptions C77_symmetry_plane_partial.

(** C77 elsewhere: R is the R of a maximiser over the 61 x 61 grid and Z is the Z of a
    maximiser. Missing: that it is the same maximiser, which fails to be guaranteed
    because a tie replaces only Z. *)
Theorem C77_general_plane_partial la nfp mpol ntor nth nz mg ng s b0 b rc rs zs zc ns sj k :
  make_sizes la nfp mpol ntor nth nz mg ng = Some s -> (2 <= sz_mpol s)%Z -> (2 <= ns)%Z -> sz_lasym s = false ->
  (0 < k < sz_nZeta s)%Z -> k <> Z.quot (sz_nZeta s) 2 ->
  let r := fst (snd (search s (tab s b0) b rc rs zs zc ns sj k)) in
  let z := snd (snd (search s (tab s b0) b rc rs zs zc ns sj k)) in
  let gr := grid (min_r s (tab s b0) b k) (max_r s (tab s b0) b k) in let gz := grid (min_z s (tab s b0) b k) (max_z s (tab s b0) b k) in
  exists best, 0 <= best /\
  (forall i j, (0 <= i < 61)%Z -> (0 <= j < 61)%Z -> exists l, (0 <= l < sz_nThetaEven s)%Z /\ J s b rc rs zs zc ns sj k (gr i) (gz j) (ang (sz_nThetaEven s) l) <= best) /\
  (0 < best -> exists i j, (0 <= i < 61)%Z /\ (0 <= j < 61)%Z /\
     (forall l, (0 <= l < sz_nThetaEven s)%Z -> best <= J s b rc rs zs zc ns sj k r (gz j) (ang (sz_nThetaEven s) l)) /\
     (forall l, (0 <= l < sz_nThetaEven s)%Z -> best <= J s b rc rs zs zc ns sj k (gr i) z (ang (sz_nThetaEven s) l))).
Proof.
  intros MS M2 N2 LA Hk NQ. apply (search_gen s (make_sizes_ok _ _ _ _ _ _ _ _ _ MS) b0 b M2 rc rs zs zc ns sj N2 LA k); [lia|].
  unfold sym_plane. rewrite LA. destruct (Z.eqb_spec k 0); [lia|]. destruct (Z.eqb_spec k (Z.quot (sz_nZeta s) 2)); [lia|reflexivity].
Qed.
Print Assumptions C77_general_plane_partial.

(** C78: among all axes with the available modes the proposed one is closest to the
    positions found in the planes, in the least-squares sense. *)
Theorem C78_least_squares la nfp mpol ntor nth nz mg ng s b0 b rc rs zs zc ns sj c1 c2 :
  make_sizes la nfp mpol ntor nth nz mg ng = Some s ->
  let N := sz_nZeta s in let x := new_r_axis s (tab s b0) b rc rs zs zc ns sj in let z := new_z_axis s (tab s b0) b rc rs zs zc ns sj in
  zsum 0 N (fun k => (x k - axis_R (sz_lasym s) (sz_ntor s) (new_raxis_c s (tab s b0) b rc rs zs zc ns sj) (new_raxis_s s (tab s b0) b rc rs zs zc ns sj) (ang N k)) ^ 2)
    <= zsum 0 N (fun k => (x k - axis_R (sz_lasym s) (sz_ntor s) c1 c2 (ang N k)) ^ 2) /\
  zsum 0 N (fun k => (z k - axis_Z (sz_lasym s) (sz_ntor s) (new_zaxis_s s (tab s b0) b rc rs zs zc ns sj) (new_zaxis_c s (tab s b0) b rc rs zs zc ns sj) (ang N k)) ^ 2)
    <= zsum 0 N (fun k => (z k - axis_Z (sz_lasym s) (sz_ntor s) c1 c2 (ang N k)) ^ 2).
Proof.
  intros MS N x z. pose proof (make_sizes_ok _ _ _ _ _ _ _ _ _ MS) as OK. pose proof (ms_facts _ _ _ _ _ _ _ _ _ MS) as HT. split.
  - exact (best_fit s OK b0 HT x (sz_lasym s) true c1 c2).
  - pose proof (best_fit s OK b0 HT z true (sz_lasym s) c2 c1) as B. unfold fit in B. 
    rewrite (zsum_ext _ _ _ (fun k => (z k - ((if sz_lasym s then cpart s (fixup s (accumulate s 1 (bt_cosnv (tab s b0)) z)) (ang N k) else 0) + spart s (accumulate s (-1) (bt_sinnv (tab s b0)) z) (ang N k))) ^ 2)).
    2:{ intros k _. unfold axis_Z. f_equal. f_equal. apply Rplus_comm. }
    rewrite (zsum_ext 0 N (fun k => (z k - axis_Z (sz_lasym s) (sz_ntor s) c1 c2 (ang N k)) ^ 2) (fun k => (z k - ((if sz_lasym s then cpart s c2 (ang N k) else 0) + spart s c1 (ang N k))) ^ 2)).
    2:{ intros k _. unfold axis_Z. f_equal. f_equal. apply Rplus_comm. }
    exact B.
Qed.
Print Assumptions C78_least_squares.

(** C78, second sentence. *)
Theorem C78_exact la nfp mpol ntor nth nz mg ng s b0 b rc rs zs zc ns sj c1 c2 d1 d2 :
  make_sizes la nfp mpol ntor nth nz mg ng = Some s ->
  let N := sz_nZeta s in let x := new_r_axis s (tab s b0) b rc rs zs zc ns sj in let z := new_z_axis s (tab s b0) b rc rs zs zc ns sj in
  (forall k, (0 <= k < N)%Z -> x k = axis_R (sz_lasym s) (sz_ntor s) c1 c2 (ang N k) /\ z k = axis_Z (sz_lasym s) (sz_ntor s) d1 d2 (ang N k)) ->
  forall k, (0 <= k < N)%Z ->
  axis_R (sz_lasym s) (sz_ntor s) (new_raxis_c s (tab s b0) b rc rs zs zc ns sj) (new_raxis_s s (tab s b0) b rc rs zs zc ns sj) (ang N k) = x k /\
  axis_Z (sz_lasym s) (sz_ntor s) (new_zaxis_s s (tab s b0) b rc rs zs zc ns sj) (new_zaxis_c s (tab s b0) b rc rs zs zc ns sj) (ang N k) = z k.
Proof.
  intros MS N x z H k Hk. pose proof (make_sizes_ok _ _ _ _ _ _ _ _ _ MS) as OK. pose proof (ms_facts _ _ _ _ _ _ _ _ _ MS) as HT. split.
  - apply (exact_fit s OK b0 HT x (sz_lasym s) true c1 c2); [|exact Hk]. intros j Hj. exact (proj1 (H j Hj)).
  - unfold axis_Z. rewrite Rplus_comm. apply (exact_fit s OK b0 HT z true (sz_lasym s) d2 d1); [|exact Hk]. intros j Hj. unfold fit. rewrite Rplus_comm. exact (proj2 (H j Hj)).
Qed.
Print Assumptions C78_exact.

(** Concrete cases: sizes meeting the hypotheses, with symmetry planes 0 and 3 of 6,
    and the boundary R = 100 + cos theta, Z = sin theta. *)
Example C51_case : exists s, make_sizes false 1 2 1 0 6 0 0 = Some s /\ (2 <= sz_mpol s)%Z /\ sz_lasym s = false /\ sz_nZeta s = 6%Z /\ Z.even (sz_nZeta s) = true /\
  (2 * 3 = sz_nZeta s)%Z /\ (1 <> Z.quot (sz_nZeta s) 2)%Z /\
  (forall th ze, Rsurf s ring_bdy th ze = 100 + cos th).
Proof.
  destruct (make_sizes false 1 2 1 0 6 0 0) as [s|] eqn:MS; [|discriminate MS]. exists s.
  pose proof (make_sizes_ok _ _ _ _ _ _ _ _ _ MS) as OK. split; [reflexivity|].
  assert (F : sz_lasym s = false /\ sz_lthreed s = true /\ sz_mpol s = 2%Z /\ sz_ntor s = 1%Z /\ sz_nZeta s = 6%Z) by (apply some_inj in MS; subst s; repeat split; reflexivity).
  destruct F as (LA & L3 & EM & EN & EZ). rewrite LA, EM, EZ. split; [lia|]. do 4 (split; [reflexivity|]). split; [discriminate|].
  intros. apply ring_R; assumption.
Qed.
Example C51_axisymmetric_case : exists s, make_sizes false 1 2 0 0 1 0 0 = Some s /\ (2 <= sz_mpol s)%Z /\ sz_lasym s = false.
Proof. eexists. split; [reflexivity|]. split; [cbn; lia|reflexivity]. Qed.
