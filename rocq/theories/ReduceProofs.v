From Coq Require Import ZArith List Bool Lia Permutation Reals Lra.
From Coq Require Import SpecFloat.
From Verif Require Import Base BaseLemmas PartModel PartSpec PartProofs OmpModel OmpProofs ReduceModel.
Import ListNotations.
Open Scope Z_scope.

(** Plain sum of a list of reals: the meaning of a "volume sum". *)
Definition Rlist_sum (l : list R) : R := fold_right Rplus 0%R l.

Lemma Rlist_sum_app l m : Rlist_sum (l ++ m) = (Rlist_sum l + Rlist_sum m)%R.
Proof. induction l; cbn; [unfold Rlist_sum; cbn; lra|]. unfold Rlist_sum in *. cbn. rewrite IHl. lra. Qed.

Lemma Rlist_sum_perm l m : Permutation l m -> Rlist_sum l = Rlist_sum m.
Proof. induction 1; cbn in *; unfold Rlist_sum in *; cbn in *; lra. Qed.

Lemma Rlist_sum_flat {A} (f : A -> list R) l :
  Rlist_sum (flat_map f l) = Rlist_sum (map (fun x => Rlist_sum (f x)) l).
Proof. induction l; cbn; [reflexivity|]. rewrite Rlist_sum_app. unfold Rlist_sum in *. cbn. rewrite IHl. reflexivity. Qed.

Lemma Rlist_sum_scale k l : Rlist_sum (map (fun x => x * k)%R l) = (Rlist_sum l * k)%R.
Proof. induction l; cbn; unfold Rlist_sum in *; cbn; [lra|]. rewrite IHl. lra. Qed.

Lemma map_flat_map {A B C} (g : B -> C) (f : A -> list B) l :
  map g (flat_map f l) = flat_map (fun x => map g (f x)) l.
Proof. induction l; cbn; [reflexivity|]. rewrite map_app, IHl. reflexivity. Qed.

Lemma flat_map_ext_in {A B} (f g : A -> list B) l :
  (forall x, In x l -> f x = g x) -> flat_map f l = flat_map g l.
Proof.
  induction l; intros H; cbn; [reflexivity|]. rewrite H by (left; reflexivity). f_equal.
  apply IHl. intros; apply H; right; assumption.
Qed.

Lemma fold_left_Rplus {A} (f : A -> R) l : forall a,
  fold_left (fun s x => (s + f x)%R) l a = (a + Rlist_sum (map f l))%R.
Proof. induction l; intros; cbn; unfold Rlist_sum in *; cbn; [lra|]. rewrite IHl. lra. Qed.

Lemma for_up_Rsum lo hi (f : Z -> R) a :
  for_up lo hi (fun k s => (s + f k)%R) a = (a + Rlist_sum (map f (zrange lo hi)))%R.
Proof. unfold for_up. apply (fold_left_Rplus f). Qed.

Lemma for_up_guard lo hi (p : Z -> bool) (f : Z -> R) a :
  for_up lo hi (fun k s => if p k then (s + f k)%R else s) a
  = (a + Rlist_sum (map f (filter p (zrange lo hi))))%R.
Proof.
  unfold for_up. generalize (zrange lo hi) as l. intros l; revert a.
  induction l as [|k l IH]; intros a; cbn; [unfold Rlist_sum; cbn; lra|].
  destruct (p k); rewrite IH; unfold Rlist_sum; cbn; lra.
Qed.

Definition surf_sum (n : Z) (g : Z -> R) : R := Rlist_sum (map g (zrange 0 n)).

Lemma local_half_sum_R r ns (g : Z -> R) :
  local_half_sum Rplus 0%R r ns g =
  Rlist_sum (map g (filter (counts_half r ns) (zrange (nsMinH r) (nsMaxH r)))).
Proof. unfold local_half_sum. rewrite for_up_guard. lra. Qed.

Lemma local_half_surf_sum_R r ns nZnT (g : Z -> Z -> R) :
  local_half_surf_sum Rplus 0%R r ns nZnT g =
  Rlist_sum (map (fun h => surf_sum nZnT (g h))
             (filter (counts_half r ns) (zrange (nsMinH r) (nsMaxH r)))).
Proof.
  unfold local_half_surf_sum.
  rewrite (for_up_ext _ _ _ (fun k s => if counts_half r ns k then (s + surf_sum nZnT (g k))%R else s)).
  - rewrite for_up_guard. lra.
  - intros j t _. destruct (counts_half r ns j); [|reflexivity]. apply for_up_Rsum.
Qed.

Lemma local_full_sum_R r nc (g : Z -> Z -> R) :
  local_full_sum Rplus 0%R r nc g =
  Rlist_sum (map (fun j => surf_sum nc (g j)) (zrange (nsMinF r) (nsMaxFIncludingLcfs r))).
Proof.
  unfold local_full_sum.
  rewrite (for_up_ext _ _ _ (fun k s => (s + surf_sum nc (g k))%R)).
  - rewrite for_up_Rsum. lra.
  - intros. apply for_up_Rsum.
Qed.

Lemma local_rz_R r ns ie nc (g : Z -> Z -> R) :
  local_rz_residual Rplus 0%R r ns ie nc g =
  Rlist_sum (map (fun j => surf_sum nc (g j))
     (filter (fun j => j <? (if ie && (nsMaxF1 r =? ns) then ns else Z.min (nsMaxF r) (ns - 1)))
        (zrange (nsMinF r) (if nsMaxF1 r =? ns then ns else nsMaxF r)))).
Proof.
  unfold local_rz_residual.
  set (q := if ie && (nsMaxF1 r =? ns) then ns else Z.min (nsMaxF r) (ns - 1)).
  rewrite (for_up_ext _ _ _ (fun k s => if k <? q then (s + surf_sum nc (g k))%R else s)).
  - rewrite (for_up_guard _ _ (fun k => k <? q)). lra.
  - intros j t _. destruct (j <? q); [|reflexivity]. apply for_up_Rsum.
Qed.

(** Accumulating real partial sums: the order does not matter. *)
Lemma accumulate_R part fin a b c T cf :
  (1 <= a)%nat -> (1 <= b)%nat -> 1 <= T ->
  steps (accumulate Rplus 0%R part fin a b c) T (start 0%R) cf ->
  finished (accumulate Rplus 0%R part fin a b c) T cf ->
  shared cf = fin (Rlist_sum (map part (zrange 0 T))).
Proof.
  intros Ha Hb HT Hs Hf.
  destruct (reduce_result _ _ _ a b c T Ha Hb (1+a) (2+a+b) eq_refl eq_refl 0%R cf HT Hs Hf) as (l & P & E).
  rewrite E. f_equal. unfold acc. rewrite (fold_left_Rplus part).
  rewrite (Rlist_sum_perm _ _ (Permutation_map part P)). lra.
Qed.

(** The initial value of the accumulator does not matter. *)
Lemma accumulate_R_any part fin a b c T s0 cf :
  (1 <= a)%nat -> (1 <= b)%nat -> 1 <= T ->
  steps (accumulate Rplus 0%R part fin a b c) T (start s0) cf ->
  finished (accumulate Rplus 0%R part fin a b c) T cf ->
  shared cf = fin (Rlist_sum (map part (zrange 0 T))).
Proof.
  intros Ha Hb HT Hs Hf.
  destruct (reduce_result _ _ _ a b c T Ha Hb (1+a) (2+a+b) eq_refl eq_refl s0 cf HT Hs Hf) as (l & P & E).
  rewrite E. f_equal. unfold acc. rewrite (fold_left_Rplus part).
  rewrite (Rlist_sum_perm _ _ (Permutation_map part P)). lra.
Qed.

Section Parts.
  Context (ns T : Z) (lfreeb : bool).
  Hypothesis HT : 1 <= T.
  Hypothesis H2 : 2 * T <= ns.
  Let r t := rp_closed T t ns lfreeb.

  Lemma half_parts (G : Z -> R) :
    Rlist_sum (map (fun t => Rlist_sum (map G
        (filter (counts_half (r t) ns) (zrange (nsMinH (r t)) (nsMaxH (r t)))))) (zrange 0 T))
    = surf_sum (ns - 1) G.
  Proof.
    unfold surf_sum. rewrite <- (counted_all T ns lfreeb HT H2).
    rewrite map_flat_map, Rlist_sum_flat. reflexivity.
  Qed.

  Lemma full_parts (G : Z -> R) :
    Rlist_sum (map (fun t => Rlist_sum (map G
        (zrange (nsMinF (r t)) (nsMaxFIncludingLcfs (r t))))) (zrange 0 T))
    = surf_sum ns G.
  Proof.
    unfold surf_sum.
    assert (E : zrange 0 ns = flat_map (fun t => zrange (nsMinF (r t)) (nsMaxFIncludingLcfs (r t))) (zrange 0 T)).
    { rewrite (flat_map_ext_in _ (fun t => zrange (cut T ns lfreeb t) (cut T ns lfreeb (t + 1)))).
      - rewrite flat_map_blocks.
        + unfold cut. rewrite Z.eqb_refl. destruct (Z.eqb_spec 0 T); [lia|].
          rewrite blk_0; [reflexivity|lia|]. unfold num_surfaces_to_distribute; destruct lfreeb; lia.
        + lia.
        + intros. apply cut_mono; lia.
      - intros t Ht. apply zrange_In in Ht. rewrite <- r_lo_cut by lia. rewrite <- r_hi_cut by lia.
        reflexivity. }
    rewrite E, map_flat_map, Rlist_sum_flat. reflexivity.
  Qed.

  Lemma filter_lt lo hi q : q <= hi ->
    filter (fun j => j <? q) (zrange lo hi) = zrange lo (Z.max lo q).
  Proof.
    intros Hq. destruct (Z.le_gt_cases lo q).
    - rewrite (zrange_app lo q hi) by lia. rewrite filter_app.
      rewrite filter_all by (intros j Hj; apply zrange_In in Hj; apply Z.ltb_lt; lia).
      rewrite filter_none by (intros j Hj; apply zrange_In in Hj; apply Z.ltb_ge; lia).
      rewrite app_nil_r. f_equal. lia.
    - rewrite filter_none by (intros j Hj; apply zrange_In in Hj; apply Z.ltb_ge; lia).
      rewrite zrange_empty by lia. reflexivity.
  Qed.

  Lemma rz_parts (ie : bool) (G : Z -> R) :
    Rlist_sum (map (fun t => Rlist_sum (map G
       (filter (fun j => j <? (if ie && (nsMaxF1 (r t) =? ns) then ns else Z.min (nsMaxF (r t)) (ns - 1)))
          (zrange (nsMinF (r t)) (if nsMaxF1 (r t) =? ns then ns else nsMaxF (r t)))))) (zrange 0 T))
    = surf_sum (if ie then ns else ns - 1) G.
  Proof.
    set (N := if ie then ns else ns - 1).
    set (ct := fun t => if t =? T then N else cut T ns lfreeb t).
    assert (E : zrange 0 N = flat_map (fun t => zrange (ct t) (ct (t + 1))) (zrange 0 T)).
    { rewrite flat_map_blocks.
      - unfold ct. rewrite Z.eqb_refl. destruct (Z.eqb_spec 0 T); [lia|].
        unfold cut. destruct (Z.eqb_spec 0 T); [lia|].
        rewrite blk_0; [reflexivity|lia|]. unfold num_surfaces_to_distribute; destruct lfreeb; lia.
      - lia.
      - intros t Ht. unfold ct, cut. destruct (Z.eqb_spec t T); [lia|].
        pose proof (blk_bounds T ns lfreeb HT H2 t Ht) as B.
        pose proof (n_ns ns lfreeb) as Hn.
        destruct (Z.eqb_spec (t+1) T) as [Et|Et]; [|lia].
        assert (ns - 1 <= N) by (subst N; destruct ie; lia). lia. }
    unfold surf_sum. rewrite E, map_flat_map, Rlist_sum_flat.
    f_equal. apply map_ext_in. intros t Ht. apply zrange_In in Ht. do 2 f_equal.
    pose proof (blk_bounds T ns lfreeb HT H2 t Ht) as B.
    pose proof (n_ns ns lfreeb) as Hn.
    pose proof (r_boundary_owner T ns lfreeb HT H2 t Ht) as Hb. fold (r t) in Hb.
    assert (El : nsMinF (r t) = ct t).
    { unfold ct. destruct (Z.eqb_spec t T); [lia|]. rewrite <- r_lo_cut by lia. reflexivity. }
    assert (Eu : nsMaxF (r t) = blk (num_surfaces_to_distribute ns lfreeb) T (t + 1)) by reflexivity.
    destruct (Z.eqb_spec (nsMaxF1 (r t)) ns) as [Eb|Eb].
    - assert (t + 1 = T) by (apply Hb in Eb; lia).
      assert (ct (t + 1) = N) by (unfold ct; destruct (Z.eqb_spec (t + 1) T); lia).
      assert (El0 : nsMinF (r t) = blk (num_surfaces_to_distribute ns lfreeb) T t) by reflexivity.
      rewrite andb_true_r. destruct ie.
      + rewrite filter_lt by lia. rewrite El. f_equal. subst N. lia.
      + rewrite filter_lt by lia. rewrite El. f_equal. subst N. lia.
    - rewrite andb_false_r. assert (t + 1 < T) by (assert (t <> T - 1) by (intros Q; apply Eb, Hb, Q); lia).
      assert (ct (t + 1) = nsMaxF (r t)).
      { unfold ct. destruct (Z.eqb_spec (t + 1) T); [lia|]. unfold cut.
        destruct (Z.eqb_spec (t + 1) T); [lia|]. reflexivity. }
      assert (El0 : nsMinF (r t) = blk (num_surfaces_to_distribute ns lfreeb) T t) by reflexivity.
      rewrite filter_lt by lia. rewrite El. f_equal. lia.
  Qed.
End Parts.

(** ** IEEE addition *)

Definition fadd (x y : spec_float) : spec_float := SFadd 53 1024 x y.
Definition fzero : spec_float := S754_zero false.

Lemma fadd_comm x y : fadd x y = fadd y x.
Proof.
  unfold fadd. destruct x as [sx|sx| |sx mx ex], y as [sy|sy| |sy my ey]; cbn [SFadd]; try reflexivity.
  - destruct sx, sy; reflexivity.
  - destruct sx, sy; reflexivity.
  - rewrite (Z.min_comm ex ey). rewrite Z.add_comm. reflexivity.
Qed.

Lemma perm_two l : Permutation l (zrange 0 2) -> l = [0; 1] \/ l = [1; 0].
Proof.
  intros P. assert (L : length l = 2%nat) by (rewrite (Permutation_length P); reflexivity).
  destruct l as [|x [|y [|z l]]]; try discriminate.
  assert (Hx : In x (zrange 0 2)) by (apply (Permutation_in _ P); left; reflexivity).
  assert (Hy : In y (zrange 0 2)) by (apply (Permutation_in _ P); right; left; reflexivity).
  assert (ND : NoDup [x; y]) by (apply (Permutation_NoDup (Permutation_sym P)); apply zrange_NoDup).
  inversion ND as [|? ? Hn _]; subst. cbn in Hn.
  apply zrange_In in Hx. apply zrange_In in Hy.
  assert (x = 0 \/ x = 1) as [-> | ->] by lia; assert (y = 0 \/ y = 1) as [-> | ->] by lia; auto.
  - exfalso; apply Hn; auto.
  - exfalso; apply Hn; auto.
Qed.

Lemma perm_one l : Permutation l (zrange 0 1) -> l = [0].
Proof. intros P. apply Permutation_sym, Permutation_length_1_inv in P. exact P. Qed.

(** A partial sum computed by a loop that starts from +0 never is -0 ... but even
    for arbitrary values the order of two contributions does not matter unless
    one of them is -0; the accumulations start from +0. *)
Lemma fadd_zero_l x : fadd fzero x = match x with S754_zero _ => fzero | _ => x end.
Proof. destruct x as [s|s| |s m e]; cbn; try reflexivity. destruct s; reflexivity. Qed.

Lemma two_order x y : fadd (fadd fzero x) y = fadd (fadd fzero y) x.
Proof.
  rewrite !fadd_zero_l.
  destruct x as [sx|sx| |sx mx ex], y as [sy|sy| |sy my ey]; try reflexivity; try apply fadd_comm.
  - destruct sx, sy; reflexivity.
Qed.
