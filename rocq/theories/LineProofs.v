(** line_segment profiles. *)
From Coq Require Import ZArith List Reals Lia Lra Bool.
From Verif Require Import Base BaseLemmas SumLemmas ProfileModel ProfileSpec CubicProofs.
Import ListNotations.
Open Scope R_scope.

Lemma vlen_cons a v : vlen (a :: v) = (vlen v + 1)%Z.
Proof. unfold vlen. cbn [List.length]. lia. Qed.
Lemma vat_cons a v i : (0 < i)%Z -> vat (a :: v) i = vat v (i - 1).
Proof.
  intros. unfold vat. replace (Z.to_nat i) with (S (Z.to_nat (i - 1))) by lia. reflexivity.
Qed.

Lemma lower_bound_spec v x : let i := lower_bound v x in
  (0 <= i <= vlen v)%Z /\ (forall j, (0 <= j < i)%Z -> vat v j < x) /\ ((i < vlen v)%Z -> x <= vat v i).
Proof.
  induction v as [|a v IH]; cbv zeta in *.
  - cbn. repeat split; try lia.
  - cbn [lower_bound]. rewrite vlen_cons. destruct (rltb a x) eqn:E.
    + apply rltb_true in E. destruct IH as (I1 & I2 & I3). set (k := lower_bound v x) in *.
      split; [lia|]. split.
      * intros j Hj. destruct (Z.eq_dec j 0) as [-> | N]; [exact E|].
        rewrite vat_cons by lia. apply I2. lia.
      * intros Hk. rewrite vat_cons by lia. replace (1 + k - 1)%Z with k by lia. apply I3. lia.
    + apply rltb_false in E. unfold vlen. split; [lia|]. split; [intros; lia|]. intros _. exact E.
Qed.

Section Line.
  Context (knots values : list R).
  Hypothesis Hlen : (2 <= length knots)%nat.
  Hypothesis Hval : length values = length knots.
  Hypothesis Hinc : increasing knots.
  Let n := vlen knots.

  Lemma Hn2 : (2 <= n)%Z. Proof. unfold n, vlen. lia. Qed.
  Lemma lguard : ((n <? 2)%Z || negb (n =? vlen values)%Z)%bool = false.
  Proof.
    pose proof Hn2. destruct (Z.ltb_spec n 2); [lia|]. unfold n, vlen. rewrite Hval, Z.eqb_refl. reflexivity.
  Qed.
  Lemma kinc i j : (0 <= i < j)%Z -> (j < n)%Z -> vat knots i < vat knots j.
  Proof. intros. apply inc_vat; auto. Qed.

  (** the search between knots *)
  Lemma lb_at k x : (1 <= k < n)%Z -> vat knots (k - 1) < x <= vat knots k -> lower_bound knots x = k.
  Proof.
    intros Hk Hx. destruct (lower_bound_spec knots x) as (A & B & C). cbv zeta in *. fold n in A, C.
    set (i := lower_bound knots x) in *.
    destruct (Z_lt_ge_dec i k) as [L|G].
    - assert (x <= vat knots i) by (apply C; lia).
      destruct (Z.eq_dec i (k - 1)) as [E|N]; [rewrite E in H; lra|].
      pose proof (kinc i (k - 1)%Z ltac:(lia) ltac:(lia)). lra.
    - destruct (Z.eq_dec i k); [assumption|].
      pose proof (B k ltac:(lia)). lra.
  Qed.
  Lemma lb_first x : x <= vat knots 0 -> lower_bound knots x = 0%Z.
  Proof.
    intros Hx. destruct (lower_bound_spec knots x) as (A & B & C). cbv zeta in *.
    destruct (Z.eq_dec (lower_bound knots x) 0); [assumption|].
    pose proof (B 0%Z ltac:(lia)). lra.
  Qed.
  Lemma lb_last x : vat knots (n - 1) < x -> lower_bound knots x = n.
  Proof.
    intros Hx. pose proof Hn2. destruct (lower_bound_spec knots x) as (A & B & C). cbv zeta in *. fold n in A, C.
    destruct (Z.eq_dec (lower_bound knots x) n); [assumption|].
    assert (x <= vat knots (lower_bound knots x)) by (apply C; lia).
    destruct (Z.eq_dec (lower_bound knots x) (n - 1)) as [E|N]; [rewrite E in H0; lra|].
    pose proof (kinc (lower_bound knots x) (n - 1)%Z ltac:(lia) ltac:(lia)). lra.
  Qed.

  (** What the code returns: inside a segment, the straight line of the NEXT
      segment, and the last value in the last segment. *)
  Lemma line_next k x : (1 <= k <= n - 2)%Z -> vat knots (k - 1) < x <= vat knots k ->
    evalLineSegment knots values x
    = vat values k + (vat values (k + 1) - vat values k)
                     * ((x - vat knots k) / (vat knots (k + 1) - vat knots k)).
  Proof.
    intros Hk Hx. unfold evalLineSegment. fold n. rewrite lguard.
    rewrite (lb_at k x) by (lia || exact Hx).
    destruct (Z.geb_spec k (n - 1)); [lia|]. destruct (Z.eqb_spec k 0); [lia|]. ring.
  Qed.
  Lemma line_last x : vat knots (n - 2) < x -> evalLineSegment knots values x = vat values (n - 1).
  Proof.
    intros Hx. pose proof Hn2. unfold evalLineSegment. fold n. rewrite lguard.
    destruct (Rlt_dec (vat knots (n - 1)) x) as [L|L].
    - rewrite lb_last by exact L. destruct (Z.geb_spec n (n - 1)); [reflexivity|lia].
    - rewrite (lb_at (n - 1)%Z x); [|lia|].
      + destruct (Z.geb_spec (n - 1) (n - 1)); [reflexivity|lia].
      + replace (n - 1 - 1)%Z with (n - 2)%Z by lia. lra.
  Qed.
  Lemma line_first x : x <= vat knots 0 -> evalLineSegment knots values x = vat values 0.
  Proof.
    intros Hx. pose proof Hn2. unfold evalLineSegment. fold n. rewrite lguard, lb_first by exact Hx.
    destruct (Z.geb_spec 0 (n - 1)); [lia|]. reflexivity.
  Qed.

  Lemma line_interpolates : interpolates (evalLineSegment knots values) knots values.
  Proof.
    intros i Hi. pose proof Hn2.
    assert (E : nth i knots 0 = vat knots (Z.of_nat i)) by (unfold vat; rewrite Nat2Z.id; reflexivity).
    assert (E' : nth i values 0 = vat values (Z.of_nat i)) by (unfold vat; rewrite Nat2Z.id; reflexivity).
    rewrite E, E'. assert (Hz : (0 <= Z.of_nat i < n)%Z) by (unfold n, vlen; lia).
    set (k := Z.of_nat i) in *.
    destruct (Z.eq_dec k 0) as [-> | N0]; [apply line_first; lra|].
    pose proof (kinc (k - 1)%Z k ltac:(lia) ltac:(lia)).
    destruct (Z.eq_dec k (n - 1)) as [-> | N1].
    - apply line_last. replace (n - 2)%Z with (n - 1 - 1)%Z by lia. assumption.
    - rewrite (line_next k) by (lia || lra). unfold Rdiv. ring.
  Qed.

  (** ** Integrated variant *)
  Lemma seg_val x0 x1 y0 y1 : x1 <> x0 ->
    integrate_segment x0 x1 y0 y1 = Val ((y0 + y1) / 2 * (x1 - x0)).
  Proof.
    intros H. unfold integrate_segment, odiv. destruct (Req_EM_T (x1 - x0) 0); [lra|].
    cbn. f_equal. field. lra.
  Qed.

  Definition trap (i : Z) : R := (vat values i + vat values (i + 1)) / 2 * (vat knots (i + 1) - vat knots i).

  Lemma segments_spec k x : (0 <= k <= n - 1)%Z ->
    (forall j, (0 <= j < k)%Z -> vat knots (j + 1) < x) ->
    (k = (n - 1)%Z \/ x <= vat knots (k + 1)) ->
    segments knots values x (Z.to_nat n) 0 (Val 0) = (Val (zsum 0 k trap), k).
  Proof.
    intros Hk Hlt Hstop.
    enough (G : forall f i s, (0 <= i <= k)%Z -> (k - i < Z.of_nat f)%Z ->
      segments knots values x f i (Val s) = (Val (s + zsum i k trap), k)).
    { rewrite G by lia. rewrite Rplus_0_l. reflexivity. }
    induction f as [|f IH]; intros i s Hi Hf; [lia|]. cbn [segments]. fold n.
    destruct (Z.eq_dec i k) as [-> | N].
    - destruct Hstop as [-> | Hs].
      + destruct (Z.ltb_spec (n - 1) (n - 1)); [lia|]. cbn [andb]. rewrite zsum_empty by lia. rewrite Rplus_0_r. reflexivity.
      + rewrite (proj2 (rltb_false _ _)) by exact Hs. rewrite andb_false_r.
        rewrite zsum_empty by lia. rewrite Rplus_0_r. reflexivity.
    - destruct (Z.ltb_spec i (n - 1)); [|lia].
      rewrite (proj2 (rltb_true _ _)) by (apply Hlt; lia). cbn [andb].
      pose proof (kinc i (i + 1)%Z ltac:(lia) ltac:(lia)).
      rewrite seg_val by lra. cbn [obind]. rewrite IH by lia.
      rewrite (zsum_cons i k) by lia. unfold trap at 2. f_equal. f_equal. ring.
  Qed.

  Lemma line_int_beyond x : vat knots (n - 1) < x -> evalLineSegmentIntegrated knots values x = OutOfRange.
  Proof.
    intros Hx. pose proof Hn2. unfold evalLineSegmentIntegrated. fold n. rewrite lguard.
    assert (H0 : vat knots 0 < vat knots (n - 1)) by (apply kinc; lia).
    rewrite (proj2 (rleb_false _ _)) by lra.
    rewrite (segments_spec (n - 1)%Z).
    - cbn [fst snd obind]. unfold vget. fold n.
      destruct (Z.leb_spec 0 (n - 1)), (Z.ltb_spec (n - 1) n); try lia. cbn [andb obind].
      destruct (Z.leb_spec 0 (n - 1 + 1)), (Z.ltb_spec (n - 1 + 1) n); try lia. reflexivity.
    - lia.
    - intros j Hj. destruct (Z.eq_dec (j + 1) (n - 1)) as [-> | N]; [exact Hx|].
      pose proof (kinc (j + 1)%Z (n - 1)%Z ltac:(lia) ltac:(lia)). lra.
    - left. reflexivity.
  Qed.

  Lemma line_int_knot k : (1 <= k < n)%Z ->
    evalLineSegmentIntegrated knots values (vat knots k) = Val (zsum 0 k trap).
  Proof.
    intros Hk. pose proof Hn2. unfold evalLineSegmentIntegrated. fold n. rewrite lguard.
    pose proof (kinc 0%Z k ltac:(lia) ltac:(lia)) as H0.
    rewrite (proj2 (rleb_false _ _)) by lra.
    rewrite (segments_spec (k - 1)%Z).
    - cbn [fst snd obind]. unfold vget. unfold vlen at 3 4. rewrite Hval. fold (vlen knots). fold n.
      replace (k - 1 + 1)%Z with k by lia.
      destruct (Z.leb_spec 0 (k - 1)), (Z.ltb_spec (k - 1) n), (Z.leb_spec 0 k), (Z.ltb_spec k n); try lia.
      cbn [andb obind]. rewrite Rmin_left by lra.
      pose proof (kinc (k - 1)%Z k ltac:(lia) ltac:(lia)).
      rewrite seg_val by lra. cbn [obind].
      rewrite (proj2 (rltb_false _ _)).
      + f_equal. pose proof (zsum_snoc 0 (k - 1) trap ltac:(lia)) as E. unfold trap at 3 in E.
        replace (k - 1 + 1)%Z with k in E by lia. symmetry. exact E.
      + destruct (Z.eq_dec k (n - 1)) as [-> | N]; [lra|]. left. apply kinc; lia.
    - lia.
    - intros j Hj. apply kinc; lia.
    - right. replace (k - 1 + 1)%Z with k by lia. lra.
  Qed.

  (** Between knots: the trapezoid over the part of the segment, with the value of
      the far knot. *)
  Lemma line_int_inside k x : (1 <= k < n)%Z -> vat knots (k - 1) < x <= vat knots k ->
    evalLineSegmentIntegrated knots values x
    = Val (zsum 0 (k - 1) trap + (vat values (k - 1) + vat values k) / 2 * (x - vat knots (k - 1))).
  Proof.
    intros Hk Hx. pose proof Hn2. unfold evalLineSegmentIntegrated. fold n. rewrite lguard.
    assert (H0 : vat knots 0 < x).
    { destruct (Z.eq_dec k 1) as [E|N]; [subst k; apply Hx|].
      pose proof (kinc 0%Z (k - 1)%Z ltac:(lia) ltac:(lia)). lra. }
    rewrite (proj2 (rleb_false _ _)) by lra.
    rewrite (segments_spec (k - 1)%Z).
    - cbn [fst snd obind]. unfold vget. unfold vlen at 3 4. rewrite Hval. fold (vlen knots). fold n.
      replace (k - 1 + 1)%Z with k by lia.
      destruct (Z.leb_spec 0 (k - 1)), (Z.ltb_spec (k - 1) n), (Z.leb_spec 0 k), (Z.ltb_spec k n); try lia.
      cbn [andb obind]. rewrite Rmin_left by lra.
      rewrite seg_val by lra. cbn [obind].
      rewrite (proj2 (rltb_false _ _)).
      + reflexivity.
      + destruct (Z.eq_dec k (n - 1)) as [-> | N]; [lra|]. pose proof (kinc k (n - 1)%Z ltac:(lia) ltac:(lia)). lra.
    - lia.
    - intros j Hj. destruct (Z.eq_dec (j + 1) (k - 1)) as [-> | N]; [apply Hx|].
      pose proof (kinc (j + 1)%Z (k - 1)%Z ltac:(lia) ltac:(lia)). lra.
    - right. replace (k - 1 + 1)%Z with k by lia. lra.
  Qed.
End Line.

Lemma line_int_origin knots values : (2 <= length knots)%nat -> length values = length knots ->
  0 <= vat knots 0 -> evalLineSegmentIntegrated knots values 0 = NotFinite.
Proof.
  intros H1 H2 H3. unfold evalLineSegmentIntegrated. rewrite lguard by assumption.
  rewrite (proj2 (rleb_true _ _)) by assumption.
  unfold integrate_segment, odiv. destruct (Req_EM_T (0 - 0) 0); [reflexivity|lra].
Qed.
