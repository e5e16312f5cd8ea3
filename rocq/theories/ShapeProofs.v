From Coq Require Import ZArith List Bool Reals Lia Lra.
From Verif Require Import Base BaseLemmas SumLemmas SizesModel DftTables DftSpec GeoModel ShapeModel ShapeSpec.
Open Scope R_scope.

(** one-dimensional scan; [ab] is the value stored for a new maximum *)
Definition step1 (ab : R -> R) (v : R) (st : R * R) : R * R :=
  if Rle_dec (snd st) v then (fst st, ab v) else if Rle_dec v (fst st) then (v, snd st) else st.
Definition scan1 (ab : R -> R) (f : Z -> R) (n : Z) (st : R * R) : R * R := for_up 0 n (fun l st => step1 ab (f l) st) st.

Section Scan.
Variables (n : Z) (big : R) (f h : Z -> R) (ab : R -> R).
Hypothesis N : (1 <= n)%Z.
Hypothesis Bf : forall l, (0 <= l < n)%Z -> - big < f l < big.
Hypothesis Bh : forall l, (0 <= l < n)%Z -> - big < h l < big.
Hypothesis AB : forall v, f 0%Z <= v -> ab v = v.
Hypothesis H0 : h 0%Z = f 0%Z.
Hypothesis NC : exists l, (0 <= l < n)%Z /\ f l <> f 0%Z.

Definition inv1 (k : Z) (st : R * R) : Prop :=
  (exists l, (0 <= l < k)%Z /\ snd st = f l) /\ (forall l, (0 <= l < k)%Z -> f l <= snd st) /\
  (fst st = big \/ exists l, (0 <= l < k)%Z /\ fst st = f l) /\ (forall l, (0 <= l < k)%Z -> fst st <= f l \/ f 0%Z <= f l).
Lemma pass1 : inv1 n (scan1 ab f n (big, - big)).
Proof.
  unfold scan1.
  assert (K : (n = 0%Z -> for_up 0 n (fun l st => step1 ab (f l) st) (big, - big) = (big, - big)) /\ ((1 <= n)%Z -> inv1 n (for_up 0 n (fun l st => step1 ab (f l) st) (big, - big)))).
  { apply (for_up_ind (fun k st => (k = 0%Z -> st = (big, - big)) /\ ((1 <= k)%Z -> inv1 k st))); [lia|split; [reflexivity|lia]|].
    intros j st Hj (I0 & I1). split; [lia|]. intros _. destruct (Z.eq_dec j 0) as [->|J].
    - rewrite (I0 eq_refl). unfold step1. cbn [fst snd]. pose proof (Bf 0%Z ltac:(lia)) as B. destruct (Rle_dec (- big) (f 0%Z)); [|lra].
      rewrite AB by lra. split; [|split; [|split]]; cbn [fst snd].
      + exists 0%Z. split; [lia|reflexivity].
      + intros l Hl. assert (l = 0%Z) as -> by lia. lra.
      + left. reflexivity.
      + intros l Hl. assert (l = 0%Z) as -> by lia. right. lra.
    - destruct (I1 ltac:(lia)) as ((l0 & L0 & E0) & A & B & C). pose proof (A 0%Z ltac:(lia)) as A0. unfold step1. destruct (Rle_dec (snd st) (f j)) as [G|G]; [|destruct (Rle_dec (f j) (fst st)) as [G2|G2]]; (split; [|split; [|split]]); cbn [fst snd].
      + exists j. split; [lia|]. apply AB. lra.
      + intros l Hl. rewrite AB by lra. destruct (Z.eq_dec l j) as [->|]; [lra|]. specialize (A l ltac:(lia)). lra.
      + destruct B as [B|(l1 & L1 & B)]; [left; exact B|right; exists l1; split; [lia|exact B]].
      + intros l Hl. destruct (Z.eq_dec l j) as [->|]; [right; lra|]. apply C. lia.
      + exists l0. split; [lia|exact E0].
      + intros l Hl. destruct (Z.eq_dec l j) as [->|]; [lra|]. apply A. lia.
      + right. exists j. split; [lia|reflexivity].
      + intros l Hl. destruct (Z.eq_dec l j) as [->|]; [left; lra|]. destruct (C l ltac:(lia)); [left; lra|right; assumption].
      + exists l0. split; [lia|exact E0].
      + intros l Hl. destruct (Z.eq_dec l j) as [->|]; [lra|]. apply A. lia.
      + destruct B as [B|(l1 & L1 & B)]; [left; exact B|right; exists l1; split; [lia|exact B]].
      + intros l Hl. destruct (Z.eq_dec l j) as [->|]; [left; lra|]. apply C. lia. }
  apply K. exact N.
Qed.

Definition inv2 (k : Z) (st : R * R) : Prop :=
  ((exists l, (0 <= l < n)%Z /\ snd st = f l) \/ (exists l, (0 <= l < k)%Z /\ snd st = h l)) /\
  (forall l, (0 <= l < n)%Z -> f l <= snd st) /\ (forall l, (0 <= l < k)%Z -> h l <= snd st) /\
  ((exists l, (0 <= l < n)%Z /\ fst st = f l) \/ (exists l, (0 <= l < k)%Z /\ fst st = h l)) /\
  (forall l, (0 <= l < n)%Z -> fst st <= f l) /\ (forall l, (0 <= l < k)%Z -> fst st <= h l).
Lemma pass2_first st : inv1 n st -> inv2 1 (step1 ab (h 0%Z) st).
Proof.
  intros ((l0 & L0 & E0) & A & B & C). pose proof (A 0%Z ltac:(lia)) as A0. rewrite H0. unfold step1.
  assert (ONE : forall P : Z -> Prop, P 0%Z -> forall l, (0 <= l < 1)%Z -> P l) by (intros P Q l Hl; assert (l = 0%Z) as -> by lia; exact Q).
  destruct (Rle_dec (snd st) (f 0%Z)) as [G|G]; [|destruct (Rle_dec (f 0%Z) (fst st)) as [G2|G2]]; (split; [|split; [|split; [|split; [|split]]]]); cbn [fst snd].
  - left. exists 0%Z. split; [lia|]. apply AB. lra.
  - intros l Hl. rewrite AB by lra. specialize (A l Hl). lra.
  - apply ONE. rewrite AB by lra. rewrite H0. lra.
  - destruct NC as (l1 & L1 & D). pose proof (A l1 L1). destruct (C l1 L1) as [C1|C1]; [|exfalso; apply D; lra].
    destruct B as [B|B]; [pose proof (Bf l1 L1); lra|left; exact B].
  - destruct NC as (l1 & L1 & D). pose proof (A l1 L1). destruct (C l1 L1) as [C1|C1]; [|exfalso; apply D; lra].
    intros l Hl. destruct (C l Hl); lra.
  - destruct NC as (l1 & L1 & D). pose proof (A l1 L1). destruct (C l1 L1) as [C1|C1]; [|exfalso; apply D; lra].
    apply ONE. rewrite H0. lra.
  - left. exists l0. auto.
  - exact A.
  - apply ONE. rewrite H0. lra.
  - left. exists 0%Z. split; [lia|reflexivity].
  - intros l Hl. destruct (C l Hl); lra.
  - apply ONE. rewrite H0. lra.
  - left. exists l0. auto.
  - exact A.
  - apply ONE. rewrite H0. lra.
  - destruct B as [B|B]; [pose proof (Bf 0%Z ltac:(lia)); lra|left; exact B].
  - intros l Hl. destruct (C l Hl); lra.
  - apply ONE. rewrite H0. lra.
Qed.
Lemma pass2_step k st : (1 <= k < n)%Z -> inv2 k st -> inv2 (k + 1) (step1 ab (h k) st).
Proof.
  intros Hk (E & A & A2 & B & C & C2). pose proof (A 0%Z ltac:(lia)) as A0. pose proof (C 0%Z ltac:(lia)) as C0.
  assert (X : forall v, (exists l, (0 <= l < n)%Z /\ v = f l) \/ (exists l, (0 <= l < k)%Z /\ v = h l) -> (exists l, (0 <= l < n)%Z /\ v = f l) \/ (exists l, (0 <= l < k + 1)%Z /\ v = h l)).
  { intros v [V|(l & L & V)]; [left; exact V|right; exists l; split; [lia|exact V]]. }
  assert (NEW : forall P : Z -> Prop, P k -> (forall l, (0 <= l < k)%Z -> P l) -> forall l, (0 <= l < k + 1)%Z -> P l).
  { intros P P1 P2 l Hl. destruct (Z.eq_dec l k) as [->|]; [exact P1|apply P2; lia]. }
  unfold step1. destruct (Rle_dec (snd st) (h k)) as [G|G]; [|destruct (Rle_dec (h k) (fst st)) as [G2|G2]]; (split; [|split; [|split; [|split; [|split]]]]); cbn [fst snd].
  - right. exists k. split; [lia|]. apply AB. lra.
  - intros l Hl. rewrite AB by lra. specialize (A l Hl). lra.
  - rewrite AB by lra. apply NEW; [lra|]. intros l Hl. specialize (A2 l Hl). lra.
  - apply X, B.
  - exact C.
  - apply NEW; [lra|exact C2].
  - apply X, E.
  - exact A.
  - apply NEW; [lra|exact A2].
  - right. exists k. split; [lia|reflexivity].
  - intros l Hl. specialize (C l Hl). lra.
  - apply NEW; [lra|]. intros l Hl. specialize (C2 l Hl). lra.
  - apply X, E.
  - exact A.
  - apply NEW; [lra|exact A2].
  - apply X, B.
  - exact C.
  - apply NEW; [lra|exact C2].
Qed.
Lemma both_passes : inv2 n (scan1 ab h n (scan1 ab f n (big, - big))).
Proof.
  unfold scan1 at 1. rewrite (for_up_split 0 1 n) by lia. change (for_up 0 1 (fun l st => step1 ab (h l) st) (scan1 ab f n (big, - big))) with (step1 ab (h 0%Z) (scan1 ab f n (big, - big))).
  apply (for_up_ind inv2); [lia|apply pass2_first, pass1|]. intros j st Hj. apply pass2_step. lia.
Qed.
End Scan.

(** the scan of a section, coordinate by coordinate *)
Lemma point_x r z st : let st' := scan_point r z st in (minimum_x st', maximum_x st') = step1 (fun v => v) r (minimum_x st, maximum_x st).
Proof.
  cbv zeta. unfold scan_point, step1. cbn [fst snd]. destruct (Rle_dec (maximum_x st) r); [|destruct (Rle_dec r (minimum_x st))];
  (destruct (Rle_dec (maximum_z st) z); [|destruct (Rle_dec z (minimum_z st))]); reflexivity.
Qed.
Lemma point_z r z st : let st' := scan_point r z st in (minimum_z st', maximum_z st') = step1 Rabs z (minimum_z st, maximum_z st).
Proof.
  cbv zeta. unfold scan_point, step1. cbn [fst snd]. destruct (Rle_dec (maximum_x st) r); [|destruct (Rle_dec r (minimum_x st))];
  (destruct (Rle_dec (maximum_z st) z); [|destruct (Rle_dec z (minimum_z st))]); reflexivity.
Qed.
Lemma for_up_map {A B} (p : A -> B) (f : Z -> A -> A) (h : Z -> B -> B) lo hi a :
  (forall j x, p (f j x) = h j (p x)) -> p (for_up lo hi f a) = for_up lo hi h (p a).
Proof. intros H. unfold for_up. revert a. induction (zrange lo hi) as [|j L IH]; intros a; [reflexivity|]. cbn [fold_left]. rewrite IH, H. reflexivity. Qed.

Section Sec.
Variables (s : sizes) (big : R) (g : full_geo) (sqrtSF : Z -> R) (k jF : Z).
Local Notation T := (sz_nThetaReduced s).
Local Notation S_ := (scan_section s big g sqrtSF k jF).
Local Notation r1 := (fun l => yr s g sqrtSF jF k l).
Local Notation r2 := (fun l => yr s g sqrtSF jF (reflected s k) l).
Local Notation z1 := (fun l => 1 * yz s g sqrtSF jF k l).
Local Notation z2 := (fun l => -1 * yz s g sqrtSF jF (reflected s k) l).
Lemma section_two : S_ = for_up 0 T (fun l st => scan_point (r2 l) (z2 l) st) (for_up 0 T (fun l st => scan_point (r1 l) (z1 l) st) (scan_start big)).
Proof. reflexivity. Qed.
Lemma section_x : (minimum_x S_, maximum_x S_) = scan1 (fun v => v) r2 T (scan1 (fun v => v) r1 T (big, - big)).
Proof.
  rewrite section_two. set (a := for_up 0 T _ (scan_start big)).
  rewrite (for_up_map (fun st => (minimum_x st, maximum_x st)) _ (fun l st => step1 (fun v => v) (r2 l) st)) by (intros; apply point_x).
  unfold scan1. f_equal. unfold a.
  rewrite (for_up_map (fun st => (minimum_x st, maximum_x st)) _ (fun l st => step1 (fun v => v) (r1 l) st)) by (intros; apply point_x). reflexivity.
Qed.
Lemma section_z : (minimum_z S_, maximum_z S_) = scan1 Rabs z2 T (scan1 Rabs z1 T (big, - big)).
Proof.
  rewrite section_two. set (a := for_up 0 T _ (scan_start big)).
  rewrite (for_up_map (fun st => (minimum_z st, maximum_z st)) _ (fun l st => step1 Rabs (z2 l) st)) by (intros; apply point_z).
  unfold scan1. f_equal. unfold a.
  rewrite (for_up_map (fun st => (minimum_z st, maximum_z st)) _ (fun l st => step1 Rabs (z1 l) st)) by (intros; apply point_z). reflexivity.
Qed.
(** rzmax is the R of a point whose Z is the stored maximum *)
Lemma section_rz : (1 <= T)%Z -> (forall l, (0 <= l < T)%Z -> - big < z1 l) -> 0 <= z1 0%Z ->
  (exists l, (0 <= l < T)%Z /\ rzmax S_ = r1 l /\ maximum_z S_ = z1 l) \/ (exists l, (0 <= l < T)%Z /\ rzmax S_ = r2 l /\ maximum_z S_ = z2 l).
Proof.
  intros HT BZ Z0. rewrite section_two.
  assert (P : forall r z st, 0 <= maximum_z st -> 0 <= maximum_z (scan_point r z st) /\
    ((rzmax (scan_point r z st) = r /\ maximum_z (scan_point r z st) = z) \/ (rzmax (scan_point r z st) = rzmax st /\ maximum_z (scan_point r z st) = maximum_z st))).
  { intros r z st N. unfold scan_point. destruct (Rle_dec (maximum_z st) z); [|destruct (Rle_dec z (minimum_z st))];
    (destruct (Rle_dec (maximum_x st) r); [|destruct (Rle_dec r (minimum_x st))]); cbn [maximum_z rzmax]; try rewrite Rabs_right by lra; (split; [lra|]); auto. }
  refine (proj2 (for_up_ind (fun j st => 0 <= maximum_z st /\ ((exists l, (0 <= l < T)%Z /\ rzmax st = r1 l /\ maximum_z st = z1 l) \/ (exists l, (0 <= l < j)%Z /\ rzmax st = r2 l /\ maximum_z st = z2 l))) _ 0%Z T _ _ _ _)); [lia| |].
  - rewrite (for_up_split 0 1 T) by lia.
    assert (K : forall st, 0 <= maximum_z st -> (exists l, (0 <= l < 1)%Z /\ rzmax st = r1 l /\ maximum_z st = z1 l) ->
      let st' := for_up 1 T (fun l st => scan_point (r1 l) (z1 l) st) st in 0 <= maximum_z st' /\ exists l, (0 <= l < T)%Z /\ rzmax st' = r1 l /\ maximum_z st' = z1 l).
    { intros st N I. cbv zeta. apply (for_up_ind (fun j st => 0 <= maximum_z st /\ exists l, (0 <= l < j)%Z /\ rzmax st = r1 l /\ maximum_z st = z1 l)); [lia|split; assumption|].
      intros j st' Hj (N' & l & L & E). destruct (P (r1 j) (z1 j) st' N') as (N2 & [Q|(Q1 & Q2)]); (split; [exact N2|]); [exists j; split; [lia|exact Q]|exists l; rewrite Q1, Q2; split; [lia|exact E]]. }
    assert (F : let st := scan_point (r1 0%Z) (z1 0%Z) (scan_start big) in rzmax st = r1 0%Z /\ maximum_z st = z1 0%Z).
    { cbv zeta. unfold scan_point, scan_start. cbn [maximum_z]. destruct (Rle_dec (- big) (z1 0%Z)) as [_|G]; [|exfalso; specialize (BZ 0%Z ltac:(lia)); lra].
      rewrite Rabs_right by lra. destruct (Rle_dec _ (r1 0%Z)); [|destruct (Rle_dec (r1 0%Z) _)]; split; reflexivity. }
    destruct F as (F1 & F2). change (for_up 0 1 (fun l st => scan_point (r1 l) (z1 l) st) (scan_start big)) with (scan_point (r1 0%Z) (z1 0%Z) (scan_start big)).
    destruct (K (scan_point (r1 0%Z) (z1 0%Z) (scan_start big))) as (K1 & K2); [rewrite F2; exact Z0|exists 0%Z; split; [lia|split; assumption]|]. split; [exact K1|left; exact K2].
  - intros j st Hj (N & [(l & L & E)|(l & L & E)]); destruct (P (r2 j) (z2 j) st N) as (N2 & [Q|(Q1 & Q2)]); (split; [exact N2|]).
    + right. exists j. split; [lia|exact Q].
    + left. exists l. rewrite Q1, Q2. auto.
    + right. exists j. split; [lia|exact Q].
    + right. exists l. rewrite Q1, Q2. split; [lia|exact E].
Qed.
End Sec.
