(** The interpolation kernel of a trigonometric series with halved highest
    harmonics on an even periodic grid. *)
From Coq Require Import ZArith List Bool Reals Lia Lra.
From Verif Require Import Base BaseLemmas SumLemmas TrigSums.
Open Scope R_scope.

(** factor of harmonic [n] when [Q] is the highest one *)
Definition hh (Q n : Z) : R := if negb (Q =? 0)%Z && (n =? Q)%Z then 1 / 2 else 1.
Definition Dk (g : Z -> R) (Q : Z) (b : R) : R := zsum (- Q) (Q + 1) (fun n => g (Z.abs n) * cos (IZR n * b)).

Lemma zsum_sym Q f : (0 <= Q)%Z -> zsum (- Q) (Q + 1) f = f 0%Z + zsum 1 (Q + 1) (fun n => f n + f (- n)%Z).
Proof.
  intros HQ. rewrite (zsum_split (- Q) 0) by lia. rewrite (zsum_cons 0) by lia. change (0 + 1)%Z with 1%Z.
  rewrite zsum_plus.
  assert (E : zsum (- Q) 0 f = zsum 1 (Q + 1) (fun n => f (- n)%Z)).
  { rewrite (zsum_rev 1 (Q + 1)).
    replace (zsum 1 (Q + 1) (fun j => f (- (1 + (Q + 1) - 1 - j))%Z)) with (zsum (- Q + (Q + 1)) (0 + (Q + 1)) (fun j => f (- (1 + (Q + 1) - 1 - j))%Z)) by (f_equal; lia).
    rewrite zsum_shift. apply zsum_ext. intros j Hj. f_equal. lia. }
  rewrite E. ring.
Qed.
Lemma Dk_side g Q b : (0 <= Q)%Z ->
  zsum 0 (Q + 1) (fun n => (if (n =? 0)%Z then 1 else 2) * g n * cos (IZR n * b)) = Dk g Q b.
Proof.
  intros HQ. unfold Dk. rewrite zsum_sym by lia. rewrite zsum_cons by lia. change (0 + 1)%Z with 1%Z.
  apply (f_equal2 Rplus).
  - cbn [Z.eqb Z.abs]. ring.
  - apply zsum_ext. intros n Hn. destruct (Z.eqb_spec n 0); [lia|].
    rewrite Z.abs_opp, Z.abs_eq, opp_IZR by lia. replace (- IZR n * b) with (- (IZR n * b)) by ring. rewrite cos_neg. ring.
Qed.
Lemma Dk_two g Q x b : (0 <= Q)%Z -> zsum (- Q) (Q + 1) (fun n => g (Z.abs n) * cos (x - IZR n * b)) = cos x * Dk g Q b.
Proof.
  intros HQ. unfold Dk. rewrite !zsum_sym by lia. rewrite Rmult_plus_distr_l, <- zsum_scale.
  apply (f_equal2 Rplus).
  - rewrite Rmult_0_l, Rminus_0_r, cos_0. ring.
  - apply zsum_ext. intros n Hn. rewrite Z.abs_opp, opp_IZR.
    replace (- IZR n * b) with (- (IZR n * b)) by ring. unfold Rminus at 2. rewrite Ropp_involutive.
    rewrite cos_neg, cos_minus, cos_plus. ring.
Qed.
Lemma Dk_even M d : (1 <= M)%Z -> (Z.abs d < 2 * M)%Z ->
  Dk (hh M) M (ang (2 * M) d) = if (d =? 0)%Z then IZR (2 * M) else 0.
Proof.
  intros HM Hd. set (N := (2 * M)%Z). assert (HN : (0 < N)%Z) by lia. assert (NN := NR N HN).
  assert (E : Dk (hh M) M (ang N d) = zsum 0 N (fun m => cos (IZR d * ang N m + (- (IZR d * PI))))).
  { transitivity (zsum (- M) M (fun m => cos (IZR m * ang N d))).
    - unfold Dk. rewrite zsum_cons by lia. rewrite (zsum_cons (- M) M) by lia.
      rewrite zsum_snoc by lia. unfold hh. rewrite Z.abs_opp, Z.abs_eq, Z.eqb_refl by lia.
      destruct (Z.eqb_spec M 0); [lia|]. cbn [negb andb].
      rewrite (zsum_ext _ _ _ (fun m => cos (IZR m * ang N d))).
      + rewrite opp_IZR. replace (- IZR M * ang N d) with (- (IZR M * ang N d)) by ring. rewrite cos_neg. field.
      + intros m Hm. destruct (Z.eqb_spec (Z.abs m) M); [lia|]. ring.
    - replace (zsum 0 N (fun m => cos (IZR d * ang N m + - (IZR d * PI)))) with (zsum (- M + M) (M + M) (fun m => cos (IZR d * ang N m + - (IZR d * PI)))) by (f_equal; lia).
      rewrite zsum_shift. apply zsum_ext. intros m Hm. f_equal. unfold ang. rewrite plus_IZR.
      unfold N in *. rewrite mult_IZR in *. field. intros C. apply NN. rewrite C. ring. }
  rewrite E. destruct (Z.eqb_spec d 0) as [-> | D0].
  - rewrite (zsum_ext _ _ _ (fun _ => 1)) by (intros; rewrite !Rmult_0_l, Ropp_0, Rplus_0_l; apply cos_0).
    rewrite zsum_const by lia. rewrite Z.sub_0_r. ring.
  - apply sum_cos; lia.
Qed.
Lemma Dk_odd Q d : (0 <= Q)%Z -> (Z.abs d < 2 * Q + 1)%Z ->
  Dk (fun _ => 1) Q (ang (2 * Q + 1) d) = if (d =? 0)%Z then IZR (2 * Q + 1) else 0.
Proof.
  intros HQ Hd. set (N := (2 * Q + 1)%Z). assert (HN : (0 < N)%Z) by lia. assert (NN := NR N HN).
  assert (E : Dk (fun _ => 1) Q (ang N d) = zsum 0 N (fun m => cos (IZR d * ang N m + (- (IZR d * ang N Q))))).
  { unfold Dk.
    replace (zsum 0 N (fun m => cos (IZR d * ang N m + - (IZR d * ang N Q)))) with (zsum (- Q + Q) (Q + 1 + Q) (fun m => cos (IZR d * ang N m + - (IZR d * ang N Q)))) by (f_equal; lia).
    rewrite zsum_shift. apply zsum_ext. intros m Hm. rewrite Rmult_1_l. f_equal. unfold ang. rewrite plus_IZR. field. exact NN. }
  rewrite E. destruct (Z.eqb_spec d 0) as [-> | D0].
  - rewrite (zsum_ext _ _ _ (fun _ => 1)) by (intros; rewrite !Rmult_0_l, Ropp_0, Rplus_0_l; apply cos_0).
    rewrite zsum_const by lia. rewrite Z.sub_0_r. ring.
  - apply sum_cos; lia.
Qed.
(** grids with [N] points and highest harmonic [Q] *)
Definition good (g : Z -> R) (N Q : Z) : Prop :=
  forall d, (Z.abs d < N)%Z -> Dk g Q (ang N d) = if (d =? 0)%Z then IZR N else 0.
Lemma good_even Q : (1 <= Q)%Z -> good (hh Q) (2 * Q) Q.
Proof. intros HQ d Hd. apply Dk_even; lia. Qed.
Lemma good_odd Q : (0 <= Q)%Z -> good (fun _ => 1) (2 * Q + 1) Q.
Proof. intros HQ d Hd. apply Dk_odd; lia. Qed.
