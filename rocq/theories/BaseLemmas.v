(** Lemmas about ranges and loops. *)
From Coq Require Import ZArith List Lia Bool Permutation.
From Verif Require Import Base.
Import ListNotations.
Open Scope Z_scope.

Lemma zseq_length lo n : length (zseq lo n) = n.
Proof. revert lo; induction n; simpl; intros; auto. Qed.

Lemma zseq_In n : forall lo j, In j (zseq lo n) <-> lo <= j < lo + Z.of_nat n.
Proof.
  induction n as [|n IH]; intros lo j.
  - simpl. lia.
  - cbn [zseq In]. rewrite IH. lia.
Qed.

Lemma zrange_In lo hi j : In j (zrange lo hi) <-> lo <= j < hi.
Proof. unfold zrange. rewrite zseq_In. lia. Qed.

Lemma zseq_NoDup n : forall lo, NoDup (zseq lo n).
Proof.
  induction n as [|n IH]; intros lo; cbn [zseq]; constructor; auto.
  rewrite zseq_In. lia.
Qed.

Lemma zrange_NoDup lo hi : NoDup (zrange lo hi).
Proof. apply zseq_NoDup. Qed.

Lemma zseq_app n m : forall lo,
  zseq lo (n + m) = zseq lo n ++ zseq (lo + Z.of_nat n) m.
Proof.
  induction n as [|n IH]; intros lo.
  - cbn. f_equal. lia.
  - cbn [zseq plus app]. rewrite IH. do 3 f_equal. lia.
Qed.

Lemma zrange_app lo mid hi : lo <= mid -> mid <= hi ->
  zrange lo hi = zrange lo mid ++ zrange mid hi.
Proof.
  intros. unfold zrange.
  replace (Z.to_nat (hi - lo)) with (Z.to_nat (mid - lo) + Z.to_nat (hi - mid))%nat by lia.
  rewrite zseq_app. do 2 f_equal. lia.
Qed.

Lemma zrange_empty lo hi : hi <= lo -> zrange lo hi = [].
Proof. intros. unfold zrange. replace (Z.to_nat (hi - lo)) with O by lia. reflexivity. Qed.

Lemma zrange_cons lo hi : lo < hi -> zrange lo hi = lo :: zrange (lo + 1) hi.
Proof.
  intros. unfold zrange.
  replace (Z.to_nat (hi - lo)) with (S (Z.to_nat (hi - (lo + 1)))) by lia.
  reflexivity.
Qed.

Lemma zrange_single lo : zrange lo (lo + 1) = [lo].
Proof. rewrite zrange_cons by lia. rewrite zrange_empty by lia. reflexivity. Qed.

Lemma zrange_snoc lo hi : lo <= hi -> zrange lo (hi + 1) = zrange lo hi ++ [hi].
Proof. intros. rewrite (zrange_app lo hi (hi + 1)) by lia. rewrite zrange_single. reflexivity. Qed.

Lemma for_up_empty {S} lo hi (b : Z -> S -> S) s : hi <= lo -> for_up lo hi b s = s.
Proof. intros. unfold for_up. rewrite zrange_empty by lia. reflexivity. Qed.

Lemma for_up_snoc {S} lo hi (b : Z -> S -> S) s : lo <= hi ->
  for_up lo (hi + 1) b s = b hi (for_up lo hi b s).
Proof. intros. unfold for_up. rewrite zrange_snoc by lia. rewrite fold_left_app. reflexivity. Qed.

Lemma for_up_cons {S} lo hi (b : Z -> S -> S) s : lo < hi ->
  for_up lo hi b s = for_up (lo + 1) hi b (b lo s).
Proof. intros. unfold for_up. rewrite zrange_cons by lia. reflexivity. Qed.

Lemma for_up_split {S} lo mid hi (b : Z -> S -> S) s : lo <= mid -> mid <= hi ->
  for_up lo hi b s = for_up mid hi b (for_up lo mid b s).
Proof. intros. unfold for_up. rewrite (zrange_app lo mid hi) by lia. apply fold_left_app. Qed.

(** Invariant rule for counted loops. *)
Lemma for_up_ind {S} (P : Z -> S -> Prop) (b : Z -> S -> S) lo hi s :
  lo <= hi -> P lo s ->
  (forall j t, lo <= j < hi -> P j t -> P (j + 1) (b j t)) ->
  P hi (for_up lo hi b s).
Proof.
  intros Hle H0 Hstep.
  assert (G : forall n : nat, lo + Z.of_nat n <= hi ->
                P (lo + Z.of_nat n) (for_up lo (lo + Z.of_nat n) b s)).
  { induction n as [|n IH]; intros Hn.
    - replace (lo + Z.of_nat 0) with lo by lia. rewrite for_up_empty by lia. exact H0.
    - replace (lo + Z.of_nat (Datatypes.S n)) with (lo + Z.of_nat n + 1) by lia.
      rewrite for_up_snoc by lia. apply Hstep; [lia|]. apply IH. lia. }
  specialize (G (Z.to_nat (hi - lo))).
  replace (lo + Z.of_nat (Z.to_nat (hi - lo))) with hi in G by lia.
  apply G. lia.
Qed.

Lemma for_up_ext {S} lo hi (b c : Z -> S -> S) s :
  (forall j t, lo <= j < hi -> b j t = c j t) ->
  for_up lo hi b s = for_up lo hi c s.
Proof.
  intros H. unfold for_up.
  assert (G : forall l s, (forall j, In j l -> lo <= j < hi) ->
    fold_left (fun s j => b j s) l s = fold_left (fun s j => c j s) l s).
  { induction l as [|a l IH]; intros s0 Hl; [reflexivity|]. cbn.
    rewrite H by (apply Hl; left; reflexivity). apply IH. intros; apply Hl; right; assumption. }
  apply G. intros j. apply zrange_In.
Qed.

Lemma for_down_empty {S} hi lo (b : Z -> S -> S) s : hi < lo -> for_down hi lo b s = s.
Proof. intros. unfold for_down. rewrite zrange_empty by lia. reflexivity. Qed.

Lemma for_down_step {S} hi lo (b : Z -> S -> S) s : lo <= hi ->
  for_down hi lo b s = for_down (hi - 1) lo b (b hi s).
Proof.
  intros. unfold for_down. rewrite zrange_snoc by lia.
  rewrite rev_app_distr. cbn. replace (hi - 1 + 1) with hi by lia. reflexivity.
Qed.

Lemma for_down_last {S} hi lo (b : Z -> S -> S) s : lo <= hi ->
  for_down hi lo b s = b lo (for_down hi (lo + 1) b s).
Proof.
  intros. unfold for_down. rewrite (zrange_cons lo) by lia. cbn [rev].
  rewrite fold_left_app. reflexivity.
Qed.

(** Invariant rule for down-counting loops: [P j] holds after processing all
    indices [> j]. *)
Lemma for_down_ind {S} (P : Z -> S -> Prop) (b : Z -> S -> S) hi lo s :
  lo - 1 <= hi -> P hi s ->
  (forall j t, lo <= j <= hi -> P j t -> P (j - 1) (b j t)) ->
  P (lo - 1) (for_down hi lo b s).
Proof.
  intros Hle H0 Hstep.
  remember (Z.to_nat (hi - lo + 1)) as n eqn:En.
  revert hi s Hle H0 Hstep En. induction n as [|n IH]; intros.
  - assert (hi = lo - 1) by lia. subst hi. rewrite for_down_empty by lia. exact H0.
  - rewrite for_down_step by lia.
    apply IH; try lia.
    + apply Hstep; [lia|assumption].
    + intros j t Hj. apply Hstep. lia.
Qed.

Lemma upd_eq {A} (f : Z -> A) i v : upd f i v i = v.
Proof. unfold upd. rewrite Z.eqb_refl. reflexivity. Qed.

Lemma upd_neq {A} (f : Z -> A) i j v : j <> i -> upd f i v j = f j.
Proof. intros. unfold upd. destruct (Z.eqb_spec j i); congruence. Qed.

(** A sum over disjoint consecutive blocks is the sum over their union. *)
Lemma flat_map_blocks (bound : Z -> Z) (T : Z) :
  0 <= T -> (forall t, 0 <= t < T -> bound t <= bound (t + 1)) ->
  flat_map (fun t => zrange (bound t) (bound (t + 1))) (zrange 0 T)
  = zrange (bound 0) (bound T).
Proof.
  intros HT Hm.
  assert (G : forall n : nat, Z.of_nat n <= T ->
     bound 0 <= bound (Z.of_nat n) /\
     flat_map (fun t => zrange (bound t) (bound (t + 1))) (zrange 0 (Z.of_nat n))
     = zrange (bound 0) (bound (Z.of_nat n))).
  { induction n as [|n IH]; intros Hn.
    - cbn. split; [lia|]. rewrite !zrange_empty by lia. reflexivity.
    - destruct IH as [IH1 IH2]; [lia|].
      replace (Z.of_nat (Datatypes.S n)) with (Z.of_nat n + 1) by lia.
      rewrite zrange_snoc by lia. rewrite flat_map_app, IH2. cbn [flat_map].
      rewrite app_nil_r. specialize (Hm (Z.of_nat n) ltac:(lia)).
      split; [lia|]. rewrite <- zrange_app by lia. reflexivity. }
  specialize (G (Z.to_nat T)). rewrite Z2Nat.id in G by lia. apply G. lia.
Qed.

Lemma filter_all {A} (f : A -> bool) l : (forall x, In x l -> f x = true) -> filter f l = l.
Proof.
  induction l as [|a l IH]; intros H; [reflexivity|]. cbn.
  rewrite (H a) by (left; reflexivity). f_equal. apply IH. intros; apply H; right; assumption.
Qed.

Lemma filter_none {A} (f : A -> bool) l : (forall x, In x l -> f x = false) -> filter f l = [].
Proof.
  induction l as [|a l IH]; intros H; [reflexivity|]. cbn.
  rewrite (H a) by (left; reflexivity). apply IH. intros; apply H; right; assumption.
Qed.

(** In-place recurrences: each element is computed from its already updated
    neighbour and its own old value. *)
Lemma for_up_rec {A} (F : Z -> A -> A -> A) o lo hi (f : Z -> A) :
  let r := for_up lo hi (fun j g => upd g (o + j) (F j (g (o + j - 1)) (g (o + j)))) f in
  (forall j, lo <= j < hi -> r (o + j) = F j (r (o + j - 1)) (f (o + j))) /\
  (forall i, ~ (o + lo <= i < o + hi) -> r i = f i).
Proof.
  cbv zeta. destruct (Z_le_gt_dec lo hi) as [H|H].
  - apply (for_up_ind (fun m r =>
      (forall j, lo <= j < m -> r (o + j) = F j (r (o + j - 1)) (f (o + j))) /\
      (forall i, ~ (o + lo <= i < o + m) -> r i = f i))); auto.
    + split; intros; [lia|reflexivity].
    + intros m r Hm (I1 & I2). split.
      * intros j Hj. destruct (Z.eq_dec j m) as [-> | N].
        -- rewrite upd_eq, upd_neq by lia. rewrite (I2 (o + m)) by lia. reflexivity.
        -- rewrite !upd_neq by lia. apply I1. lia.
      * intros i Hi. rewrite upd_neq by lia. apply I2. lia.
  - rewrite for_up_empty by lia. split; intros; [lia|reflexivity].
Qed.

Lemma for_down_rec {A} (F : Z -> A -> A -> A) o hi lo (f : Z -> A) :
  let r := for_down hi lo (fun j g => upd g (o + j) (F j (g (o + j + 1)) (g (o + j)))) f in
  (forall j, lo <= j <= hi -> r (o + j) = F j (r (o + j + 1)) (f (o + j))) /\
  (forall i, ~ (o + lo <= i <= o + hi) -> r i = f i).
Proof.
  cbv zeta. destruct (Z_le_gt_dec (lo - 1) hi) as [H|H].
  - pose proof (for_down_ind (fun m r =>
      (forall j, m < j <= hi -> r (o + j) = F j (r (o + j + 1)) (f (o + j))) /\
      (forall i, ~ (o + m < i <= o + hi) -> r i = f i))
      (fun j g => upd g (o + j) (F j (g (o + j + 1)) (g (o + j)))) hi lo f H) as P.
    destruct P as (P1 & P2).
    + split; intros; [lia|reflexivity].
    + intros m r Hm (I1 & I2). split.
      * intros j Hj. destruct (Z.eq_dec j m) as [-> | N].
        -- rewrite upd_eq, upd_neq by lia. rewrite (I2 (o + m)) by lia. reflexivity.
        -- rewrite !upd_neq by lia. apply I1. lia.
      * intros i Hi. rewrite upd_neq by lia. apply I2. lia.
    + split; intros; [apply P1; lia|apply P2; lia].
  - rewrite for_down_empty by lia. split; intros; [lia|reflexivity].
Qed.

(** A loop of independent stores. *)
Lemma for_up_fill {A} (idx : Z -> Z) (v : Z -> A) lo hi (f : Z -> A) :
  (forall a b, lo <= a < hi -> lo <= b < hi -> idx a = idx b -> a = b) ->
  let r := for_up lo hi (fun j g => upd g (idx j) (v j)) f in
  (forall j, lo <= j < hi -> r (idx j) = v j) /\
  (forall i, (forall j, lo <= j < hi -> i <> idx j) -> r i = f i).
Proof.
  intros INJ. cbv zeta. destruct (Z_le_gt_dec lo hi) as [H|H].
  - apply (for_up_ind (fun m r =>
      (forall j, lo <= j < m -> r (idx j) = v j) /\
      (forall i, (forall j, lo <= j < m -> i <> idx j) -> r i = f i))); auto.
    + split; intros; [lia|reflexivity].
    + intros m r Hm (I1 & I2). split.
      * intros j Hj. destruct (Z.eq_dec j m) as [-> | N]; [apply upd_eq|].
        rewrite upd_neq; [apply I1; lia|]. intros E. apply N, INJ; auto; lia.
      * intros i Hi. rewrite upd_neq by (apply Hi; lia). apply I2. intros; apply Hi; lia.
  - rewrite for_up_empty by lia. split; intros; [lia|reflexivity].
Qed.

Lemma flat_inj s a i b j : 0 <= i < s -> 0 <= j < s -> a * s + i = b * s + j -> a = b /\ i = j.
Proof.
  intros Hi Hj E.
  assert (a = b).
  { assert (X : (a * s + i) / s = a) by (rewrite Z.div_add_l, Z.div_small by lia; lia).
    assert (Y : (b * s + j) / s = b) by (rewrite Z.div_add_l, Z.div_small by lia; lia).
    rewrite <- X, <- Y, E. reflexivity. }
  subst. split; [reflexivity|lia].
Qed.
