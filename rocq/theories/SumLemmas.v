(** Finite real sums over lists and integer ranges, and the effect of loops that
    accumulate into arrays ("scatter"). *)
From Coq Require Import ZArith List Lia Reals Lra Permutation.
From Verif Require Import Base BaseLemmas.
Import ListNotations.
Open Scope R_scope.

Fixpoint rsum {A} (l : list A) (f : A -> R) : R :=
  match l with [] => 0 | a :: l' => f a + rsum l' f end.
Definition zsum (lo hi : Z) (f : Z -> R) : R := rsum (zrange lo hi) f.

Lemma rsum_ext {A} (l : list A) f g : (forall a, In a l -> f a = g a) -> rsum l f = rsum l g.
Proof.
  induction l as [|a l IH]; intros H; cbn; [reflexivity|].
  rewrite H by (left; auto). rewrite IH; auto. intros; apply H; right; auto.
Qed.
Lemma rsum_plus {A} (l : list A) f g : rsum l (fun a => f a + g a) = rsum l f + rsum l g.
Proof. induction l; cbn; lra. Qed.
Lemma rsum_minus {A} (l : list A) f g : rsum l (fun a => f a - g a) = rsum l f - rsum l g.
Proof. induction l; cbn; lra. Qed.
Lemma rsum_opp {A} (l : list A) f : rsum l (fun a => - f a) = - rsum l f.
Proof. induction l; cbn; lra. Qed.
Lemma rsum_scale {A} (l : list A) c f : rsum l (fun a => c * f a) = c * rsum l f.
Proof. induction l as [|a l IH]; cbn; [ring|]. rewrite IH. ring. Qed.
Lemma rsum_scale_r {A} (l : list A) c f : rsum l (fun a => f a * c) = rsum l f * c.
Proof. induction l as [|a l IH]; cbn; [ring|]. rewrite IH. ring. Qed.
Lemma rsum_zero {A} (l : list A) f : (forall a, In a l -> f a = 0) -> rsum l f = 0.
Proof.
  induction l as [|a l IH]; intros H; cbn; [reflexivity|].
  rewrite H by (left; auto). rewrite IH; [lra|]. intros; apply H; right; auto.
Qed.
Lemma rsum_app {A} (l k : list A) f : rsum (l ++ k) f = rsum l f + rsum k f.
Proof. induction l as [|a l IH]; cbn; [lra|]. rewrite IH. lra. Qed.
Lemma rsum_map {A B} (h : A -> B) l f : rsum (map h l) f = rsum l (fun a => f (h a)).
Proof. induction l as [|a l IH]; cbn; [reflexivity|]. rewrite IH. reflexivity. Qed.
Lemma rsum_flat_map {A B} (h : A -> list B) l f : rsum (flat_map h l) f = rsum l (fun a => rsum (h a) f).
Proof. induction l as [|a l IH]; cbn; [reflexivity|]. rewrite rsum_app, IH. reflexivity. Qed.
Lemma rsum_swap {A B} (l : list A) (k : list B) f :
  rsum l (fun a => rsum k (fun b => f a b)) = rsum k (fun b => rsum l (fun a => f a b)).
Proof.
  induction l as [|a l IH]; cbn; [symmetry; apply rsum_zero; auto|].
  rewrite IH, <- rsum_plus. reflexivity.
Qed.
Lemma rsum_perm {A} (l k : list A) f : Permutation l k -> rsum l f = rsum k f.
Proof. induction 1; cbn; lra. Qed.
(** Sum against an indicator. *)
Lemma rsum_pick {A} (eqb : A -> A -> bool) (l : list A) b f :
  (forall a c, eqb a c = true <-> a = c) -> NoDup l -> In b l ->
  rsum l (fun a => if eqb a b then f a else 0) = f b.
Proof.
  intros E N. induction N as [|a l Ha N IH]; intros I; [destruct I|]. cbn [rsum].
  destruct I as [->|I].
  - rewrite (proj2 (E b b) eq_refl). rewrite rsum_zero; [lra|].
    intros c Hc. destruct (eqb c b) eqn:Q; auto. apply E in Q. subst. contradiction.
  - destruct (eqb a b) eqn:Q; [apply E in Q; subst; contradiction|]. rewrite IH by auto. lra.
Qed.

Lemma zsum_empty lo hi f : (hi <= lo)%Z -> zsum lo hi f = 0.
Proof. intros. unfold zsum. rewrite zrange_empty by lia. reflexivity. Qed.
Lemma zsum_cons lo hi f : (lo < hi)%Z -> zsum lo hi f = f lo + zsum (lo + 1) hi f.
Proof. intros. unfold zsum. rewrite zrange_cons by lia. reflexivity. Qed.
Lemma zsum_snoc lo hi f : (lo <= hi)%Z -> zsum lo (hi + 1) f = zsum lo hi f + f hi.
Proof. intros. unfold zsum. rewrite zrange_snoc, rsum_app by lia. cbn. lra. Qed.
Lemma zsum_split lo mid hi f : (lo <= mid)%Z -> (mid <= hi)%Z ->
  zsum lo hi f = zsum lo mid f + zsum mid hi f.
Proof. intros. unfold zsum. rewrite (zrange_app lo mid hi), rsum_app by lia. reflexivity. Qed.
Lemma zsum_ext lo hi f g : (forall j, (lo <= j < hi)%Z -> f j = g j) -> zsum lo hi f = zsum lo hi g.
Proof. intros H. apply rsum_ext. intros j Hj. apply H, zrange_In; auto. Qed.
Lemma zsum_zero lo hi f : (forall j, (lo <= j < hi)%Z -> f j = 0) -> zsum lo hi f = 0.
Proof. intros H. apply rsum_zero. intros j Hj. apply H, zrange_In; auto. Qed.
Lemma zsum_scale lo hi c f : zsum lo hi (fun j => c * f j) = c * zsum lo hi f.
Proof. apply rsum_scale. Qed.
Lemma zsum_scale_r lo hi c f : zsum lo hi (fun j => f j * c) = zsum lo hi f * c.
Proof. apply rsum_scale_r. Qed.
Lemma zsum_plus lo hi f g : zsum lo hi (fun j => f j + g j) = zsum lo hi f + zsum lo hi g.
Proof. apply rsum_plus. Qed.
Lemma zsum_minus lo hi f g : zsum lo hi (fun j => f j - g j) = zsum lo hi f - zsum lo hi g.
Proof. apply rsum_minus. Qed.
Lemma zsum_swap a b c d f :
  zsum a b (fun i => zsum c d (fun j => f i j)) = zsum c d (fun j => zsum a b (fun i => f i j)).
Proof. apply rsum_swap. Qed.
Lemma zsum_const lo hi c : (lo <= hi)%Z -> zsum lo hi (fun _ => c) = IZR (hi - lo) * c.
Proof.
  intros H. replace hi with (lo + Z.of_nat (Z.to_nat (hi - lo)))%Z by lia.
  generalize (Z.to_nat (hi - lo)). intros k. induction k as [|k IH].
  - rewrite zsum_empty by lia. replace (lo + Z.of_nat 0 - lo)%Z with 0%Z by lia. lra.
  - replace (lo + Z.of_nat (S k))%Z with (lo + Z.of_nat k + 1)%Z by lia.
    rewrite zsum_snoc, IH by lia.
    replace (lo + Z.of_nat k + 1 - lo)%Z with (lo + Z.of_nat k - lo + 1)%Z by lia.
    rewrite plus_IZR. lra.
Qed.
Lemma zsum_pick lo hi b f : (lo <= b < hi)%Z ->
  zsum lo hi (fun a => if Z.eqb a b then f a else 0) = f b.
Proof.
  intros H. apply rsum_pick; [apply Z.eqb_eq|apply zrange_NoDup|apply zrange_In; auto].
Qed.
Lemma zsum_shift lo hi d f : zsum (lo + d) (hi + d) f = zsum lo hi (fun j => f (j + d)%Z).
Proof.
  destruct (Z.le_gt_cases lo hi) as [H|H]; [|rewrite !zsum_empty by lia; reflexivity].
  replace hi with (lo + Z.of_nat (Z.to_nat (hi - lo)))%Z by lia.
  generalize (Z.to_nat (hi - lo)). intros k. induction k as [|k IH].
  - rewrite !zsum_empty by lia. reflexivity.
  - replace (lo + Z.of_nat (S k))%Z with (lo + Z.of_nat k + 1)%Z by lia.
    replace (lo + Z.of_nat k + 1 + d)%Z with (lo + Z.of_nat k + d + 1)%Z by lia.
    rewrite !zsum_snoc by lia. rewrite IH. reflexivity.
Qed.
(** Reversal of the summation index. *)
Lemma zsum_rev lo hi f : zsum lo hi f = zsum lo hi (fun j => f (lo + hi - 1 - j)%Z).
Proof.
  destruct (Z.le_gt_cases lo hi) as [H|H]; [|rewrite !zsum_empty by lia; reflexivity].
  replace hi with (lo + Z.of_nat (Z.to_nat (hi - lo)))%Z by lia.
  generalize (Z.to_nat (hi - lo)). clear H hi. intros k. revert lo f. induction k as [|k IH]; intros.
  - rewrite !zsum_empty by lia. reflexivity.
  - rewrite zsum_cons by lia.
    replace (lo + Z.of_nat (S k))%Z with (lo + Z.of_nat k + 1)%Z by lia.
    rewrite (zsum_snoc lo (lo + Z.of_nat k)) by lia.
    replace (lo + (lo + Z.of_nat k + 1) - 1 - (lo + Z.of_nat k))%Z with lo by lia.
    replace (lo + Z.of_nat k + 1)%Z with (lo + 1 + Z.of_nat k)%Z at 1 by lia.
    rewrite IH. rewrite Rplus_comm. f_equal.
    replace (lo + 1 + Z.of_nat k)%Z with (lo + Z.of_nat k + 1)%Z by lia.
    rewrite (zsum_shift lo (lo + Z.of_nat k) 1). apply zsum_ext. intros j Hj. f_equal. lia.
Qed.

(** ** Accumulating loops *)
Definition scatter {A} (l : list A) (idx : A -> Z) (g : A -> R) (a0 : Z -> R) : Z -> R :=
  fold_left (fun a k => upd a (idx k) (a (idx k) + g k)) l a0.

Lemma scatter_at {A} (l : list A) idx g : forall a0 j,
  scatter l idx g a0 j = a0 j + rsum l (fun k => if Z.eqb (idx k) j then g k else 0).
Proof.
  induction l as [|k l IH]; intros; [cbn; lra|].
  cbn [rsum]. change (scatter (k :: l) idx g a0) with (scatter l idx g (upd a0 (idx k) (a0 (idx k) + g k))).
  rewrite IH. unfold upd.
  rewrite (Z.eqb_sym j). destruct (Z.eqb_spec (idx k) j) as [E|E]; [subst; lra|lra].
Qed.

Lemma scatter_sum {A B} (eqb : B -> B -> bool) (L : list A) (Q : list B) (pidx : B -> Z) (tgt : A -> B) g a0 W :
  (forall a c, eqb a c = true <-> a = c) -> NoDup Q ->
  (forall p q, In p Q -> In q Q -> pidx p = pidx q -> p = q) ->
  (forall k, In k L -> In (tgt k) Q) ->
  rsum Q (fun q => scatter L (fun k => pidx (tgt k)) g a0 (pidx q) * W q)
  = rsum Q (fun q => a0 (pidx q) * W q) + rsum L (fun k => g k * W (tgt k)).
Proof.
  intros E N INJ T.
  rewrite (rsum_ext Q _ (fun q => a0 (pidx q) * W q +
     rsum L (fun k => if eqb q (tgt k) then g k * W q else 0))).
  - rewrite rsum_plus. f_equal. rewrite rsum_swap. apply rsum_ext. intros k Hk.
    apply (rsum_pick eqb Q (tgt k) (fun q => g k * W q)); auto.
  - intros q Hq. rewrite scatter_at, Rmult_plus_distr_r. f_equal.
    rewrite <- rsum_scale_r. apply rsum_ext. intros k Hk.
    destruct (Z.eqb_spec (pidx (tgt k)) (pidx q)) as [I|I].
    + apply INJ in I; auto. rewrite (proj2 (E q (tgt k))) by auto. lra.
    + destruct (eqb q (tgt k)) eqn:Q1; [|lra]. apply E in Q1. subst. congruence.
Qed.

(** ** Reading loops as folds *)
Lemma fold_flat_map {A B S} (h : A -> list B) (f : S -> B -> S) l s :
  fold_left f (flat_map h l) s = fold_left (fun s a => fold_left f (h a) s) l s.
Proof. revert s. induction l as [|a l IH]; intros; cbn; [reflexivity|]. rewrite fold_left_app. apply IH. Qed.
Lemma fold_map {A B S} (h : A -> B) (f : S -> B -> S) l s :
  fold_left f (map h l) s = fold_left (fun s a => f s (h a)) l s.
Proof. revert s. induction l as [|a l IH]; intros; cbn; [reflexivity|]. apply IH. Qed.
Lemma fold_ext {A S} (f g : S -> A -> S) l s :
  (forall s a, In a l -> f s a = g s a) -> fold_left f l s = fold_left g l s.
Proof.
  revert s. induction l as [|a l IH]; intros s H; cbn; [reflexivity|].
  rewrite H by (left; auto). apply IH. intros; apply H; right; auto.
Qed.
(** A component of the state that evolves on its own. *)
Lemma fold_project {A S T} (pr : S -> T) (f : S -> A -> S) (g : T -> A -> T) l s :
  (forall s a, In a l -> pr (f s a) = g (pr s) a) -> pr (fold_left f l s) = fold_left g l (pr s).
Proof.
  revert s. induction l as [|a l IH]; intros s H; cbn; [reflexivity|].
  rewrite IH by (intros; apply H; right; auto). rewrite H by (left; auto). reflexivity.
Qed.

(** Pairs (m, n), row by row. *)
Definition pairs (mlo mhi nlo nhi : Z) : list (Z * Z) :=
  flat_map (fun m => map (fun n => (m, n)) (zrange nlo nhi)) (zrange mlo mhi).
Lemma pairs_In mlo mhi nlo nhi m n : In (m, n) (pairs mlo mhi nlo nhi) <-> (mlo <= m < mhi /\ nlo <= n < nhi)%Z.
Proof.
  unfold pairs. rewrite in_flat_map. split.
  - intros (a & Ha & Hb). apply in_map_iff in Hb. destruct Hb as (b & E & Hb). injection E as -> ->.
    apply zrange_In in Ha. apply zrange_In in Hb. lia.
  - intros (Hm & Hn). exists m. split; [apply zrange_In; auto|]. apply in_map, zrange_In; auto.
Qed.
Lemma NoDup_app_intro {A} (l k : list A) : NoDup l -> NoDup k -> (forall x, In x l -> In x k -> False) -> NoDup (l ++ k).
Proof.
  induction 1 as [|a l Ha N IH]; intros Nk D; [exact Nk|]. cbn. constructor.
  - rewrite in_app_iff. intros [H|H]; [contradiction|]. apply (D a); [left; auto|auto].
  - apply IH; auto. intros x Hx. apply D. right; auto.
Qed.
Lemma pairs_NoDup mlo mhi nlo nhi : NoDup (pairs mlo mhi nlo nhi).
Proof.
  unfold pairs. pose proof (zrange_NoDup mlo mhi) as N. induction N as [|a l Ha N IH]; cbn; [constructor|].
  apply NoDup_app_intro; auto.
  - apply FinFun.Injective_map_NoDup; [|apply zrange_NoDup]. intros x y E. injection E. auto.
  - intros q H1 H2. apply in_map_iff in H1. destruct H1 as (b & <- & _).
    apply in_flat_map in H2. destruct H2 as (c & Hc & H2). apply in_map_iff in H2. destruct H2 as (d & E & _).
    injection E as -> ->. contradiction.
Qed.
Lemma rsum_pairs mlo mhi nlo nhi f :
  rsum (pairs mlo mhi nlo nhi) f = zsum mlo mhi (fun m => zsum nlo nhi (fun n => f (m, n))).
Proof.
  unfold pairs, zsum. rewrite rsum_flat_map. apply rsum_ext. intros m Hm. rewrite rsum_map. reflexivity.
Qed.
Lemma for_up_pairs {S} (body : Z -> Z -> S -> S) mlo mhi nlo nhi s :
  for_up mlo mhi (fun m s => for_up nlo nhi (fun n s => body m n s) s) s
  = fold_left (fun s q => body (fst q) (snd q) s) (pairs mlo mhi nlo nhi) s.
Proof.
  unfold for_up, pairs. rewrite fold_flat_map. apply fold_ext. intros t m _. rewrite fold_map. reflexivity.
Qed.
Definition pair_eqb (p q : Z * Z) : bool := Z.eqb (fst p) (fst q) && Z.eqb (snd p) (snd q).
Lemma pair_eqb_eq p q : pair_eqb p q = true <-> p = q.
Proof.
  unfold pair_eqb. destruct p as (a, b), q as (c, d). cbn. rewrite Bool.andb_true_iff, !Z.eqb_eq.
  split; [intros (-> & ->); auto|intros E; injection E; auto].
Qed.

(** Loops that carry a running counter. *)
Lemma for_up_counter {S} (b : Z -> Z -> S -> S) d lo hi k0 s0 : (lo <= hi)%Z ->
  for_up lo hi (fun n (s : Z * S) => ((fst s + d)%Z, b n (fst s) (snd s))) (k0, s0)
  = ((k0 + d * (hi - lo))%Z, for_up lo hi (fun n s => b n (k0 + d * (n - lo))%Z s) s0).
Proof.
  intros H. replace hi with (lo + Z.of_nat (Z.to_nat (hi - lo)))%Z by lia.
  generalize (Z.to_nat (hi - lo)). intros k. induction k as [|k IH].
  - rewrite !for_up_empty by lia. f_equal. lia.
  - replace (lo + Z.of_nat (Datatypes.S k))%Z with (lo + Z.of_nat k + 1)%Z by lia.
    rewrite !for_up_snoc by lia. rewrite IH. cbn [fst snd]. f_equal; lia.
Qed.

(** An array whose entries are given by indicator sums, integrated against weights. *)
Lemma gather_sum {A B} (eqb : B -> B -> bool) (L : list A) (Q : list B) (X : B -> R) (tgt : A -> B) g W :
  (forall a c, eqb a c = true <-> a = c) -> NoDup Q ->
  (forall k, In k L -> In (tgt k) Q) ->
  (forall q, In q Q -> X q = rsum L (fun k => if eqb (tgt k) q then g k else 0)) ->
  rsum Q (fun q => X q * W q) = rsum L (fun k => g k * W (tgt k)).
Proof.
  intros E N T HX.
  rewrite (rsum_ext Q _ (fun q => rsum L (fun k => if eqb q (tgt k) then g k * W q else 0))).
  - rewrite rsum_swap. apply rsum_ext. intros k Hk.
    apply (rsum_pick eqb Q (tgt k) (fun q => g k * W q)); auto.
  - intros q Hq. rewrite HX, <- rsum_scale_r by auto. apply rsum_ext. intros k Hk.
    destruct (eqb (tgt k) q) eqn:E1, (eqb q (tgt k)) eqn:E2; try lra.
    + apply E in E1. symmetry in E1. apply E in E1. congruence.
    + apply E in E2. symmetry in E2. apply E in E2. congruence.
Qed.
Lemma fold_filter {A S} (p : A -> bool) (f : S -> A -> S) l s :
  fold_left (fun s a => if p a then f s a else s) l s = fold_left f (filter p l) s.
Proof. revert s. induction l as [|a l IH]; intros; cbn; [reflexivity|]. rewrite IH. destruct (p a); reflexivity. Qed.
Lemma rsum_filter {A} (p : A -> bool) l f : rsum (filter p l) f = rsum l (fun a => if p a then f a else 0).
Proof. induction l as [|a l IH]; cbn; [reflexivity|]. destruct (p a); cbn; rewrite IH; lra. Qed.
Lemma assign_at {A} (l : list A) idx (g : A -> R) : NoDup (map idx l) -> forall a0 j,
  (forall k, In k l -> a0 (idx k) = 0) ->
  fold_left (fun a k => upd a (idx k) (g k)) l a0 j = a0 j + rsum l (fun k => if Z.eqb (idx k) j then g k else 0).
Proof.
  induction l as [|k l IH]; intros N a0 j H0; [cbn; lra|].
  cbn [map] in N. inversion N as [|? ? N1 N2]; subst. cbn [fold_left rsum]. rewrite IH; auto.
  - unfold upd. rewrite (Z.eqb_sym j). destruct (Z.eqb_spec (idx k) j) as [E|E].
    + subst j. rewrite H0 by (left; auto). lra.
    + lra.
  - intros c Hc. unfold upd. destruct (Z.eqb_spec (idx c) (idx k)) as [E|E]; [|apply H0; right; auto].
    exfalso. apply N1. rewrite <- E. apply in_map; auto.
Qed.
Lemma zsum_abs ns k g : (0 < k <= ns)%Z ->
  zsum (- ns) (ns + 1) (fun n => if Z.eqb (Z.abs n) k then g n else 0) = g k + g (- k)%Z.
Proof.
  intros H. rewrite (zsum_ext _ _ _ (fun n => (if Z.eqb n k then g n else 0) + (if Z.eqb n (- k) then g n else 0))).
  - rewrite zsum_plus, !zsum_pick by lia. reflexivity.
  - intros n Hn. destruct (Z.eqb_spec (Z.abs n) k), (Z.eqb_spec n k), (Z.eqb_spec n (- k)); try lia; lra.
Qed.
Lemma zsum_abs0 ns g : (0 <= ns)%Z ->
  zsum (- ns) (ns + 1) (fun n => if Z.eqb (Z.abs n) 0 then g n else 0) = g 0%Z.
Proof.
  intros H. rewrite (zsum_ext _ _ _ (fun n => if Z.eqb n 0 then g n else 0)).
  - apply zsum_pick. lia.
  - intros n Hn. destruct (Z.eqb_spec (Z.abs n) 0), (Z.eqb_spec n 0); try lia; reflexivity.
Qed.
Lemma assign_get {A T} (l : list A) (idx : A -> Z) (g : A -> T) : forall a0 k,
  (forall p q, In p l -> In q l -> idx p = idx q -> g p = g q) -> In k l ->
  fold_left (fun a k => upd a (idx k) (g k)) l a0 (idx k) = g k.
Proof.
  induction l as [|x l IH] using rev_ind; intros a0 k H I; [destruct I|].
  rewrite fold_left_app. cbn [fold_left]. unfold upd at 1.
  destruct (Z.eqb_spec (idx k) (idx x)) as [E|E].
  - symmetry. apply H; auto. apply in_or_app. right. left. reflexivity.
  - apply in_app_or in I. destruct I as [I|[->|[]]]; [|congruence].
    apply IH; auto. intros p q Hp Hq. apply H; apply in_or_app; auto.
Qed.
Lemma assign_other {A T} (l : list A) (idx : A -> Z) (g : A -> T) : forall a0 j,
  (forall p, In p l -> idx p <> j) -> fold_left (fun a k => upd a (idx k) (g k)) l a0 j = a0 j.
Proof.
  induction l as [|x l IH]; intros a0 j H; [reflexivity|]. cbn [fold_left]. rewrite IH by (intros; apply H; right; auto).
  unfold upd. destruct (Z.eqb_spec j (idx x)) as [E|E]; [|reflexivity]. exfalso. apply (H x); [left|]; auto.
Qed.

(** Loops whose body adds a state-independent amount to every array entry. *)
Lemma for_up_add {I} (body : Z -> (I -> R) -> (I -> R)) (c : Z -> I -> R) lo hi a :
  (forall j a i, (lo <= j < hi)%Z -> body j a i = a i + c j i) ->
  forall i, for_up lo hi body a i = a i + zsum lo hi (fun j => c j i).
Proof.
  intros H. unfold zsum. unfold for_up.
  assert (K : forall l, (forall j, In j l -> (lo <= j < hi)%Z) -> forall a i,
     fold_left (fun s j => body j s) l a i = a i + rsum l (fun j => c j i)).
  { induction l as [|j l IH]; intros Hl b i; [cbn; lra|]. cbn [fold_left rsum].
    rewrite IH by (intros; apply Hl; right; auto). rewrite H by (apply Hl; left; auto). lra. }
  intros i. apply K. intros j. apply zrange_In.
Qed.

Lemma zsum_single lo hi k f : (lo <= k < hi)%Z -> (forall j, (lo <= j < hi)%Z -> j <> k -> f j = 0) -> zsum lo hi f = f k.
Proof.
  intros Hk H. rewrite <- (zsum_pick lo hi k f Hk). apply zsum_ext. intros j Hj. destruct (Z.eqb_spec j k); auto.
Qed.
