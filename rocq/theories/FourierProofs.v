From Coq Require Import ZArith List Bool Reals Lra Lia.
From Verif Require Import Base BaseLemmas SumLemmas FourierModel FourierSpec.
Import ListNotations.
Open Scope Z_scope.

Lemma signum_sgn n : signum n = Z.sgn n.
Proof. unfold signum. destruct n; reflexivity. Qed.

(** ** Layout indices are injective *)
Lemma ProductIndex_range la m n ms ns : 0 <= m < ms -> 0 <= n <= ns ->
  0 <= ProductIndex la m n ms ns < ms * (ns + 1).
Proof. intros; destruct la; cbn [ProductIndex]; nia. Qed.
Lemma ProductIndex_inj la ms ns m n m' n' :
  0 <= m < ms -> 0 <= n <= ns -> 0 <= m' < ms -> 0 <= n' <= ns ->
  ProductIndex la m n ms ns = ProductIndex la m' n' ms ns -> m = m' /\ n = n'.
Proof.
  intros Hm Hn Hm' Hn' E. destruct la; cbn [ProductIndex] in E.
  - apply (flat_inj (ns + 1)) in E; lia.
  - apply (flat_inj ms) in E; lia.
Qed.

(** ** The counter of the conversion loops *)
Definition pos_ (ns m n : Z) := (ns + 1) + (m - 1) * (2 * ns + 1) + (n + ns).
Lemma conv_fold {T} (ns ms lo : Z) (b1 : Z -> Z -> T -> T) (b2 : Z -> Z -> Z -> T -> T) (t0 : T) :
  0 <= ns -> 1 <= ms -> 0 <= lo <= ns + 1 ->
  for_up 1 ms (fun m s => for_up (- ns) (ns + 1) (fun n s => (fst s + 1, b2 m n (fst s) (snd s))) s)
    (for_up lo (ns + 1) (fun n s => (fst s + 1, b1 n (fst s) (snd s))) (lo, t0))
  = (n_modes ms ns,
     fold_left (fun t q => b2 (fst q) (snd q) (pos_ ns (fst q) (snd q)) t) (pairs 1 ms (- ns) (ns + 1))
       (for_up lo (ns + 1) (fun n t => b1 n n t) t0)).
Proof.
  intros Hn Hm Hl. rewrite (for_up_counter b1 1 lo (ns + 1)) by lia.
  rewrite (for_up_ext lo (ns + 1) (fun n s => b1 n (lo + 1 * (n - lo)) s) (fun n t => b1 n n t))
    by (intros; f_equal; lia).
  generalize (for_up lo (ns + 1) (fun n t => b1 n n t) t0) as t1. intros t1.
  replace (lo + 1 * (ns + 1 - lo)) with (ns + 1) by lia.
  rewrite (for_up_ext 1 ms _ (fun m (s : Z * T) => (fst s + (2 * ns + 1),
     for_up (- ns) (ns + 1) (fun n t => b2 m n (fst s + 1 * (n - - ns)) t) (snd s)))).
  2:{ intros m [k t] Hm1. cbn [fst snd]. rewrite (for_up_counter (b2 m) 1 (- ns) (ns + 1)) by lia. f_equal. lia. }
  rewrite (for_up_counter (fun m k t => for_up (- ns) (ns + 1) (fun n t => b2 m n (k + 1 * (n - - ns)) t) t) (2 * ns + 1) 1 ms) by lia.
  f_equal; [unfold n_modes; lia|].
  rewrite <- (for_up_pairs (fun m n t => b2 m n (pos_ ns m n) t)). apply for_up_ext. intros m t Hm1. apply for_up_ext. intros n t' Hn1.
  f_equal. unfold pos_. lia.
Qed.

Lemma fill0_at n a i : 0 <= i < n -> fill0 n a i = 0%R.
Proof.
  intros H. unfold fill0.
  assert (G : forall k, 0 <= k -> forall i, 0 <= i < k -> for_up 0 k (fun i a => upd a i 0%R) a i = 0%R).
  { intros k Hk. pattern k. apply natlike_ind; [intros; lia| |auto]. intros x Hx IH j Hj.
    unfold Z.succ. rewrite for_up_snoc by lia. unfold upd. destruct (Z.eqb_spec j x); [reflexivity|]. apply IH. lia. }
  apply G; lia.
Qed.

(** ** Trigonometric facts *)
Open Scope R_scope.
Lemma cos_abs n z : cos (IZR (Z.abs n) * z) = cos (IZR n * z).
Proof.
  destruct (Z.abs_eq_or_opp n) as [E|E]; rewrite E; [reflexivity|].
  rewrite opp_IZR, Ropp_mult_distr_l_reverse. apply cos_neg.
Qed.
Lemma sgn_sin_abs n z : IZR (Z.sgn n) * sin (IZR (Z.abs n) * z) = sin (IZR n * z).
Proof.
  destruct (Z.lt_trichotomy n 0) as [H|[H|H]].
  - rewrite Z.sgn_neg, Z.abs_neq, opp_IZR, Ropp_mult_distr_l_reverse, sin_neg by lia. lra.
  - subst. change (Z.sgn 0) with 0%Z. change (Z.abs 0) with 0%Z. rewrite !Rmult_0_l, sin_0. lra.
  - rewrite Z.sgn_pos, Z.abs_eq by lia. lra.
Qed.
Lemma s2_pos m : 0 < s2 m.
Proof. unfold s2. destruct (m =? 0)%Z; [lra|]. apply sqrt_lt_R0. lra. Qed.
Lemma basis_norm_s2 m n : basis_norm m n * (s2 m * s2 n) = 1.
Proof.
  unfold basis_norm. change (mscale m) with (s2 m). change (nscale n) with (s2 n).
  pose proof (s2_pos m). pose proof (s2_pos n). field. split; lra.
Qed.
Lemma basis_norm_pos m n : 0 < basis_norm m n.
Proof.
  unfold basis_norm. change (mscale m) with (s2 m). change (nscale n) with (s2 n).
  pose proof (s2_pos m). pose proof (s2_pos n). apply Rdiv_lt_0_compat; [lra|]. apply Rmult_lt_0_compat; lra.
Qed.

Lemma nodup_map_inj {A B} (f : A -> B) l : NoDup l -> (forall x y, In x l -> In y l -> f x = f y -> x = y) -> NoDup (map f l).
Proof.
  induction 1 as [|a l Ha N IH]; intros H; cbn; constructor.
  - intros I. apply in_map_iff in I. destruct I as (b & E & I). apply H in E; [subst; auto|right; auto|left; auto].
  - apply IH. intros x y Hx Hy. apply H; right; auto.
Qed.

Section Conv.
Variable la : layout.
Variables ns ms : Z.
Hypothesis Hns : (0 <= ns)%Z.
Hypothesis Hms : (1 <= ms)%Z.
Local Notation P m n := (ProductIndex la m n ms ns).
Local Notation tgt q := (fst q, Z.abs (snd q)).
Local Notation Q := (pairs 0 ms 0 (ns + 1)).
Definition modes_ (lo : Z) : list (Z * Z) := map (fun n => (0%Z, n)) (zrange lo (ns + 1)) ++ pairs 1 ms (- ns) (ns + 1).
Definition pidx (q : Z * Z) := P (fst q) (snd q).

Lemma pidx_inj p q : In p Q -> In q Q -> pidx p = pidx q -> p = q.
Proof.
  destruct p as (m, n), q as (m', n'). intros H H' E. apply pairs_In in H. apply pairs_In in H'.
  apply ProductIndex_inj in E; cbn [fst snd] in *; try lia. destruct E; congruence.
Qed.
Lemma modes_tgt lo q : (0 <= lo)%Z -> In q (modes_ lo) -> In (tgt q) Q.
Proof.
  intros Hlo H. apply in_app_or in H. destruct H as [H|H].
  - apply in_map_iff in H. destruct H as (n & <- & H). apply zrange_In in H. apply pairs_In. cbn. lia.
  - destruct q as (m, n). apply pairs_In in H. apply pairs_In. cbn. lia.
Qed.
Lemma pick_eq q p : In q Q -> In (tgt p) Q -> Z.eqb (pidx (tgt p)) (pidx q) = pair_eqb (tgt p) q.
Proof.
  intros Hq Hp. destruct (Z.eqb_spec (pidx (tgt p)) (pidx q)) as [E|E].
  - apply pidx_inj in E; auto. symmetry. apply pair_eqb_eq. auto.
  - destruct (pair_eqb (tgt p) q) eqn:F; auto. apply pair_eqb_eq in F. subst. congruence.
Qed.

Definition mpos (q : Z * Z) : Z := mode_pos ns (fst q) (snd q).
Lemma pos_mpos m n : (1 <= m)%Z -> pos_ ns m n = mode_pos ns m n.
Proof. intros. unfold pos_, mode_pos. destruct (Z.eqb_spec m 0); lia. Qed.

(** Indicator form of the outputs of the two forward conversions. *)
Lemma cos_to_cc_ss_spec f cc0 ss0 :
  let r := cos_to_cc_ss la ns ms f cc0 ss0 in
  fst r = n_modes ms ns /\
  (forall q, In q Q -> fst (snd r) (pidx q) =
     rsum (modes_ 0) (fun p => if pair_eqb (tgt p) q then basis_norm (fst p) (Z.abs (snd p)) * f (mpos p) else 0)) /\
  (forall q, In q Q -> snd (snd r) (pidx q) =
     rsum (modes_ 0) (fun p => if pair_eqb (tgt p) q then
        (if (0 <? fst p)%Z then IZR (Z.sgn (snd p)) * (basis_norm (fst p) (Z.abs (snd p)) * f (mpos p)) else 0) else 0)).
Proof.
  intros r.
  set (b1 := fun (n mn : Z) (t : (Z -> R) * (Z -> R)) =>
     (upd (fst t) (P 0 (Z.abs n)) (fst t (P 0 (Z.abs n)) + basis_norm 0 (Z.abs n) * f mn), snd t)).
  set (b2 := fun (m n mn : Z) (t : (Z -> R) * (Z -> R)) =>
     (upd (fst t) (P m (Z.abs n)) (fst t (P m (Z.abs n)) + basis_norm m (Z.abs n) * f mn),
      if (Z.abs n >? 0)%Z then upd (snd t) (P m (Z.abs n)) (snd t (P m (Z.abs n)) + IZR (signum n) * (basis_norm m (Z.abs n) * f mn)) else snd t)).
  assert (E : r = for_up 1 ms (fun m s => for_up (- ns) (ns + 1) (fun n s => (fst s + 1, b2 m n (fst s) (snd s))%Z) s)
    (for_up 0 (ns + 1) (fun n s => (fst s + 1, b1 n (fst s) (snd s))%Z)
      (0%Z, (fill0 (ms * (ns + 1)) cc0, fill0 (ms * (ns + 1)) ss0)))).
  { unfold r, cos_to_cc_ss.
    rewrite (for_up_ext 0 (ns + 1) _ (fun n s => (fst s + 1, b1 n (fst s) (snd s))%Z)) by (intros n (mn, (c, s)) _; reflexivity).
    apply for_up_ext. intros m s _. apply for_up_ext. intros n (mn, (c, s1)) _. reflexivity. }
  rewrite (conv_fold ns ms 0 b1 b2) in E by lia. rewrite E. cbn [fst snd]. split; [reflexivity|].
  assert (Z0 : forall a q, In q Q -> fill0 (ms * (ns + 1)) a (pidx q) = 0).
  { intros a (m, n) Hq. apply pairs_In in Hq. apply fill0_at. apply ProductIndex_range; cbn [fst snd]; lia. }
  split; intros q Hq.
  - rewrite (fold_project fst _ (fun a p => upd a (pidx (tgt p)) (a (pidx (tgt p)) + basis_norm (fst p) (Z.abs (snd p)) * f (pos_ ns (fst p) (snd p))))) by reflexivity.
    unfold for_up at 1. rewrite (fold_project fst _ (fun a n => upd a (pidx (tgt (0%Z, n))) (a (pidx (tgt (0%Z, n))) + basis_norm 0 (Z.abs n) * f n))) by reflexivity.
    cbn [fst]. 
    change (fold_left _ (pairs 1 ms (- ns) (ns + 1)) ?a) with (scatter (pairs 1 ms (- ns) (ns + 1)) (fun p => pidx (tgt p)) (fun p => basis_norm (fst p) (Z.abs (snd p)) * f (pos_ ns (fst p) (snd p))) a).
    rewrite scatter_at.
    change (fold_left _ (zrange 0 (ns + 1)) ?a) with (scatter (zrange 0 (ns + 1)) (fun n => pidx (tgt (0%Z, n))) (fun n => basis_norm 0 (Z.abs n) * f n) a).
    rewrite scatter_at, Z0, Rplus_0_l by auto. unfold modes_. rewrite rsum_app, rsum_map. f_equal.
    + apply rsum_ext. intros n Hn. rewrite pick_eq; auto. apply (modes_tgt 0); [lia|]. apply in_or_app. left. apply (in_map (fun n => (0%Z, n))); auto.
    + apply rsum_ext. intros (m, n) Hp. rewrite pick_eq; auto.
      * cbn [fst snd]. unfold mpos. cbn [fst snd]. rewrite <- pos_mpos; [reflexivity|]. apply pairs_In in Hp. lia.
      * apply (modes_tgt 0); [lia|]. apply in_or_app. right. auto.
  - rewrite (fold_project snd _ (fun a p => if (Z.abs (snd p) >? 0)%Z then upd a (pidx (tgt p)) (a (pidx (tgt p)) + IZR (signum (snd p)) * (basis_norm (fst p) (Z.abs (snd p)) * f (pos_ ns (fst p) (snd p)))) else a)) by reflexivity.
    unfold for_up at 1. rewrite (fold_project snd _ (fun a n => a)) by reflexivity.
    cbn [snd]. 
    assert (K : forall (l : list Z) (a : Z -> R), fold_left (fun a _ => a) l a = a) by (induction l; auto).
    rewrite K. rewrite (fold_filter (fun p => (Z.abs (snd p) >? 0)%Z)).
    change (fold_left _ (filter ?h ?l) ?a) with (scatter (filter h l) (fun p => pidx (tgt p)) (fun p => IZR (signum (snd p)) * (basis_norm (fst p) (Z.abs (snd p)) * f (pos_ ns (fst p) (snd p)))) a).
    rewrite scatter_at, Z0, Rplus_0_l, rsum_filter by auto. unfold modes_. rewrite rsum_app, rsum_map.
    rewrite (rsum_zero (zrange 0 (ns + 1))) by (intros; cbn [fst]; destruct (pair_eqb _ _); reflexivity).
    rewrite Rplus_0_l. apply rsum_ext. intros (m, n) Hp. rewrite pick_eq; auto.
    + apply pairs_In in Hp. cbn [fst snd]. rewrite signum_sgn. unfold mpos. cbn [fst snd]. rewrite <- pos_mpos by lia.
      destruct (Z.ltb_spec 0 m); [|lia].
      destruct (Z.abs n >? 0)%Z eqn:G; [reflexivity|].
      assert (n = 0)%Z by (rewrite Z.gtb_ltb in G; apply Z.ltb_ge in G; lia). subst n. cbn [Z.sgn]. destruct (pair_eqb _ _); lra.
    + apply (modes_tgt 0); [lia|]. apply in_or_app. right. auto.
Qed.

Lemma sin_to_sc_cs_spec f sc0 cs0 :
  let r := sin_to_sc_cs la ns ms f sc0 cs0 in
  fst r = n_modes ms ns /\
  (forall q, In q Q -> fst (snd r) (pidx q) =
     rsum (modes_ 1) (fun p => if pair_eqb (tgt p) q then
       (if (0 <? fst p)%Z then basis_norm (fst p) (Z.abs (snd p)) * f (mpos p) else 0) else 0)) /\
  (forall q, In q Q -> snd (snd r) (pidx q) =
     rsum (modes_ 1) (fun p => if pair_eqb (tgt p) q then
       - IZR (Z.sgn (snd p)) * (basis_norm (fst p) (Z.abs (snd p)) * f (mpos p)) else 0)).
Proof.
  intros r.
  set (b1 := fun (n mn : Z) (t : (Z -> R) * (Z -> R)) =>
     (fst t, upd (snd t) (P 0 (Z.abs n)) (IZR (- signum n) * (basis_norm 0 (Z.abs n) * f mn)))).
  set (b2 := fun (m n mn : Z) (t : (Z -> R) * (Z -> R)) =>
     (upd (fst t) (P m (Z.abs n)) (fst t (P m (Z.abs n)) + basis_norm m (Z.abs n) * f mn),
      if (Z.abs n >? 0)%Z then upd (snd t) (P m (Z.abs n)) (snd t (P m (Z.abs n)) + IZR (- signum n) * (basis_norm m (Z.abs n) * f mn)) else snd t)).
  assert (E : r = for_up 1 ms (fun m s => for_up (- ns) (ns + 1) (fun n s => (fst s + 1, b2 m n (fst s) (snd s))%Z) s)
    (for_up 1 (ns + 1) (fun n s => (fst s + 1, b1 n (fst s) (snd s))%Z)
      (1%Z, (fill0 (ms * (ns + 1)) sc0, fill0 (ms * (ns + 1)) cs0)))).
  { unfold r, sin_to_sc_cs.
    rewrite (for_up_ext 1 (ns + 1) _ (fun n s => (fst s + 1, b1 n (fst s) (snd s))%Z)) by (intros n (mn, (c, s)) _; reflexivity).
    apply for_up_ext. intros m s _. apply for_up_ext. intros n (mn, (c, s1)) _. reflexivity. }
  rewrite (conv_fold ns ms 1 b1 b2) in E by lia. rewrite E. cbn [fst snd]. split; [reflexivity|].
  assert (Z0 : forall a q, In q Q -> fill0 (ms * (ns + 1)) a (pidx q) = 0).
  { intros a (m, n) Hq. apply pairs_In in Hq. apply fill0_at. apply ProductIndex_range; cbn [fst snd]; lia. }
  split; intros q Hq.
  - rewrite (fold_project fst _ (fun a p => upd a (pidx (tgt p)) (a (pidx (tgt p)) + basis_norm (fst p) (Z.abs (snd p)) * f (pos_ ns (fst p) (snd p))))) by reflexivity.
    unfold for_up at 1. rewrite (fold_project fst _ (fun a n => a)) by reflexivity.
    cbn [fst].
    assert (K : forall (l : list Z) (a : Z -> R), fold_left (fun a _ => a) l a = a) by (induction l; auto).
    rewrite K.
    change (fold_left _ (pairs 1 ms (- ns) (ns + 1)) ?a) with (scatter (pairs 1 ms (- ns) (ns + 1)) (fun p => pidx (tgt p)) (fun p => basis_norm (fst p) (Z.abs (snd p)) * f (pos_ ns (fst p) (snd p))) a).
    rewrite scatter_at, Z0, Rplus_0_l by auto. unfold modes_. rewrite rsum_app, rsum_map.
    rewrite (rsum_zero (zrange 1 (ns + 1))) by (intros; cbn [fst]; destruct (pair_eqb _ _); reflexivity).
    rewrite Rplus_0_l. apply rsum_ext. intros (m, n) Hp. rewrite pick_eq; auto.
    + apply pairs_In in Hp. cbn [fst snd]. unfold mpos. cbn [fst snd]. rewrite <- pos_mpos by lia.
      destruct (Z.ltb_spec 0 m); [reflexivity|lia].
    + apply (modes_tgt 1); [lia|]. apply in_or_app. right. auto.
  - rewrite (fold_project snd _ (fun a p => if (Z.abs (snd p) >? 0)%Z then upd a (pidx (tgt p)) (a (pidx (tgt p)) + IZR (- signum (snd p)) * (basis_norm (fst p) (Z.abs (snd p)) * f (pos_ ns (fst p) (snd p)))) else a)) by reflexivity.
    unfold for_up at 1. rewrite (fold_project snd _ (fun a n => upd a (pidx (tgt (0%Z, n))) (IZR (- signum n) * (basis_norm 0 (Z.abs n) * f n)))) by reflexivity.
    cbn [snd].
    rewrite (fold_filter (fun p => (Z.abs (snd p) >? 0)%Z)).
    change (fold_left _ (filter ?h ?l) ?a) with (scatter (filter h l) (fun p => pidx (tgt p)) (fun p => IZR (- signum (snd p)) * (basis_norm (fst p) (Z.abs (snd p)) * f (pos_ ns (fst p) (snd p)))) a).
    rewrite scatter_at, rsum_filter.
    assert (I1 : forall n, In n (zrange 1 (ns + 1)) -> In (tgt (0%Z, n)) Q).
    { intros n Hn. apply zrange_In in Hn. apply pairs_In. cbn. lia. }
    rewrite (assign_at (zrange 1 (ns + 1)) (fun n => pidx (tgt (0%Z, n)))).
    + rewrite Z0, Rplus_0_l by auto. unfold modes_. rewrite rsum_app, rsum_map. f_equal.
      * apply rsum_ext. intros n Hn. rewrite pick_eq; auto. rewrite signum_sgn, opp_IZR. reflexivity.
      * apply rsum_ext. intros (m, n) Hp. rewrite pick_eq; auto.
        -- apply pairs_In in Hp. cbn [fst snd]. rewrite signum_sgn. unfold mpos. cbn [fst snd]. rewrite <- pos_mpos by lia.
           rewrite opp_IZR. destruct (Z.abs n >? 0)%Z eqn:G; [reflexivity|].
           assert (n = 0)%Z by (rewrite Z.gtb_ltb in G; apply Z.ltb_ge in G; lia). subst n. cbn [Z.sgn]. destruct (pair_eqb _ _); lra.
        -- apply (modes_tgt 1); [lia|]. apply in_or_app. right. auto.
    + apply (nodup_map_inj _ _ (zrange_NoDup _ _)). intros n n' Hn Hn' EE. apply pidx_inj in EE; auto.
      apply zrange_In in Hn. apply zrange_In in Hn'. injection EE. lia.
    + intros n Hn. apply Z0. apply I1; auto.
Qed.

(** ** Equality of the series *)
Lemma modes_sum lo (g : Z * Z -> R) :
  rsum (modes_ lo) g = zsum lo (ns + 1) (fun n => g (0%Z, n)) + zsum 1 ms (fun m => zsum (- ns) (ns + 1) (fun n => g (m, n))).
Proof. unfold modes_. rewrite rsum_app, rsum_map, rsum_pairs. reflexivity. Qed.

Lemma product_gather lo t1 t2 (X : Z -> R) (g : Z * Z -> R) th ze : (0 <= lo)%Z ->
  (forall q, In q Q -> X (pidx q) = rsum (modes_ lo) (fun p => if pair_eqb (tgt p) q then g p else 0)) ->
  product_series t1 t2 ms ns (fun m n => P m n) X th ze =
  rsum (modes_ lo) (fun p => g p * (s2 (fst p) * s2 (Z.abs (snd p)) * (t1 (IZR (fst p) * th) * t2 (IZR (Z.abs (snd p)) * ze)))).
Proof.
  intros Hlo HX. unfold product_series.
  etransitivity; [symmetry; apply (rsum_pairs 0 ms 0 (ns + 1) (fun q => X (pidx q) * (s2 (fst q) * s2 (snd q) * (t1 (IZR (fst q) * th) * t2 (IZR (snd q) * ze)))))|].
  apply (gather_sum pair_eqb (modes_ lo) Q (fun q => X (pidx q)) (fun p => tgt p) g
     (fun q => s2 (fst q) * s2 (snd q) * (t1 (IZR (fst q) * th) * t2 (IZR (snd q) * ze)))); auto.
  - apply pair_eqb_eq.
  - apply pairs_NoDup.
  - intros k. apply modes_tgt. auto.
Qed.

Lemma cos_series_eq f cc0 ss0 th ze :
  let r := snd (cos_to_cc_ss la ns ms f cc0 ss0) in
  product_series cos cos ms ns (fun m n => P m n) (fst r) th ze +
  product_series sin sin ms ns (fun m n => P m n) (snd r) th ze = combined_series cos ms ns f th ze.
Proof.
  destruct (cos_to_cc_ss_spec f cc0 ss0) as (_ & HC & HS). cbv zeta.
  rewrite (product_gather 0 cos cos _ _ th ze ltac:(lia) HC), (product_gather 0 sin sin _ _ th ze ltac:(lia) HS).
  rewrite <- rsum_plus.
  rewrite (rsum_ext _ _ (fun p => f (mpos p) * cos (IZR (fst p) * th - IZR (snd p) * ze))).
  - rewrite modes_sum. unfold combined_series. f_equal. apply zsum_ext. intros n Hn. unfold mpos; cbn [fst snd].
    rewrite Rmult_0_l, Rminus_0_l. reflexivity.
  - intros (m, n) Hp. cbn [fst snd].
    pose proof (basis_norm_s2 m (Z.abs n)) as B. rewrite cos_abs, cos_minus.
    set (F := f (mpos (m, n))). set (b := basis_norm m (Z.abs n)) in *. set (w := s2 m * s2 (Z.abs n)) in *.
    destruct (Z.ltb_spec 0 m) as [Hm|Hm].
    + rewrite <- (sgn_sin_abs n ze).
      replace (b * F * (w * (cos (IZR m * th) * cos (IZR n * ze)))) with ((b * w) * (F * (cos (IZR m * th) * cos (IZR n * ze)))) by ring.
      replace (IZR (Z.sgn n) * (b * F) * (w * (sin (IZR m * th) * sin (IZR (Z.abs n) * ze)))) with ((b * w) * (F * (sin (IZR m * th) * (IZR (Z.sgn n) * sin (IZR (Z.abs n) * ze))))) by ring.
      rewrite B. ring.
    + apply in_app_or in Hp. destruct Hp as [Hp|Hp]; [|apply pairs_In in Hp; lia].
      apply in_map_iff in Hp. destruct Hp as (n' & E & _). injection E as <- <-.
      rewrite (Rmult_0_l th), sin_0.
      replace (b * F * (w * (cos 0 * cos (IZR n' * ze)))) with ((b * w) * (F * (cos 0 * cos (IZR n' * ze)))) by ring.
      rewrite B. ring.
Qed.

Lemma sin_series_eq f sc0 cs0 th ze :
  let r := snd (sin_to_sc_cs la ns ms f sc0 cs0) in
  product_series sin cos ms ns (fun m n => P m n) (fst r) th ze +
  product_series cos sin ms ns (fun m n => P m n) (snd r) th ze = combined_series sin ms ns f th ze.
Proof.
  destruct (sin_to_sc_cs_spec f sc0 cs0) as (_ & HC & HS). cbv zeta.
  rewrite (product_gather 1 sin cos _ _ th ze ltac:(lia) HC), (product_gather 1 cos sin _ _ th ze ltac:(lia) HS).
  rewrite <- rsum_plus.
  rewrite (rsum_ext _ _ (fun p => f (mpos p) * sin (IZR (fst p) * th - IZR (snd p) * ze))).
  - rewrite modes_sum. unfold combined_series. rewrite (zsum_cons 0) by lia.
    rewrite (Rmult_0_l ze), Ropp_0, sin_0, Rmult_0_r, Rplus_0_l. f_equal. apply zsum_ext. intros n Hn. unfold mpos; cbn [fst snd].
    rewrite Rmult_0_l, Rminus_0_l. reflexivity.
  - intros (m, n) Hp. cbn [fst snd].
    pose proof (basis_norm_s2 m (Z.abs n)) as B. rewrite cos_abs, sin_minus.
    set (F := f (mpos (m, n))). set (b := basis_norm m (Z.abs n)) in *. set (w := s2 m * s2 (Z.abs n)) in *.
    rewrite <- (sgn_sin_abs n ze).
    assert (S2 : - IZR (Z.sgn n) * (b * F) * (w * (cos (IZR m * th) * sin (IZR (Z.abs n) * ze)))
       = - ((b * w) * (F * (cos (IZR m * th) * (IZR (Z.sgn n) * sin (IZR (Z.abs n) * ze)))))) by ring.
    rewrite S2, B.
    destruct (Z.ltb_spec 0 m) as [Hm|Hm].
    + replace (b * F * (w * (sin (IZR m * th) * cos (IZR n * ze)))) with ((b * w) * (F * (sin (IZR m * th) * cos (IZR n * ze)))) by ring.
      rewrite B. ring.
    + apply in_app_or in Hp. destruct Hp as [Hp|Hp]; [|apply pairs_In in Hp; lia].
      apply in_map_iff in Hp. destruct Hp as (n' & E & _). injection E as <- <-.
      rewrite (Rmult_0_l th), sin_0. ring.
Qed.

(** ** Round trip *)
Lemma pick_mode lo m k (g : Z * Z -> R) : (0 <= lo)%Z -> (1 <= m < ms)%Z ->
  rsum (modes_ lo) (fun p => if pair_eqb (tgt p) (m, k) then g p else 0) =
  zsum (- ns) (ns + 1) (fun n => if Z.eqb (Z.abs n) k then g (m, n) else 0).
Proof.
  intros Hlo Hm. rewrite modes_sum. rewrite zsum_zero.
  - rewrite Rplus_0_l. transitivity (zsum 1 ms (fun m' => if Z.eqb m' m then zsum (- ns) (ns + 1) (fun n => if Z.eqb (Z.abs n) k then g (m', n) else 0) else 0)).
    + apply zsum_ext. intros m' Hm'. destruct (Z.eqb_spec m' m) as [E|E].
      * subst. apply zsum_ext. intros n Hn. unfold pair_eqb. cbn [fst snd]. rewrite Z.eqb_refl. reflexivity.
      * apply zsum_zero. intros n Hn. unfold pair_eqb. cbn [fst snd]. destruct (Z.eqb_spec m' m); [lia|reflexivity].
    + apply (zsum_pick 1 ms m (fun m' => zsum (- ns) (ns + 1) (fun n => if Z.eqb (Z.abs n) k then g (m', n) else 0))). lia.
  - intros n Hn. unfold pair_eqb. cbn [fst snd]. destruct (Z.eqb_spec 0 m); [lia|reflexivity].
Qed.
Lemma pick_mode0 lo k (g : Z * Z -> R) : (0 <= lo <= k)%Z -> (k <= ns)%Z ->
  rsum (modes_ lo) (fun p => if pair_eqb (tgt p) (0%Z, k) then g p else 0) = g (0%Z, k).
Proof.
  intros Hlo Hk. rewrite modes_sum. rewrite (zsum_zero 1 ms).
  - rewrite Rplus_0_r. transitivity (zsum lo (ns + 1) (fun n => if Z.eqb n k then g (0%Z, n) else 0)).
    + apply zsum_ext. intros n Hn. unfold pair_eqb. cbn [fst snd]. rewrite Z.abs_eq by lia. reflexivity.
    + apply (zsum_pick lo (ns + 1) k (fun n => g (0%Z, n))). lia.
  - intros m Hm. apply zsum_zero. intros n Hn. unfold pair_eqb. cbn [fst snd]. destruct (Z.eqb_spec m 0); [lia|reflexivity].
Qed.

Lemma pos_inj_ q q' : In q (modes_ 0) -> In q' (modes_ 0) -> mpos q = mpos q' -> q = q'.
Proof.
  assert (V : forall q, In q (modes_ 0) -> (0 <= fst q < ms /\ - ns <= snd q <= ns /\ (fst q = 0 -> 0 <= snd q))%Z).
  { intros (m, n) H. apply in_app_or in H. destruct H as [H|H].
    - apply in_map_iff in H. destruct H as (n' & E & H). injection E as <- <-. apply zrange_In in H. cbn. lia.
    - apply pairs_In in H. cbn. lia. }
  destruct q as (m, n), q' as (m', n'). intros H H' E. apply V in H. apply V in H'. cbn [fst snd] in *.
  unfold mpos, mode_pos in E. cbn [fst snd] in E.
  destruct (Z.eqb_spec m 0), (Z.eqb_spec m' 0); subst.
  - congruence.
  - exfalso. nia.
  - exfalso. nia.
  - assert (E2 : ((m - 1) * (2 * ns + 1) + (n + ns) = (m' - 1) * (2 * ns + 1) + (n' + ns))%Z) by lia.
    apply (flat_inj (2 * ns + 1)) in E2; try lia. destruct E2. f_equal; lia.
Qed.
Lemma modes_In lo m n : (0 <= lo)%Z -> In (m, n) (modes_ lo) <-> ((m = 0 /\ lo <= n <= ns) \/ (1 <= m < ms /\ - ns <= n <= ns))%Z.
Proof.
  intros Hlo. unfold modes_. rewrite in_app_iff, in_map_iff, pairs_In. split.
  - intros [(n' & E & H)|H]; [injection E as <- <-; apply zrange_In in H; lia|lia].
  - intros [[-> H]|H]; [left; exists n; split; auto; apply zrange_In; lia|right; lia].
Qed.

Lemma back_fold lo (v1 : Z -> R) (v2 : Z -> Z -> R) f0 : (0 <= lo <= ns + 1)%Z ->
  let r := for_up 1 ms (fun m s => for_up (- ns) (ns + 1) (fun n s => (fst s + 1, upd (snd s) (fst s) (v2 m n))%Z) s)
    (for_up lo (ns + 1) (fun n s => (fst s + 1, upd (snd s) (fst s) (v1 n))%Z) (lo, fill0 (n_modes ms ns) f0)) in
  fst r = n_modes ms ns /\
  (forall m n, In (m, n) (modes_ lo) -> snd r (mpos (m, n)) = if Z.eqb m 0 then v1 n else v2 m n) /\
  (forall j, (0 <= j < lo)%Z -> snd r j = 0).
Proof.
  intros Hlo r.
  assert (E := conv_fold ns ms lo (fun n mn (a : Z -> R) => upd a mn (v1 n)) (fun m n mn a => upd a mn (v2 m n)) (fill0 (n_modes ms ns) f0) Hns Hms ltac:(lia)).
  change (r = (n_modes ms ns, fold_left (fun t q => upd t (pos_ ns (fst q) (snd q)) (v2 (fst q) (snd q))) (pairs 1 ms (- ns) (ns + 1))
       (for_up lo (ns + 1) (fun n t => upd t n (v1 n)) (fill0 (n_modes ms ns) f0)))) in E.
  set (V := fun q : Z * Z => if Z.eqb (fst q) 0 then v1 (snd q) else v2 (fst q) (snd q)).
  assert (E2 : snd r = fold_left (fun t q => upd t (mpos q) (V q)) (modes_ lo) (fill0 (n_modes ms ns) f0)).
  { rewrite E. cbn [snd]. unfold modes_. rewrite fold_left_app, fold_map. unfold for_up.
    change (fold_left (fun s j => upd s j (v1 j)) (zrange lo (ns + 1)) ?a) with (fold_left (fun s x => upd s (mpos (0%Z, x)) (V (0%Z, x))) (zrange lo (ns + 1)) a).
    apply fold_ext. intros t (m, n) Hp. apply pairs_In in Hp. unfold V, mpos. cbn [fst snd]. rewrite pos_mpos by lia.
    destruct (Z.eqb_spec m 0); [lia|reflexivity]. }
  split; [rewrite E; reflexivity|]. rewrite E2.
  assert (SUB : forall q, In q (modes_ lo) -> In q (modes_ 0)).
  { intros (m, n) H. apply modes_In in H; [|lia]. apply modes_In; [lia|]. lia. }
  split.
  - intros m n H. rewrite assign_get; auto. intros p q Hp Hq EE. apply pos_inj_ in EE; auto. congruence.
  - intros j Hj. rewrite assign_other.
    + apply fill0_at. unfold n_modes. nia.
    + intros (m, n) H EE. apply modes_In in H; [|lia]. unfold mpos, mode_pos in EE. cbn [fst snd] in EE.
      destruct (Z.eqb_spec m 0); [lia|]. nia.
Qed.

Lemma cos_round_trip f cc0 ss0 f0 :
  let r := snd (cos_to_cc_ss la ns ms f cc0 ss0) in
  let b := cc_ss_to_cos la ns ms (fst r) (snd r) f0 in
  fst b = n_modes ms ns /\ forall m n, In (m, n) (modes_ 0) -> snd b (mpos (m, n)) = f (mpos (m, n)).
Proof.
  destruct (cos_to_cc_ss_spec f cc0 ss0) as (_ & HC & HS). cbv zeta.
  set (cc := fst (snd (cos_to_cc_ss la ns ms f cc0 ss0))) in *.
  set (ss := snd (snd (cos_to_cc_ss la ns ms f cc0 ss0))) in *.
  destruct (back_fold 0 (fun n => cc (P 0 n) / basis_norm 0 n)
    (fun m n => if Z.eqb (Z.abs n) 0 then cc (P m (Z.abs n)) / basis_norm m (Z.abs n)
       else 1 / 2 * (cc (P m (Z.abs n)) + IZR (signum n) * ss (P m (Z.abs n))) / basis_norm m (Z.abs n)) f0 ltac:(lia)) as (B1 & B2 & _).
  split; [exact B1|]. intros m n H. etransitivity; [exact (B2 m n H)|].
  apply modes_In in H; [|lia].
  assert (BN := basis_norm_pos m (Z.abs n)).
  destruct (Z.eqb_spec m 0) as [E|E].
  - subst m. cbv beta. change (P 0 n) with (pidx (0%Z, n)). rewrite (HC (0%Z, n)) by (apply pairs_In; lia). rewrite pick_mode0 by lia. cbn [fst snd].
    rewrite Z.abs_eq in * by lia. field. lra.
  - assert (IQ : In (m, Z.abs n) Q) by (apply pairs_In; lia).
    change (P m (Z.abs n)) with (pidx (m, Z.abs n)). rewrite (HC _ IQ), (HS _ IQ).
    rewrite !pick_mode by lia. cbn [fst snd]. rewrite signum_sgn.
    destruct (Z.ltb_spec 0 m) as [_|]; [|lia].
    destruct (Z.eqb_spec (Z.abs n) 0) as [N|N].
    + assert (n = 0)%Z by lia. subst n. change (Z.abs 0) with 0%Z in *.
      rewrite (zsum_abs0 ns (fun x => basis_norm m (Z.abs x) * f (mpos (m, x)))) by lia.
      change (Z.abs 0) with 0%Z. field. lra.
    + rewrite (zsum_abs ns (Z.abs n) (fun x => basis_norm m (Z.abs x) * f (mpos (m, x)))) by lia.
      rewrite (zsum_abs ns (Z.abs n) (fun x => IZR (Z.sgn x) * (basis_norm m (Z.abs x) * f (mpos (m, x))))) by lia.
      rewrite Z.abs_opp, Z.abs_involutive.
      destruct (Z.lt_trichotomy n 0) as [S|[S|S]]; [|lia|].
      * rewrite (Z.abs_neq n) in * by lia. rewrite Z.opp_involutive. rewrite (Z.sgn_neg n), (Z.sgn_pos (- n)) by lia. field. lra.
      * rewrite (Z.abs_eq n) in * by lia. rewrite (Z.sgn_pos n), (Z.sgn_neg (- n)) by lia. field. lra.
Qed.

Lemma sin_round_trip f sc0 cs0 f0 :
  let r := snd (sin_to_sc_cs la ns ms f sc0 cs0) in
  let b := sc_cs_to_sin la ns ms (fst r) (snd r) f0 in
  fst b = n_modes ms ns /\ (forall m n, In (m, n) (modes_ 1) -> snd b (mpos (m, n)) = f (mpos (m, n))) /\ snd b 0%Z = 0.
Proof.
  destruct (sin_to_sc_cs_spec f sc0 cs0) as (_ & HC & HS). cbv zeta.
  set (sc := fst (snd (sin_to_sc_cs la ns ms f sc0 cs0))) in *.
  set (cs := snd (snd (sin_to_sc_cs la ns ms f sc0 cs0))) in *.
  destruct (back_fold 1 (fun n => - cs (P 0 n) / basis_norm 0 n)
    (fun m n => if Z.eqb (Z.abs n) 0 then sc (P m (Z.abs n)) / basis_norm m (Z.abs n)
       else 1 / 2 * (sc (P m (Z.abs n)) - IZR (signum n) * cs (P m (Z.abs n))) / basis_norm m (Z.abs n)) f0 ltac:(lia)) as (B1 & B2 & B3).
  split; [exact B1|]. split; [|apply B3; lia]. intros m n H. etransitivity; [exact (B2 m n H)|].
  apply modes_In in H; [|lia].
  assert (BN := basis_norm_pos m (Z.abs n)).
  destruct (Z.eqb_spec m 0) as [E|E].
  - subst m. cbv beta. change (P 0 n) with (pidx (0%Z, n)). rewrite (HS (0%Z, n)) by (apply pairs_In; lia). rewrite pick_mode0 by lia. cbn [fst snd].
    rewrite Z.abs_eq in * by lia. rewrite Z.sgn_pos by lia. field. lra.
  - assert (IQ : In (m, Z.abs n) Q) by (apply pairs_In; lia).
    change (P m (Z.abs n)) with (pidx (m, Z.abs n)). rewrite (HC _ IQ), (HS _ IQ).
    rewrite !pick_mode by lia. cbn [fst snd]. rewrite signum_sgn.
    destruct (Z.ltb_spec 0 m) as [_|]; [|lia].
    destruct (Z.eqb_spec (Z.abs n) 0) as [N|N].
    + assert (n = 0)%Z by lia. subst n. change (Z.abs 0) with 0%Z in *.
      rewrite (zsum_abs0 ns (fun x => basis_norm m (Z.abs x) * f (mpos (m, x)))) by lia.
      change (Z.abs 0) with 0%Z. field. lra.
    + rewrite (zsum_abs ns (Z.abs n) (fun x => basis_norm m (Z.abs x) * f (mpos (m, x)))) by lia.
      rewrite (zsum_abs ns (Z.abs n) (fun x => - IZR (Z.sgn x) * (basis_norm m (Z.abs x) * f (mpos (m, x))))) by lia.
      rewrite Z.abs_opp, Z.abs_involutive.
      destruct (Z.lt_trichotomy n 0) as [S|[S|S]]; [|lia|].
      * rewrite (Z.abs_neq n) in * by lia. rewrite Z.opp_involutive. rewrite (Z.sgn_neg n), (Z.sgn_pos (- n)) by lia. field. lra.
      * rewrite (Z.abs_eq n) in * by lia. rewrite (Z.sgn_pos n), (Z.sgn_neg (- n)) by lia. field. lra.
Qed.
(** Symmetric sums. *)
Lemma zsum_sym g : zsum (- ns) (ns + 1) g = g 0%Z + zsum 1 (ns + 1) (fun n => g n + g (- n)%Z).
Proof.
  rewrite (zsum_split (- ns) 0 (ns + 1)) by lia. rewrite (zsum_cons 0) by lia. change (0 + 1)%Z with 1%Z.
  rewrite zsum_plus. rewrite (zsum_rev (- ns) 0). 
  replace (zsum (- ns) 0 (fun j => g (- ns + 0 - 1 - j)%Z)) with (zsum 1 (ns + 1) (fun j => g (- j)%Z)); [lra|].
  replace 1%Z with (- ns + (ns + 1))%Z at 1 by lia. replace (ns + 1)%Z with (0 + (ns + 1))%Z at 2 by lia.
  rewrite zsum_shift. apply zsum_ext. intros. f_equal. lia.
Qed.

(** The combined coefficients computed from arbitrary product arrays describe
    the same function. *)
Lemma back_cos_series cc ss f0 th ze :
  combined_series cos ms ns (snd (cc_ss_to_cos la ns ms cc ss f0)) th ze =
  product_series cos cos ms ns (fun m n => P m n) cc th ze + product_series sin sin ms ns (fun m n => P m n) ss th ze.
Proof.
  destruct (back_fold 0 (fun n => cc (P 0 n) / basis_norm 0 n)
    (fun m n => if Z.eqb (Z.abs n) 0 then cc (P m (Z.abs n)) / basis_norm m (Z.abs n)
       else 1 / 2 * (cc (P m (Z.abs n)) + IZR (signum n) * ss (P m (Z.abs n))) / basis_norm m (Z.abs n)) f0 ltac:(lia)) as (_ & B2 & _).
  assert (B : forall m n, In (m, n) (modes_ 0) -> snd (cc_ss_to_cos la ns ms cc ss f0) (mode_pos ns m n) =
    if Z.eqb m 0 then cc (P 0 n) / basis_norm 0 n else if Z.eqb (Z.abs n) 0 then cc (P m (Z.abs n)) / basis_norm m (Z.abs n)
       else 1 / 2 * (cc (P m (Z.abs n)) + IZR (signum n) * ss (P m (Z.abs n))) / basis_norm m (Z.abs n)) by (intros m n H; exact (B2 m n H)).
  set (f := snd (cc_ss_to_cos la ns ms cc ss f0)) in *. clearbody f. clear B2.
  unfold combined_series, product_series. rewrite <- zsum_plus. rewrite (zsum_cons 0 ms) by lia. f_equal.
  - rewrite <- zsum_plus. apply zsum_ext. intros n Hn. rewrite B by (apply modes_In; lia). cbn [Z.eqb].
    pose proof (basis_norm_s2 0 n) as N. pose proof (basis_norm_pos 0 n) as NP.
    rewrite cos_neg, !Rmult_0_l, cos_0, sin_0.
    assert (E : s2 0 * s2 n = / basis_norm 0 n) by (apply (Rmult_eq_reg_l (basis_norm 0 n)); [rewrite N; field; lra|lra]).
    rewrite E. field. lra.
  - apply zsum_ext. intros m Hm. rewrite <- zsum_plus, zsum_sym. rewrite (zsum_cons 0) by lia. f_equal.
    + rewrite B by (apply modes_In; lia). destruct (Z.eqb_spec m 0) as [E0|_]; [lia|]. cbn [Z.abs Z.eqb].
      pose proof (basis_norm_s2 m 0) as N. pose proof (basis_norm_pos m 0) as NP.
      assert (E : s2 m * s2 0 = / basis_norm m 0) by (apply (Rmult_eq_reg_l (basis_norm m 0)); [rewrite N; field; lra|lra]).
      rewrite E, !Rmult_0_l, cos_0, sin_0, Rminus_0_r. field. lra.
    + apply zsum_ext. intros n Hn. rewrite !B by (apply modes_In; lia). destruct (Z.eqb_spec m 0) as [E0|_]; [lia|].
      rewrite Z.abs_opp. destruct (Z.eqb_spec (Z.abs n) 0) as [E0|_]; [lia|]. rewrite Z.abs_eq by lia.
      pose proof (basis_norm_s2 m n) as N. pose proof (basis_norm_pos m n) as NP.
      assert (E : s2 m * s2 n = / basis_norm m n) by (apply (Rmult_eq_reg_l (basis_norm m n)); [rewrite N; field; lra|lra]).
      rewrite E, !signum_sgn. rewrite (Z.sgn_pos n), (Z.sgn_neg (- n)) by lia. rewrite opp_IZR.
      replace (IZR m * th - - IZR n * ze) with (IZR m * th + IZR n * ze) by ring.
      rewrite cos_minus, cos_plus. field. lra.
Qed.
Lemma back_sin_series sc cs f0 th ze :
  combined_series sin ms ns (snd (sc_cs_to_sin la ns ms sc cs f0)) th ze =
  product_series sin cos ms ns (fun m n => P m n) sc th ze + product_series cos sin ms ns (fun m n => P m n) cs th ze.
Proof.
  destruct (back_fold 1 (fun n => - cs (P 0 n) / basis_norm 0 n)
    (fun m n => if Z.eqb (Z.abs n) 0 then sc (P m (Z.abs n)) / basis_norm m (Z.abs n)
       else 1 / 2 * (sc (P m (Z.abs n)) - IZR (signum n) * cs (P m (Z.abs n))) / basis_norm m (Z.abs n)) f0 ltac:(lia)) as (_ & B2 & _).
  assert (B : forall m n, In (m, n) (modes_ 1) -> snd (sc_cs_to_sin la ns ms sc cs f0) (mode_pos ns m n) =
    if Z.eqb m 0 then - cs (P 0 n) / basis_norm 0 n else if Z.eqb (Z.abs n) 0 then sc (P m (Z.abs n)) / basis_norm m (Z.abs n)
       else 1 / 2 * (sc (P m (Z.abs n)) - IZR (signum n) * cs (P m (Z.abs n))) / basis_norm m (Z.abs n)) by (intros m n H; exact (B2 m n H)).
  set (f := snd (sc_cs_to_sin la ns ms sc cs f0)) in *. clearbody f. clear B2.
  unfold combined_series, product_series. rewrite <- zsum_plus. rewrite (zsum_cons 0 ms) by lia. f_equal.
  - rewrite <- zsum_plus. apply zsum_ext. intros n Hn. 
    rewrite sin_neg, !Rmult_0_l, cos_0, sin_0. destruct (Z.eq_dec n 0) as [->|Ne]; [rewrite !Rmult_0_l, sin_0; ring|].
    rewrite B by (apply modes_In; lia). cbn [Z.eqb].
    pose proof (basis_norm_s2 0 n) as N. pose proof (basis_norm_pos 0 n) as NP.
    assert (E : s2 0 * s2 n = / basis_norm 0 n) by (apply (Rmult_eq_reg_l (basis_norm 0 n)); [rewrite N; field; lra|lra]).
    rewrite E. field. lra.
  - apply zsum_ext. intros m Hm. rewrite <- zsum_plus, zsum_sym. rewrite (zsum_cons 0) by lia. f_equal.
    + rewrite B by (apply modes_In; lia). destruct (Z.eqb_spec m 0) as [E0|_]; [lia|]. cbn [Z.abs Z.eqb].
      pose proof (basis_norm_s2 m 0) as N. pose proof (basis_norm_pos m 0) as NP.
      assert (E : s2 m * s2 0 = / basis_norm m 0) by (apply (Rmult_eq_reg_l (basis_norm m 0)); [rewrite N; field; lra|lra]).
      rewrite E, !Rmult_0_l, cos_0, sin_0, Rminus_0_r. field. lra.
    + apply zsum_ext. intros n Hn. rewrite !B by (apply modes_In; lia). destruct (Z.eqb_spec m 0) as [E0|_]; [lia|].
      rewrite Z.abs_opp. destruct (Z.eqb_spec (Z.abs n) 0) as [E0|_]; [lia|]. rewrite Z.abs_eq by lia.
      pose proof (basis_norm_s2 m n) as N. pose proof (basis_norm_pos m n) as NP.
      assert (E : s2 m * s2 n = / basis_norm m n) by (apply (Rmult_eq_reg_l (basis_norm m n)); [rewrite N; field; lra|lra]).
      rewrite E, !signum_sgn. rewrite (Z.sgn_pos n), (Z.sgn_neg (- n)) by lia. rewrite opp_IZR.
      replace (IZR m * th - - IZR n * ze) with (IZR m * th + IZR n * ze) by ring.
      rewrite sin_minus, sin_plus. field. lra.
Qed.
End Conv.
