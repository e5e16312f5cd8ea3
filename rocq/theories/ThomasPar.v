(** Proofs about the distributed preconditioner: independence of the thread count
    and of the order of execution inside the phases. *)
From Coq Require Import ZArith List Bool Lia Permutation.
From Verif Require Import Base BaseLemmas Num PartModel PartSpec PartProofs ThomasModel ThomasProofs.
Import ListNotations.
Open Scope Z_scope.

Section P.
Context {K : num} (p : shape).
Context (n : Z).
Hypothesis nb_ok : 0 <= p_nb p.
Hypothesis mn_ok : 0 <= p_mn p.
Hypothesis jmin_ok : forall mn, 0 <= mn < p_mn p -> 0 <= p_jmin p mn < p_jmax p.
Hypothesis jmax_ok : p_jmax p <= n.
Hypothesis n_ok : n <= p_ns p.

(** Global matrix and right-hand side: component, mode, surface (and basis). *)
Context (A D B : bool -> Z -> Z -> K) (C : bool -> Z -> Z -> Z -> K).

Section Threads.
Context (bnd : Z -> Z * Z) (T : Z).
Hypothesis T_ok : 1 <= T.
Hypothesis bnd_ok : distributes T n (fun t => fst (bnd t)) (fun t => snd (bnd t)).
Context (l0 : Z -> @local K).

(** Local storage holds the thread's part of the global data. *)
Definition holds (l : Z -> @local K) : Prop :=
  forall t jF mn z, 0 <= t < T -> fst (bnd t) <= jF < snd (bnd t) -> 0 <= mn < p_mn p ->
  let idx := (jF - fst (bnd t)) * p_mn p + mn in
  la (l t) z idx = A z mn jF /\ ld (l t) z idx = D z mn jF /\ lb (l t) z idx = B z mn jF /\
  forall k, 0 <= k < p_nb p -> lc (l t) z k idx = C z mn k jF.
Hypothesis l0_ok : holds l0.

Lemma in_all_pairs t jF mn :
  In (t, jF, mn) (all_pairs p bnd T) <->
  0 <= t < T /\ fst (bnd t) <= jF < snd (bnd t) /\ 0 <= mn < p_mn p.
Proof.
  unfold all_pairs, own_pairs. rewrite in_flat_map. split.
  - intros (t' & Ht & H). rewrite in_flat_map in H. destruct H as (j & Hj & H).
    rewrite in_map_iff in H. destruct H as (m & E & Hm). inversion E; subst.
    apply zrange_In in Ht, Hj, Hm. auto.
  - intros (Ht & Hj & Hm). exists t. split; [apply zrange_In; auto|].
    rewrite in_flat_map. exists jF. split; [apply zrange_In; auto|].
    rewrite in_map_iff. exists mn. split; [reflexivity|apply zrange_In; auto].
Qed.

Lemma own_range t jF : 0 <= t < T -> fst (bnd t) <= jF < snd (bnd t) -> 0 <= jF < n.
Proof. intros Ht Hj. destruct bnd_ok as (_ & X). apply (X t); auto. Qed.

(** Phase 1. *)
Definition placed (h : @shared K) (z : bool) (mn jF : Z) : Prop :=
  ta (h z mn) jF = A z mn jF /\ td (h z mn) jF = D z mn jF /\ tb (h z mn) jF = B z mn jF /\
  forall k, 0 <= k < p_nb p -> tc (h z mn) (k * p_ns p + jF) = C z mn k jF.

Lemma gather_row_placed t jF mn z q :
  0 <= t < T -> fst (bnd t) <= jF < snd (bnd t) -> 0 <= mn < p_mn p ->
  let r := gather_row p (fst (bnd t)) jF mn (l0 t) z q in
  ta r jF = A z mn jF /\ td r jF = D z mn jF /\ tb r jF = B z mn jF /\
  (forall k, 0 <= k < p_nb p -> tc r (k * p_ns p + jF) = C z mn k jF) /\
  (forall j, j <> jF -> ta r j = ta q j /\ td r j = td q j /\ tb r j = tb q j) /\
  (forall k j, 0 <= k < p_nb p -> 0 <= j < p_ns p -> j <> jF ->
     tc r (k * p_ns p + j) = tc q (k * p_ns p + j)).
Proof.
  intros Ht Hj Hm. destruct (l0_ok t jF mn z Ht Hj Hm) as (X1 & X2 & X3 & X4).
  pose proof (own_range t jF Ht Hj) as HR.
  cbv zeta. unfold gather_row. cbn [ta td tb tc]. rewrite !upd_eq.
  set (idx := (jF - fst (bnd t)) * p_mn p + mn) in *.
  destruct (for_up_fill (fun k => k * p_ns p + jF) (fun k => lc (l0 t) z k idx) 0 (p_nb p) (tc q))
    as (F1 & F2).
  { intros a b _ _ E. nia. }
  split; [exact X1|]. split; [exact X2|]. split; [exact X3|]. split; [|split].
  - intros k Hk. rewrite F1 by auto. apply X4; auto.
  - intros j Hn. rewrite !upd_neq by auto. auto.
  - intros k j Hk Hjj Hn. apply F2. intros k' Hk' E.
    apply flat_inj in E; [|lia|lia]. destruct E as (_ & E). apply Hn. exact E.
Qed.

Lemma gather_step_placed t jF mn h z' mn' jF' :
  0 <= t < T -> fst (bnd t) <= jF < snd (bnd t) -> 0 <= mn < p_mn p ->
  0 <= jF' < p_ns p ->
  placed h z' mn' jF' \/ (mn' = mn /\ jF' = jF) ->
  placed (gather_step p (fst (bnd t)) jF mn (l0 t) h) z' mn' jF'.
Proof.
  intros Ht Hj Hm HR HP. unfold gather_step, placed. cbv zeta. unfold upd_sys.
  destruct (Z.eqb_spec mn' mn) as [-> | N].
  - rewrite Z.eqb_refl, !andb_true_r.
    assert (E : (if Bool.eqb z' true
       then gather_row p (fst (bnd t)) jF mn (l0 t) true (if Bool.eqb true false then
             gather_row p (fst (bnd t)) jF mn (l0 t) false (h false mn) else h true mn)
       else if Bool.eqb z' false then gather_row p (fst (bnd t)) jF mn (l0 t) false (h false mn)
       else h z' mn) = gather_row p (fst (bnd t)) jF mn (l0 t) z' (h z' mn))
      by (destruct z'; reflexivity).
    rewrite E. clear E.
    destruct (gather_row_placed t jF mn z' (h z' mn) Ht Hj Hm) as (P1 & P2 & P3 & P4 & P5 & P6).
    destruct (Z.eq_dec jF' jF) as [-> | NJ]; [auto|].
    destruct HP as [(Q1 & Q2 & Q3 & Q4)|(_ & X)]; [|contradiction].
    destruct (P5 jF' NJ) as (-> & -> & ->).
    split; [exact Q1|]. split; [exact Q2|]. split; [exact Q3|].
    intros k Hk. rewrite P6; auto.
  - rewrite !andb_false_r. destruct HP as [HP|(X & _)]; [exact HP|contradiction].
Qed.

Lemma gather_all o h z mn jF :
  (forall x, In x o -> In x (all_pairs p bnd T)) ->
  0 <= jF < p_ns p ->
  placed h z mn jF \/ (exists t, In (t, jF, mn) o) ->
  placed (fold_left (fun h '(t, jF, mn) => gather_step p (fst (bnd t)) jF mn (l0 t) h) o h) z mn jF.
Proof.
  revert h. induction o as [|((t & j) & m) o IH]; intros h HO HR HP.
  - cbn. destruct HP as [HP|(t & [])]. exact HP.
  - cbn [fold_left]. apply IH; [intros x Hx; apply HO; right; exact Hx|exact HR|].
    pose proof (HO (t, j, m) ltac:(left; reflexivity)) as HI.
    apply in_all_pairs in HI. destruct HI as (H1 & H2 & H3).
    destruct HP as [HP|(t' & [E|Hin])].
    + left. apply gather_step_placed; auto.
    + inversion E; subst. left. apply gather_step_placed; auto.
    + right. eauto.
Qed.

(** Phase 2. *)
Definition solve1 (mn : Z) (q : @tri K) : @tri K :=
  tridiagonal_solve (p_ns p) (p_jmin p mn) (p_jmax p) (p_nb p) q.

Lemma solve_all o h : NoDup o -> forall z mn,
  (In mn o -> fold_left (fun h mn => solve_step p mn h) o h z mn = solve1 mn (h z mn)) /\
  (~ In mn o -> fold_left (fun h mn => solve_step p mn h) o h z mn = h z mn).
Proof.
  intros ND. revert h. induction ND as [|m o NI ND IH]; intros h z mn.
  - cbn. split; [contradiction|reflexivity].
  - cbn [fold_left].
    assert (E : forall mn', solve_step p m h z mn' =
        if mn' =? m then solve1 m (h z m) else h z mn').
    { intros mn'. unfold solve_step, upd_sys, solve1. cbv zeta. rewrite Z.eqb_refl.
      destruct (mn' =? m) eqn:Em; rewrite ?andb_true_r, ?andb_false_r; [|reflexivity].
      destruct z; reflexivity. }
    destruct (IH (solve_step p m h) z mn) as (I1 & I2). split.
    + intros [-> | Hin].
      * rewrite I2 by exact NI. rewrite E, Z.eqb_refl. reflexivity.
      * rewrite I1 by exact Hin. rewrite E. destruct (Z.eqb_spec mn m); [congruence|reflexivity].
    + intros Hn. rewrite I2 by (intros X; apply Hn; right; exact X).
      rewrite E. destruct (Z.eqb_spec mn m) as [-> | N]; [|reflexivity].
      exfalso. apply Hn. left; reflexivity.
Qed.

Lemma all_modes_eq : all_modes p T = zrange 0 (p_mn p).
Proof.
  unfold all_modes.
  transitivity (flat_map (fun t => zrange (blk (p_mn p) T t) (blk (p_mn p) T (t + 1))) (zrange 0 T)).
  - assert (H : forall l, (forall t, In t l -> 0 <= t) ->
      flat_map (own_modes p T) l =
      flat_map (fun t => zrange (blk (p_mn p) T t) (blk (p_mn p) T (t + 1))) l).
    { induction l as [|t l IH]; intros HL; [reflexivity|]. cbn [flat_map].
      rewrite IH by (intros; apply HL; right; auto). f_equal.
      unfold own_modes. rewrite mode_range_blk; [reflexivity|lia|lia|].
      apply HL. left; reflexivity. }
    apply H. intros t Ht. apply zrange_In in Ht. lia.
  - rewrite flat_map_blocks; [|lia|intros; apply blk_mono1; lia].
    rewrite blk_0, blk_T by lia. reflexivity.
Qed.

(** Phase 3. *)
Lemma scatter_lc nsMinF jF mn h (l : @local K) z k i :
  0 <= k < p_nb p ->
  lc (scatter_step p nsMinF jF mn h l) z k i =
  (if i =? (jF - nsMinF) * p_mn p + mn then tc (h z mn) (k * p_ns p + jF) else lc l z k i).
Proof.
  intros Hk. unfold scatter_step. cbn [lc]. cbv zeta.
  set (idx := (jF - nsMinF) * p_mn p + mn). set (c := tc (h z mn)). clearbody c idx.
  revert Hk. pattern (p_nb p).
  assert (G : (fun m (f : Z -> Z -> K) => forall k i, 0 <= k ->
     f k i = if (k <? m) && (i =? idx) then c (k * p_ns p + jF) else lc l z k i) (p_nb p)
     (for_up 0 (p_nb p) (fun k f k' => if k' =? k then upd (f k') idx (c (k * p_ns p + jF)) else f k')
         (lc l z))).
  { apply (for_up_ind (fun m (f : Z -> Z -> K) => forall k i, 0 <= k ->
     f k i = if (k <? m) && (i =? idx) then c (k * p_ns p + jF) else lc l z k i)); [lia| |].
    - intros k0 i0 Hk0. destruct (Z.ltb_spec k0 0); [lia|reflexivity].
    - intros m f Hm IH k0 i0 Hk0. destruct (Z.eqb_spec k0 m) as [-> | N].
      + unfold upd. rewrite IH by lia. destruct (Z.ltb_spec m m); [lia|].
        destruct (Z.ltb_spec m (m + 1)); [|lia]. cbn [andb]. reflexivity.
      + rewrite IH by lia. destruct (Z.ltb_spec k0 m); destruct (Z.ltb_spec k0 (m + 1)); auto; lia. }
  intros Hk. cbv beta in G. rewrite G by lia.
  destruct (Z.ltb_spec k (p_nb p)); [|lia]. reflexivity.
Qed.

Definition scat (h : @shared K) : (Z -> @local K) -> Z * Z * Z -> (Z -> @local K) :=
  fun l '(t, jF, mn) =>
    fun t' => if t' =? t then scatter_step p (fst (bnd t)) jF mn h (l t') else l t'.

Lemma scatter_all h o l t jF mn z k :
  (forall x, In x o -> In x (all_pairs p bnd T)) ->
  0 <= t < T -> fst (bnd t) <= jF < snd (bnd t) -> 0 <= mn < p_mn p -> 0 <= k < p_nb p ->
  lc (l t) z k ((jF - fst (bnd t)) * p_mn p + mn) = tc (h z mn) (k * p_ns p + jF) \/
  In (t, jF, mn) o ->
  lc (fold_left (scat h) o l t) z k ((jF - fst (bnd t)) * p_mn p + mn)
  = tc (h z mn) (k * p_ns p + jF).
Proof.
  revert l. induction o as [|((t' & j) & m) o IH]; intros l HO Ht Hj Hm Hk HP.
  - cbn. destruct HP as [HP|[]]. exact HP.
  - cbn [fold_left]. apply IH; auto; [intros x Hx; apply HO; right; exact Hx|].
    pose proof (HO (t', j, m) ltac:(left; reflexivity)) as HI.
    apply in_all_pairs in HI. destruct HI as (H1 & H2 & H3).
    destruct HP as [HP|[E|Hin]]; [| |right; exact Hin]; left; unfold scat.
    + destruct (Z.eqb_spec t t') as [<- | N]; [|exact HP].
      rewrite scatter_lc by exact Hk.
      destruct (Z.eqb_spec ((jF - fst (bnd t)) * p_mn p + mn) ((j - fst (bnd t)) * p_mn p + m))
        as [EI|NI]; [|exact HP].
      apply flat_inj in EI; [|lia|lia]. destruct EI as (EI & <-).
      replace j with jF by lia. reflexivity.
    + inversion E; subst. rewrite Z.eqb_refl. rewrite scatter_lc by exact Hk.
      rewrite Z.eqb_refl. reflexivity.
Qed.

(** The reference: the serial solver applied to the global system of one mode. *)
Definition glob (z : bool) (mn : Z) : @tri K :=
  mkTri (A z mn) (D z mn) (B z mn)
        (fun i => C z mn (i / p_ns p) (i mod p_ns p)).

Definition reference (z : bool) (mn k jF : Z) : K :=
  if jF <? p_jmax p then tc (solve1 mn (glob z mn)) (k * p_ns p + jF) else C z mn k jF.

Lemma glob_c z mn k j : 0 <= j < p_ns p -> tc (glob z mn) (k * p_ns p + j) = C z mn k j.
Proof.
  intros Hj. cbn. f_equal.
  - rewrite Z.add_comm, Z.div_add by lia. rewrite Z.div_small by lia. lia.
  - rewrite Z.add_comm, Z.mod_add by lia. apply Z.mod_small. lia.
Qed.

Theorem apply_rz_reference o1 o2 o3 h t jF mn z k :
  Permutation o1 (all_pairs p bnd T) -> Permutation o2 (all_modes p T) ->
  Permutation o3 (all_pairs p bnd T) ->
  0 <= t < T -> fst (bnd t) <= jF < snd (bnd t) -> 0 <= mn < p_mn p -> 0 <= k < p_nb p ->
  lc (snd (apply_rz p bnd o1 o2 o3 h l0) t) z k ((jF - fst (bnd t)) * p_mn p + mn)
  = reference z mn k jF.
Proof.
  intros HO1 HO2 HO3 Ht Hj Hm Hk. unfold apply_rz. cbn [snd].
  set (h1 := fold_left (fun h '(t, jF, mn) => gather_step p (fst (bnd t)) jF mn (l0 t) h) o1 h).
  assert (P1 : forall z mn jF, 0 <= mn < p_mn p -> 0 <= jF < n -> placed h1 z mn jF).
  { intros z' mn' jF' Hm' Hj'. apply gather_all.
    - intros x. apply Permutation_in. exact HO1.
    - lia.
    - right. destruct bnd_ok as (EX & _). destruct (EX jF' Hj') as (t' & (Ht' & Hb') & _).
      exists t'. apply (Permutation_in _ (Permutation_sym HO1)).
      apply in_all_pairs. auto. }
  clearbody h1.
  set (h2 := fold_left (fun h mn => solve_step p mn h) o2 h1).
  assert (P2 : h2 z mn = solve1 mn (h1 z mn)).
  { rewrite all_modes_eq in HO2. subst h2. apply (solve_all o2 h1).
    - apply (Permutation_NoDup (Permutation_sym HO2)). apply zrange_NoDup.
    - apply (Permutation_in _ (Permutation_sym HO2)). apply zrange_In. exact Hm. }
  clearbody h2.
  pose proof (scatter_all h2 o3 l0 t jF mn z k) as SC. unfold scat in SC.
  rewrite SC; auto; [|intros x; apply Permutation_in; exact HO3
    |right; apply (Permutation_in _ (Permutation_sym HO3)); apply in_all_pairs; auto].
  clear SC. rewrite P2. unfold reference, solve1.
  pose proof (jmin_ok mn Hm) as HJ.
  pose proof (own_range t jF Ht Hj) as HR.
  pose proof (solve_spec (p_ns p) (p_jmin p mn) (p_jmax p) (p_nb p) (h1 z mn) HJ ltac:(lia) nb_ok) as S1.
  pose proof (solve_spec (p_ns p) (p_jmin p mn) (p_jmax p) (p_nb p) (glob z mn) HJ ltac:(lia) nb_ok) as S2.
  destruct (Z.ltb_spec jF (p_jmax p)) as [L|L].
  - apply (solved_det (p_jmin p mn) (p_jmax p) (p_nb p) (p_ns p) (h1 z mn) (glob z mn)); auto; try lia.
    + intros j Hjj. destruct (P1 z mn j Hm ltac:(lia)) as (Q1 & Q2 & Q3 & _). auto.
    + intros k' j Hk' Hjj. destruct (P1 z mn j Hm ltac:(lia)) as (_ & _ & _ & Q4).
      rewrite Q4 by auto. rewrite glob_c by lia. reflexivity.
  - destruct S1 as (a' & _ & _ & _ & S1 & _). rewrite S1 by lia.
    destruct (P1 z mn jF Hm ltac:(lia)) as (_ & _ & _ & Q4). apply Q4. exact Hk.
Qed.

End Threads.
End P.
