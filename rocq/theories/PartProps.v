(** Property theorems about work sharing (C01, C02, C03). *)
From Coq Require Import ZArith Lia List.
From Verif Require Import Base BaseLemmas PartModel PartSpec PartProofs.
Open Scope Z_scope.

(** C01. [surfaces] is the number of surfaces on which forces are evolved. *)
Theorem C01_radial_work_sharing :
  forall (ns T : Z) (lfreeb : bool),
    1 <= T -> 2 * T <= ns ->
    let surfaces := if lfreeb then ns else ns - 1 in
    exists r : Z -> rpart,
      (forall t, 0 <= t < T -> adjustRadialPartitioning T t ns lfreeb = Some (r t)) /\
      distributes T surfaces (fun t => nsMinF (r t)) (fun t => nsMaxF (r t)) /\
      balanced T (fun t => nsMinF (r t)) (fun t => nsMaxF (r t)) /\
      nobody_idle T (fun t => nsMinF (r t)) (fun t => nsMaxF (r t)) /\
      distributes T ns (fun t => nsMinF (r t)) (fun t => nsMaxFIncludingLcfs (r t)) /\
      ordered T (fun t => nsMinF (r t)) (fun t => nsMaxFIncludingLcfs (r t)) /\
      (forall t j i, 0 <= t < T ->
         nsMinF (r t) <= j < nsMaxFIncludingLcfs (r t) ->
         Z.abs (i - j) <= 1 -> 0 <= i < ns -> nsMinF1 (r t) <= i < nsMaxF1 (r t)) /\
      (forall t j h, 0 <= t < T ->
         nsMinF (r t) <= j < nsMaxFIncludingLcfs (r t) ->
         (h = j - 1 \/ h = j) -> 0 <= h < ns - 1 -> nsMinH (r t) <= h < nsMaxH (r t)) /\
      (forall t h, 0 <= t < T -> nsMinH (r t) <= h < nsMaxH (r t) ->
         nsMinF1 (r t) <= h /\ h + 1 < nsMaxF1 (r t)) /\
      (forall t, 0 <= t < T -> (nsMaxF1 (r t) = ns <-> t = T - 1)).
Proof.
  intros ns T lfreeb HT H2 surfaces.
  exists (fun t => rp_closed T t ns lfreeb).
  split; [intros; apply adjust_ok; assumption|].
  split; [exact (r_F_distributes T ns lfreeb HT H2)|].
  split; [exact (r_F_balanced T ns lfreeb HT H2)|].
  split; [intros t Ht; pose proof (blk_bounds T ns lfreeb HT H2 t Ht); cbn; lia|].
  split; [exact (r_adv_distributes T ns lfreeb HT H2)|].
  split; [exact (r_adv_ordered T ns lfreeb HT H2)|].
  split; [intros; eapply (r_halo T ns lfreeb HT H2); eauto; lia|].
  split; [intros; eapply (r_half_local T ns lfreeb HT H2); eauto; lia|].
  split; [intros t h Ht Hh; pose proof (r_half_full T ns lfreeb HT H2 t h Ht Hh); tauto|].
  intros; apply (r_boundary_owner T ns lfreeb HT H2); assumption.
Qed.
Print Assumptions C01_radial_work_sharing.

(** Eleven surfaces, fixed boundary, four threads: blocks of 3, 3, 2, 2. *)
Example C01_instance :
  1 <= 4 /\ 2 * 4 <= 11 /\
  List.map (fun t => option_map (fun r => (nsMinF r, nsMaxFIncludingLcfs r))
                                (adjustRadialPartitioning 4 t 11 false))
           (zrange 0 4)
  = (Some (0, 3) :: Some (3, 6) :: Some (6, 8) :: Some (8, 11) :: nil)%list.
Proof. repeat split; vm_compute; congruence. Qed.

(** C02. *)
Theorem C02_thread_budget_never_refused :
  forall (max_threads ns nZnT : Z) (lfreeb : bool),
    1 <= max_threads -> 3 <= ns -> 1 <= nZnT ->
    let T := radial_threads max_threads ns lfreeb in
    let V := vmec_adjust_vacuum_num_threads max_threads nZnT in
    (1 <= T <= max_threads) /\
    (forall t, 0 <= t < T -> adjustRadialPartitioning T t ns lfreeb <> None) /\
    (T = max_threads \/ 2 * (T + 1) > (if lfreeb then ns else ns - 1)) /\
    1 <= V /\ V <= max_threads /\ V <= nZnT.
Proof.
  intros maxt ns nZnT lfreeb Hm Hns Hz T V.
  pose proof (radial_threads_bounds maxt ns lfreeb Hm Hns) as (B1 & B2 & B3 & B4).
  fold T in B1, B2, B3, B4.
  split; [lia|]. split.
  - intros t Ht. rewrite adjust_closed by lia. discriminate.
  - split; [|subst V; unfold vmec_adjust_vacuum_num_threads; lia].
    subst T. unfold radial_threads, vmec_adjust_num_threads, num_surfaces_to_distribute.
    set (n := if lfreeb then ns else ns - 1).
    assert (0 <= n) by (subst n; destruct lfreeb; lia).
    rewrite Z.quot_div_nonneg by lia.
    pose proof (Z_div_mod_eq_full n 2); pose proof (Z.mod_pos_bound n 2). lia.
Qed.
Print Assumptions C02_thread_budget_never_refused.

Example C02_instance : radial_threads 64 51 false = 25 /\ radial_threads 8 51 true = 8
  /\ radial_threads 64 3 false = 1 /\ adjustRadialPartitioning 26 0 51 false = None.
Proof. repeat split. Qed.

(** C03. *)
Theorem C03_vacuum_work_sharing :
  forall nZnT T : Z, 0 <= nZnT -> 1 <= T ->
    let lo t := fst (tangential_range nZnT T t) in
    let hi t := snd (tangential_range nZnT T t) in
    distributes T nZnT lo hi /\ ordered T lo hi /\ balanced T lo hi /\
    (T <= nZnT -> nobody_idle T lo hi).
Proof.
  intros n T Hn HT lo hi.
  assert (E : forall t, 0 <= t -> lo t = blk n T t /\ hi t = blk n T (t + 1)).
  { intros t Ht. subst lo hi. cbn. rewrite tangential_range_blk by lia. split; reflexivity. }
  destruct (blk_distributes n T ltac:(lia) Hn) as [D1 D2].
  split; [split|split; [|split]].
  - intros j Hj. destruct (D1 j Hj) as [t [[Ht Hb] U]]. exists t.
    destruct (E t ltac:(lia)) as [E1 E2]. rewrite E1, E2. split; [tauto|].
    intros t' [Ht' Hb']. destruct (E t' ltac:(lia)) as [E1' E2']. rewrite E1', E2' in Hb'.
    apply U. tauto.
  - intros t j Ht. destruct (E t ltac:(lia)) as [E1 E2]. rewrite E1, E2. intros; eapply D2; eauto.
  - intros t u i j H0 H1 H2. destruct (E t ltac:(lia)) as [E1 E2], (E u ltac:(lia)) as [E3 E4].
    rewrite E1, E2, E3, E4. apply (blk_ordered n T ltac:(lia) Hn); assumption.
  - intros t u Ht Hu. destruct (E t ltac:(lia)) as [E1 E2], (E u ltac:(lia)) as [E3 E4].
    rewrite E1, E2, E3, E4. apply (blk_balanced n T ltac:(lia) Hn); assumption.
  - intros Hle t Ht. destruct (E t ltac:(lia)) as [E1 E2]. rewrite E1, E2.
    pose proof (blk_step n T t ltac:(lia) Hn).
    assert (1 <= n / T) by (apply Z.div_le_lower_bound; lia). lia.
Qed.
Print Assumptions C03_vacuum_work_sharing.

Example C03_instance : List.map (tangential_range 10 4) (zrange 0 4)
  = ((0, 3) :: (3, 6) :: (6, 8) :: (8, 10) :: nil)%list.
Proof. reflexivity. Qed.
