From Coq Require Import ZArith Lia Bool List.
From Verif Require Import Base BaseLemmas PartModel PartSpec.
Open Scope Z_scope.

(** Boundary of the block distribution. *)
Definition blk (n T t : Z) : Z := t * (n / T) + Z.min t (n mod T).
Arguments blk : simpl never.

Lemma blk_0 n T : 0 < T -> 0 <= n -> blk n T 0 = 0.
Proof. intros. unfold blk. pose proof (Z.mod_pos_bound n T). lia. Qed.

Lemma blk_T n T : 0 < T -> 0 <= n -> blk n T T = n.
Proof.
  intros. unfold blk. pose proof (Z.mod_pos_bound n T). pose proof (Z_div_mod_eq_full n T).
  lia.
Qed.

Lemma blk_step n T t : 0 < T -> 0 <= n ->
  n / T <= blk n T (t + 1) - blk n T t <= n / T + 1.
Proof. intros. unfold blk. lia. Qed.

Lemma blk_mono1 n T t : 0 < T -> 0 <= n -> blk n T t <= blk n T (t + 1).
Proof. intros. pose proof (blk_step n T t H H0). pose proof (Z.div_pos n T). lia. Qed.

Lemma blk_mono n T t u : 0 < T -> 0 <= n -> t <= u -> blk n T t <= blk n T u.
Proof.
  intros HT Hn Htu. unfold blk.
  pose proof (Z.div_pos n T). assert (t * (n / T) <= u * (n / T)) by nia. lia.
Qed.

Lemma blk_find n T j : 0 < T -> 0 <= n -> 0 <= j < n ->
  exists t, 0 <= t < T /\ blk n T t <= j < blk n T (t + 1).
Proof.
  intros HT Hn Hj.
  assert (G : forall k : nat, Z.of_nat k <= T -> j < blk n T (Z.of_nat k) ->
    exists t, 0 <= t < Z.of_nat k /\ blk n T t <= j < blk n T (t + 1)).
  { induction k as [|k IH]; intros Hk Hlt.
    - change (Z.of_nat 0) with 0 in Hlt. rewrite blk_0 in Hlt by lia. lia.
    - destruct (Z.lt_ge_cases j (blk n T (Z.of_nat k))) as [H|H].
      + destruct IH as [t Ht]; [lia|lia|]. exists t. lia.
      + exists (Z.of_nat k). split; [lia|].
        replace (Z.of_nat k + 1) with (Z.of_nat (S k)) by lia. lia. }
  destruct (G (Z.to_nat T)) as [t Ht].
  - lia.
  - rewrite Z2Nat.id by lia. rewrite blk_T by lia. lia.
  - exists t. lia.
Qed.

Lemma blk_distributes n T : 0 < T -> 0 <= n ->
  distributes T n (blk n T) (fun t => blk n T (t + 1)).
Proof.
  intros HT Hn. split.
  - intros j Hj. destruct (blk_find n T j HT Hn Hj) as [t [Ht Hb]].
    exists t. split; [tauto|]. intros t' [Ht' Hb'].
    destruct (Z.lt_trichotomy t t') as [L|[E|L]]; [|auto|].
    + pose proof (blk_mono n T (t + 1) t' HT Hn ltac:(lia)). lia.
    + pose proof (blk_mono n T (t' + 1) t HT Hn ltac:(lia)). lia.
  - intros t j Ht Hj.
    pose proof (blk_mono n T 0 t HT Hn ltac:(lia)).
    pose proof (blk_mono n T (t + 1) T HT Hn ltac:(lia)).
    rewrite blk_0 in * by lia. rewrite blk_T in * by lia. lia.
Qed.

Lemma blk_ordered n T : 0 < T -> 0 <= n ->
  ordered T (blk n T) (fun t => blk n T (t + 1)).
Proof.
  intros HT Hn t u i j Ht Htu Hu Hi Hj.
  pose proof (blk_mono n T (t + 1) u HT Hn ltac:(lia)). lia.
Qed.

Lemma blk_balanced n T : 0 < T -> 0 <= n ->
  balanced T (blk n T) (fun t => blk n T (t + 1)).
Proof.
  intros HT Hn t u _ _.
  pose proof (blk_step n T t HT Hn). pose proof (blk_step n T u HT Hn). lia.
Qed.

Lemma tangential_range_blk n T t : 0 < T -> 0 <= n -> 0 <= t ->
  tangential_range n T t = (blk n T t, blk n T (t + 1)).
Proof.
  intros. unfold tangential_range, blk.
  rewrite Z.quot_div_nonneg, Z.rem_mod_nonneg by lia.
  destruct (Z.ltb_spec t (n mod T)); f_equal; lia.
Qed.

Lemma mode_range_blk n T t : 0 < T -> 0 <= n -> 0 <= t ->
  mode_range n T t = (blk n T t, blk n T (t + 1)).
Proof.
  intros. unfold mode_range, blk.
  rewrite Z.quot_div_nonneg, Z.rem_mod_nonneg by lia.
  destruct (Z.ltb_spec t (n mod T)); f_equal; lia.
Qed.

(** Closed form of the radial partition. *)
Definition rp_closed (T t ns : Z) (lfreeb : bool) : rpart :=
  let n := num_surfaces_to_distribute ns lfreeb in
  let lo := blk n T t in
  let hi := blk n T (t + 1) in
  let loF1 := Z.max 0 (lo - 1) in
  let hiF1 := Z.min ns (hi + 1) in
  {| nsMinF1 := loF1; nsMaxF1 := hiF1; nsMinH := loF1; nsMaxH := hiF1 - 1;
     nsMinF := lo; nsMaxF := hi;
     nsMinFi := Z.max 1 lo; nsMaxFi := Z.min (ns - 1) hi;
     nsMaxFIncludingLcfs := if hiF1 =? ns then ns else hi |}.

Lemma adjust_closed T t ns lfreeb : 1 <= T <= ns / 2 -> 0 <= t < T ->
  adjustRadialPartitioning T t ns lfreeb = Some (rp_closed T t ns lfreeb).
Proof.
  intros HT Ht. unfold adjustRadialPartitioning, rp_closed.
  assert (Hns : 2 <= ns) by (pose proof (Z_div_mod_eq_full ns 2);
    pose proof (Z.mod_pos_bound ns 2); lia).
  rewrite Z.quot_div_nonneg by lia.
  destruct (Z.gtb_spec T (ns / 2)); [lia|].
  set (n := num_surfaces_to_distribute ns lfreeb).
  assert (Hn : 0 <= n) by (subst n; unfold num_surfaces_to_distribute; destruct lfreeb; lia).
  destruct (Z.gtb_spec T 1).
  - rewrite Z.quot_div_nonneg, Z.rem_mod_nonneg by lia.
    assert (E1 : (if t <? n mod T then t * (n / T) + t else t * (n / T) + n mod T) = blk n T t).
    { unfold blk. destruct (Z.ltb_spec t (n mod T)); lia. }
    assert (E2 : (if t <? n mod T then (t + 1) * (n / T) + (t + 1) else (t + 1) * (n / T) + n mod T)
                 = blk n T (t + 1)).
    { unfold blk. destruct (Z.ltb_spec t (n mod T)); lia. }
    rewrite E1, E2. reflexivity.
  - assert (T = 1) by lia. assert (t = 0) by lia. subst T t.
    change (0 + 1) with 1. rewrite blk_0, blk_T by lia.
    rewrite Z.eqb_refl.
    f_equal. subst n. unfold num_surfaces_to_distribute.
    destruct lfreeb; f_equal; try lia.
    + destruct (Z.eqb_spec (Z.min ns (ns + 1)) ns); lia.
    + destruct (Z.eqb_spec (Z.min ns (ns - 1 + 1)) ns); lia.
Qed.

(** Facts about the thread count the solver picks. *)
Lemma radial_threads_bounds maxt ns lfreeb : 1 <= maxt -> 3 <= ns ->
  1 <= radial_threads maxt ns lfreeb /\
  radial_threads maxt ns lfreeb <= maxt /\
  2 * radial_threads maxt ns lfreeb <= num_surfaces_to_distribute ns lfreeb /\
  radial_threads maxt ns lfreeb <= ns / 2.
Proof.
  intros. unfold radial_threads, vmec_adjust_num_threads, num_surfaces_to_distribute.
  destruct lfreeb; rewrite Z.quot_div_nonneg by lia.
  - pose proof (Z_div_mod_eq_full ns 2); pose proof (Z.mod_pos_bound ns 2). lia.
  - pose proof (Z_div_mod_eq_full (ns-1) 2); pose proof (Z.mod_pos_bound (ns-1) 2).
    pose proof (Z_div_mod_eq_full ns 2); pose proof (Z.mod_pos_bound ns 2). lia.
Qed.

(** Every block but the last has at least two surfaces whenever 2 T <= n + 1. *)
Lemma blk_two n T t : 0 < T -> 2 * T <= n + 1 -> t < T ->
  blk n T t + 1 <= blk n T (t + 1) /\ (t + 1 < T -> blk n T t + 2 <= blk n T (t + 1)) /\
  (2 * T <= n -> blk n T t + 2 <= blk n T (t + 1)).
Proof.
  intros HT H2 Ht. pose proof (blk_step n T t ltac:(lia) ltac:(lia)) as S.
  destruct (Z.le_gt_cases (2 * T) n) as [L|L].
  - assert (2 <= n / T) by (apply Z.div_le_lower_bound; lia). lia.
  - assert (En : n = 1 * T + (T - 1)) by lia.
    assert (D : n / T = 1) by (rewrite En, Z.div_add_l by lia; rewrite Z.div_small; lia).
    assert (M : n mod T = T - 1).
    { pose proof (Z_div_mod_eq_full n T). lia. }
    unfold blk. rewrite D, M. lia.
Qed.

Section Radial.
  Context (T ns : Z) (lfreeb : bool).
  Let n := num_surfaces_to_distribute ns lfreeb.
  Hypothesis HT : 1 <= T.
  Hypothesis H2 : 2 * T <= ns.

  Lemma n_ns : ns - 1 <= n <= ns /\ (n = ns - 1 \/ n = ns).
  Proof. unfold n, num_surfaces_to_distribute. destruct lfreeb; lia. Qed.

  Lemma T_half : T <= ns / 2.
  Proof.
    pose proof n_ns. apply Z.div_le_lower_bound; lia.
  Qed.

  Lemma adjust_ok t : 0 <= t < T ->
    adjustRadialPartitioning T t ns lfreeb = Some (rp_closed T t ns lfreeb).
  Proof. intros. apply adjust_closed; [|assumption]. pose proof T_half. lia. Qed.

  Let r t := rp_closed T t ns lfreeb.

  Lemma r_F_distributes : distributes T n (fun t => nsMinF (r t)) (fun t => nsMaxF (r t)).
  Proof. pose proof n_ns. exact (blk_distributes n T ltac:(lia) ltac:(lia)). Qed.

  Lemma blk_bounds t : 0 <= t < T ->
    0 <= blk n T t /\ blk n T t + 1 <= blk n T (t + 1) /\ blk n T (t + 1) <= n /\
    (t + 1 < T -> blk n T (t + 1) + 2 <= ns /\ blk n T (t + 1) + 1 <= n
                  /\ blk n T t + 2 <= blk n T (t + 1)) /\ (0 < t -> 2 <= blk n T t) /\
    (t + 1 = T -> blk n T (t + 1) = n) /\ (t = 0 -> blk n T t = 0) /\
    (2 * T <= n -> blk n T t + 2 <= blk n T (t + 1)).
  Proof.
    intros Ht. pose proof n_ns as Hn.
    assert (H3 : 2 * T <= n + 1) by lia.
    pose proof (blk_mono n T 0 t ltac:(lia) ltac:(lia) ltac:(lia)) as M0.
    rewrite blk_0 in M0 by lia.
    pose proof (blk_two n T t ltac:(lia) H3 ltac:(lia)).
    pose proof (blk_mono n T (t+1) T ltac:(lia) ltac:(lia) ltac:(lia)) as M1.
    rewrite blk_T in M1 by lia.
    assert (L : t + 1 < T -> blk n T (t + 1) + 2 <= ns /\ blk n T (t + 1) + 1 <= n
                  /\ blk n T t + 2 <= blk n T (t + 1)).
    { intros. pose proof (blk_two n T (t+1) ltac:(lia) H3 ltac:(lia)).
      pose proof (blk_mono n T (t+1+1) T ltac:(lia) ltac:(lia) ltac:(lia)) as M2.
      rewrite blk_T in M2 by lia. lia. }
    repeat split; try lia.
    - intros. pose proof (blk_two n T (t-1) ltac:(lia) H3 ltac:(lia)).
      pose proof (blk_mono n T 0 (t-1) ltac:(lia) ltac:(lia) ltac:(lia)) as M2.
      rewrite blk_0 in M2 by lia. replace (t - 1 + 1) with t in * by lia. lia.
    - intros E. rewrite E. apply blk_T; lia.
    - intros ->. apply blk_0; lia.
  Qed.

  (** Upper end including the boundary surface. *)
  Lemma r_lcfs t : 0 <= t < T ->
    nsMaxFIncludingLcfs (r t) = if t + 1 =? T then ns else nsMaxF (r t).
  Proof.
    intros Ht. pose proof (blk_bounds t Ht). pose proof n_ns.
    cbn. fold n. destruct (Z.eqb_spec (t + 1) T).
    - assert (blk n T (t + 1) = n) by lia.
      destruct (Z.eqb_spec (Z.min ns (blk n T (t + 1) + 1)) ns); lia.
    - destruct (Z.eqb_spec (Z.min ns (blk n T (t + 1) + 1)) ns); lia.
  Qed.

  Definition cut (t : Z) : Z := if t =? T then ns else blk n T t.

  Lemma r_lo_cut t : 0 <= t < T -> nsMinF (r t) = cut t.
  Proof. intros. unfold cut. cbn. fold n. destruct (Z.eqb_spec t T); lia. Qed.

  Lemma r_hi_cut t : 0 <= t < T -> nsMaxFIncludingLcfs (r t) = cut (t + 1).
  Proof.
    intros. rewrite r_lcfs by lia. unfold cut. cbn. fold n.
    destruct (Z.eqb_spec (t + 1) T); reflexivity.
  Qed.

  Lemma cut_mono t u : 0 <= t -> t <= u -> u <= T -> cut t <= cut u.
  Proof.
    intros. pose proof n_ns. unfold cut.
    destruct (Z.eqb_spec t T), (Z.eqb_spec u T); try lia.
    - pose proof (blk_bounds t ltac:(lia)). lia.
    - apply blk_mono; lia.
  Qed.

  Lemma r_adv_distributes :
    distributes T ns (fun t => nsMinF (r t)) (fun t => nsMaxFIncludingLcfs (r t)).
  Proof.
    pose proof n_ns as Hn. destruct r_F_distributes as [Ex In_].
    split.
    - intros j Hj. destruct (Z.lt_ge_cases j n) as [L|L].
      + destruct (Ex j ltac:(lia)) as [t [[Ht Hb] U]].
        exists t. split.
        * split; [assumption|]. rewrite r_lcfs by lia.
          pose proof (blk_bounds t Ht).
          destruct (Z.eqb_spec (t + 1) T); [|lia]. lia.
        * intros t' [Ht' Hb']. apply U. split; [assumption|].
          rewrite r_lcfs in Hb' by lia. pose proof (blk_bounds t' Ht') as B.
          cbn in Hb' |- *. fold n in Hb' |- *.
          destruct (Z.eqb_spec (t' + 1) T); [|lia]. lia.
      + exists (T - 1).
        pose proof (blk_bounds (T - 1) ltac:(lia)) as B.
        replace (T - 1 + 1) with T in * by lia.
        split.
        * split; [lia|]. rewrite r_lcfs by lia. cbn. fold n.
          replace (T - 1 + 1) with T by lia. rewrite Z.eqb_refl. lia.
        * intros t' [Ht' Hb']. rewrite r_lcfs in Hb' by lia.
          pose proof (blk_bounds t' Ht') as B'. cbn in Hb'. fold n in Hb'.
          destruct (Z.eqb_spec (t' + 1) T); lia.
    - intros t j Ht Hj. rewrite r_lcfs in Hj by lia. pose proof (blk_bounds t Ht) as B.
      cbn in Hj. fold n in Hj. destruct (Z.eqb_spec (t + 1) T); lia.
  Qed.

  Lemma r_adv_ordered :
    ordered T (fun t => nsMinF (r t)) (fun t => nsMaxFIncludingLcfs (r t)).
  Proof.
    intros t u i j Ht Htu Hu Hi Hj. rewrite r_hi_cut in Hi by lia. rewrite r_lo_cut in Hj by lia.
    pose proof (cut_mono (t + 1) u ltac:(lia) ltac:(lia) ltac:(lia)). lia.
  Qed.

  Lemma r_F_balanced :
    balanced T (fun t => nsMinF (r t)) (fun t => nsMaxF (r t)).
  Proof. pose proof n_ns. apply (blk_balanced n T); lia. Qed.

  (** Storage: every neighbour of an owned surface is stored locally. *)
  Lemma r_halo t j : 0 <= t < T ->
    nsMinF (r t) <= j < nsMaxFIncludingLcfs (r t) ->
    forall i, j - 1 <= i <= j + 1 -> 0 <= i < ns -> nsMinF1 (r t) <= i < nsMaxF1 (r t).
  Proof.
    intros Ht Hj i Hi Hin. rewrite r_lcfs in Hj by lia.
    pose proof (blk_bounds t Ht) as B. pose proof n_ns as Hn.
    cbn in Hj |- *. fold n in Hj |- *. destruct (Z.eqb_spec (t + 1) T); lia.
  Qed.

  (** Half-grid points on both sides of an owned surface are local, and a local
      half-grid point has both its full-grid neighbours in local storage. *)
  Lemma r_half_local t j : 0 <= t < T ->
    nsMinF (r t) <= j < nsMaxFIncludingLcfs (r t) ->
    forall h, j - 1 <= h <= j -> 0 <= h < ns - 1 -> nsMinH (r t) <= h < nsMaxH (r t).
  Proof.
    intros Ht Hj h Hh Hin. rewrite r_lcfs in Hj by lia.
    pose proof (blk_bounds t Ht) as B. pose proof n_ns as Hn.
    cbn in Hj |- *. fold n in Hj |- *. destruct (Z.eqb_spec (t + 1) T); lia.
  Qed.

  Lemma r_half_full t h : 0 <= t < T -> nsMinH (r t) <= h < nsMaxH (r t) ->
    nsMinF1 (r t) <= h /\ h + 1 < nsMaxF1 (r t) /\ 0 <= h < ns - 1.
  Proof.
    intros Ht Hh. pose proof (blk_bounds t Ht) as B. pose proof n_ns as Hn.
    cbn in Hh |- *. fold n in Hh |- *. lia.
  Qed.

  Lemma r_interior t j : 0 <= t < T ->
    (nsMinFi (r t) <= j < nsMaxFi (r t) <-> nsMinF (r t) <= j < nsMaxF (r t) /\ 1 <= j < ns - 1).
  Proof. intros Ht. cbn. fold n. lia. Qed.

  (** Half-grid accounting. *)
  Definition hcut (t : Z) : Z := if t =? T then ns - 1 else Z.max 0 (blk n T t - 1).

  Lemma counts_half_range t h : 0 <= t < T ->
    (nsMinH (r t) <= h < nsMaxH (r t) /\ counts_half (r t) ns h = true)
    <-> hcut t <= h < hcut (t + 1).
  Proof.
    intros Ht. pose proof (blk_bounds t Ht) as B. pose proof n_ns as Hn.
    unfold counts_half, hcut. cbn. fold n.
    destruct (Z.eqb_spec t T); [lia|].
    rewrite orb_true_iff, Z.ltb_lt, Z.eqb_eq.
    destruct (Z.eqb_spec (t + 1) T) as [E|E]; lia.
  Qed.

  Lemma hcut_0 : hcut 0 = 0.
  Proof. pose proof n_ns. unfold hcut. destruct (Z.eqb_spec 0 T); [lia|]. rewrite blk_0 by lia. lia. Qed.

  Lemma hcut_T : hcut T = ns - 1.
  Proof. unfold hcut. rewrite Z.eqb_refl. reflexivity. Qed.

  Lemma hcut_mono1 t : 0 <= t < T -> hcut t <= hcut (t + 1).
  Proof.
    intros Ht. pose proof (blk_bounds t Ht) as B. pose proof n_ns as Hn. unfold hcut.
    destruct (Z.eqb_spec t T); [lia|]. destruct (Z.eqb_spec (t + 1) T); lia.
  Qed.

  Lemma hcut_mono t u : 0 <= t -> t <= u -> u <= T -> hcut t <= hcut u.
  Proof.
    intros H0 H1 HU. remember (Z.to_nat (u - t)) as k eqn:Ek.
    revert u H1 HU Ek. induction k as [|k IH]; intros.
    - assert (u = t) by lia. subst; lia.
    - pose proof (IH (u - 1) ltac:(lia) ltac:(lia) ltac:(lia)).
      pose proof (hcut_mono1 (u - 1) ltac:(lia)). replace (u - 1 + 1) with u in * by lia. lia.
  Qed.

  Lemma half_counted_once h : 0 <= h < ns - 1 ->
    exists t, (0 <= t < T /\ nsMinH (r t) <= h < nsMaxH (r t) /\ counts_half (r t) ns h = true) /\
      forall t', 0 <= t' < T /\ nsMinH (r t') <= h < nsMaxH (r t') /\
                 counts_half (r t') ns h = true -> t' = t.
  Proof.
    intros Hh.
    assert (G : forall k : nat, Z.of_nat k <= T -> h < hcut (Z.of_nat k) ->
      exists t, 0 <= t < Z.of_nat k /\ hcut t <= h < hcut (t + 1)).
    { induction k as [|k IH]; intros Hk Hlt.
      - change (Z.of_nat 0) with 0 in Hlt. rewrite hcut_0 in Hlt. lia.
      - destruct (Z.lt_ge_cases h (hcut (Z.of_nat k))) as [H|H].
        + destruct IH as [t Ht]; [lia|lia|]. exists t. lia.
        + exists (Z.of_nat k). split; [lia|].
          replace (Z.of_nat k + 1) with (Z.of_nat (S k)) by lia. lia. }
    destruct (G (Z.to_nat T)) as [t [Ht Hb]].
    - lia.
    - rewrite Z2Nat.id by lia. rewrite hcut_T. lia.
    - rewrite Z2Nat.id in Ht by lia. exists t. split.
      + split; [lia|]. apply counts_half_range; lia.
      + intros t' [Ht' Hc]. apply counts_half_range in Hc; [|lia].
        destruct (Z.lt_trichotomy t t') as [L|[E|L]]; [|auto|].
        * pose proof (hcut_mono (t + 1) t' ltac:(lia) ltac:(lia) ltac:(lia)). lia.
        * pose proof (hcut_mono (t' + 1) t ltac:(lia) ltac:(lia) ltac:(lia)). lia.
  Qed.

  (** The list of half-grid points a thread accounts for, as its loop visits
      them, concatenated over the threads, is the list of all half-grid points. *)
  Lemma counted_list t : 0 <= t < T ->
    filter (counts_half (r t) ns) (zrange (nsMinH (r t)) (nsMaxH (r t)))
    = zrange (hcut t) (hcut (t + 1)).
  Proof.
    intros Ht. pose proof (blk_bounds t Ht) as B. pose proof n_ns as Hn.
    pose proof (hcut_mono1 t Ht).
    assert (HL : nsMinH (r t) = hcut t).
    { unfold hcut. cbn. fold n. destruct (Z.eqb_spec t T); lia. }
    assert (HU : hcut (t + 1) <= nsMaxH (r t)).
    { unfold hcut. cbn. fold n. destruct (Z.eqb_spec (t+1) T); lia. }
    rewrite HL. rewrite (zrange_app (hcut t) (hcut (t + 1)) (nsMaxH (r t))) by lia.
    rewrite filter_app.
    rewrite (filter_all _ (zrange (hcut t) _)) by
      (intros h Hh; apply zrange_In in Hh;
       apply (proj2 (counts_half_range t h Ht)); lia).
    rewrite <- (app_nil_r (zrange (hcut t) (hcut (t + 1)))) at 2. f_equal.
    apply filter_none. intros h Hh. apply zrange_In in Hh.
    destruct (counts_half (r t) ns h) eqn:E; [|reflexivity].
    assert (nsMinH (r t) <= h < nsMaxH (r t) /\ counts_half (r t) ns h = true) as Q
      by (split; [lia|assumption]).
    apply counts_half_range in Q; lia.
  Qed.

  Lemma counted_all :
    flat_map (fun t => filter (counts_half (r t) ns) (zrange (nsMinH (r t)) (nsMaxH (r t))))
             (zrange 0 T)
    = zrange 0 (ns - 1).
  Proof.
    rewrite <- hcut_0 at 2. rewrite <- hcut_T.
    rewrite <- (flat_map_blocks hcut T) by (try lia; intros; apply hcut_mono1; lia).
    assert (G : forall l, (forall t, In t l -> 0 <= t < T) ->
      flat_map (fun t => filter (counts_half (r t) ns) (zrange (nsMinH (r t)) (nsMaxH (r t)))) l
      = flat_map (fun t => zrange (hcut t) (hcut (t + 1))) l).
    { induction l as [|a l IH]; intros Hl; [reflexivity|]. cbn [flat_map].
      rewrite counted_list by (apply Hl; left; reflexivity). f_equal. apply IH.
      intros; apply Hl; right; assumption. }
    apply G. intros t. apply zrange_In.
  Qed.

  (** Exactly one thread holds the boundary surface. *)
  Lemma r_boundary_owner t : 0 <= t < T -> (nsMaxF1 (r t) = ns <-> t = T - 1).
  Proof.
    intros Ht. pose proof (blk_bounds t Ht) as B. pose proof n_ns as Hn.
    cbn. fold n. lia.
  Qed.

  (** Adjacent threads overlap in exactly one half-grid point. *)
  Lemma r_shared_half t h : 0 <= t -> t + 1 < T ->
    (nsMinH (r t) <= h < nsMaxH (r t) /\ nsMinH (r (t+1)) <= h < nsMaxH (r (t+1)))
    <-> h = nsMaxF (r t) - 1.
  Proof.
    intros Ht Ht1. pose proof (blk_bounds t ltac:(lia)) as B.
    pose proof (blk_bounds (t+1) ltac:(lia)) as B'. pose proof n_ns as Hn.
    cbn. fold n. lia.
  Qed.
End Radial.
