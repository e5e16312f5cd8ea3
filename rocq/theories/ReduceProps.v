(** Property theorems about volume sums and residual accumulation (C08, C09). *)
From Coq Require Import ZArith List Bool Lia Permutation Reals Lra.
From Coq Require Import SpecFloat.
From Verif Require Import Base BaseLemmas PartModel PartSpec PartProofs
  OmpModel OmpProofs ReduceModel ReduceProofs.
Import ListNotations.
Open Scope Z_scope.

(** What is meant by the partition of a run. *)
Definition is_partition (ns T : Z) (lfreeb : bool) (r : Z -> rpart) : Prop :=
  1 <= T /\ 2 * T <= ns /\
  forall t, 0 <= t < T -> adjustRadialPartitioning T t ns lfreeb = Some (r t).

(** The team ends in [cf] having executed the accumulation [p]. *)
Definition team_result {A} (p : list (instr A)) (T : Z) (result : A) : Prop :=
  exists s0 cf, steps p T (start s0) cf /\ finished p T cf /\ shared cf = result.

(** [total n g] is g 0 + ... + g (n-1). *)
Fixpoint total_nat (n : nat) (g : Z -> R) : R :=
  match n with O => 0%R | S k => (total_nat k g + g (Z.of_nat k))%R end.
Definition total (n : Z) (g : Z -> R) : R := total_nat (Z.to_nat n) g.

Lemma total_surf_sum n g : 0 <= n -> surf_sum n g = total n g.
Proof.
  intros Hn. unfold total. replace n with (Z.of_nat (Z.to_nat n)) at 1 by lia.
  induction (Z.to_nat n) as [|k IH]; cbn [total_nat]; unfold surf_sum in *.
  - reflexivity.
  - replace (Z.of_nat (S k)) with (Z.of_nat k + 1) by lia.
    rewrite zrange_snoc by lia. rewrite map_app, Rlist_sum_app, IH. cbn. unfold Rlist_sum. cbn. lra.
Qed.

Lemma partition_closed ns T lfreeb r t : is_partition ns T lfreeb r -> 0 <= t < T ->
  r t = rp_closed T t ns lfreeb.
Proof.
  intros (HT & H2 & H) Ht. specialize (H t Ht).
  rewrite (adjust_ok T ns lfreeb HT H2 t Ht) in H. congruence.
Qed.

(** C08: sums of one value per half-grid surface (plasma volume, thermal
    energy). [v t] is the array held by thread [t]; [g] is the radial profile. *)
Theorem C08_half_grid_sums :
  forall ns T lfreeb r, is_partition ns T lfreeb r ->
  forall (v : Z -> Z -> R) (g : Z -> R) (deltaS : R) (a b c : nat),
    (forall t h, 0 <= t < T -> nsMinH (r t) <= h < nsMaxH (r t) -> v t h = g h) ->
    (1 <= a)%nat -> (1 <= b)%nat ->
    forall result,
      team_result (accumulate Rplus 0%R
                     (fun t => (local_half_sum Rplus 0%R (r t) ns (v t) * deltaS)%R)
                     (fun x => x) a b c) T result ->
      result = (total (ns - 1) g * deltaS)%R.
Proof.
  intros ns T lfreeb r HP v g ds a b c Hv Ha Hb result (s0 & cf & Hs & Hf & <-).
  pose proof HP as (HT & H2 & _).
  rewrite (accumulate_R_any _ _ a b c T s0 cf Ha Hb HT Hs Hf).
  rewrite <- total_surf_sum by lia.
  rewrite <- (half_parts ns T lfreeb HT H2 g).
  rewrite <- Rlist_sum_scale. rewrite map_map. f_equal. apply map_ext_in.
  intros t Ht. apply zrange_In in Ht. rewrite local_half_sum_R. f_equal.
  rewrite (partition_closed _ _ _ _ t HP Ht) in *. f_equal. apply map_ext_in.
  intros h Hh. apply filter_In in Hh. destruct Hh as [Hh _]. apply zrange_In in Hh.
  apply Hv; [assumption|]. rewrite (partition_closed _ _ _ _ t HP Ht). assumption.
Qed.
Print Assumptions C08_half_grid_sums.

(** C08: sums over all points of all half-grid surfaces (force norms). *)
Theorem C08_half_grid_surface_sums :
  forall ns T lfreeb r, is_partition ns T lfreeb r ->
  forall (v : Z -> Z -> Z -> R) (g : Z -> Z -> R) (nZnT : Z) (fin : R -> R) (a b c : nat),
    0 <= nZnT ->
    (forall t h kl, 0 <= t < T -> nsMinH (r t) <= h < nsMaxH (r t) -> 0 <= kl < nZnT ->
       v t h kl = g h kl) ->
    (1 <= a)%nat -> (1 <= b)%nat ->
    forall result,
      team_result (accumulate Rplus 0%R
                     (fun t => local_half_surf_sum Rplus 0%R (r t) ns nZnT (v t)) fin a b c)
                  T result ->
      result = fin (total (ns - 1) (fun h => total nZnT (g h))).
Proof.
  intros ns T lfreeb r HP v g nZnT fin a b c Hz Hv Ha Hb result (s0 & cf & Hs & Hf & <-).
  pose proof HP as (HT & H2 & _).
  rewrite (accumulate_R_any _ _ a b c T s0 cf Ha Hb HT Hs Hf). f_equal.
  rewrite <- total_surf_sum by lia.
  rewrite <- (half_parts ns T lfreeb HT H2). f_equal. apply map_ext_in.
  intros t Ht. apply zrange_In in Ht. rewrite local_half_surf_sum_R. f_equal.
  rewrite (partition_closed _ _ _ _ t HP Ht) in *. apply map_ext_in.
  intros h Hh. apply filter_In in Hh. destruct Hh as [Hh _]. apply zrange_In in Hh.
  rewrite <- total_surf_sum by lia. unfold surf_sum. f_equal. apply map_ext_in.
  intros kl Hkl. apply zrange_In in Hkl.
  apply Hv; try assumption. rewrite (partition_closed _ _ _ _ t HP Ht). assumption.
Qed.
Print Assumptions C08_half_grid_surface_sums.

(** C08: force residuals. R and Z forces are summed over all surfaces inside
    the boundary, and over the boundary too if requested; lambda forces and the
    geometry norm always include the boundary. *)
Theorem C08_force_residual_sums :
  forall ns T lfreeb r, is_partition ns T lfreeb r ->
  forall (v : Z -> Z -> Z -> R) (g : Z -> Z -> R) (ncoef : Z) (includeEdge : bool)
         (fin : R -> R) (a b c : nat),
    0 <= ncoef ->
    (forall t j i, 0 <= t < T -> nsMinF (r t) <= j < nsMaxFIncludingLcfs (r t) -> 0 <= i < ncoef ->
       v t j i = g j i) ->
    (1 <= a)%nat -> (1 <= b)%nat ->
    (forall result,
      team_result (accumulate Rplus 0%R
                     (fun t => local_rz_residual Rplus 0%R (r t) ns includeEdge ncoef (v t))
                     fin a b c) T result ->
      result = fin (total (if includeEdge then ns else ns - 1) (fun j => total ncoef (g j)))) /\
    (forall result,
      team_result (accumulate Rplus 0%R
                     (fun t => local_full_sum Rplus 0%R (r t) ncoef (v t)) fin a b c) T result ->
      result = fin (total ns (fun j => total ncoef (g j)))).
Proof.
  intros ns T lfreeb r HP v g nc ie fin a b c Hc Hv Ha Hb.
  pose proof HP as (HT & H2 & _).
  split; intros result (s0 & cf & Hs & Hf & <-);
    rewrite (accumulate_R_any _ _ a b c T s0 cf Ha Hb HT Hs Hf); f_equal.
  - rewrite <- total_surf_sum by (destruct ie; lia).
    rewrite <- (rz_parts ns T lfreeb HT H2 ie). f_equal. apply map_ext_in.
    intros t Ht. apply zrange_In in Ht. rewrite local_rz_R. f_equal.
    pose proof (partition_closed _ _ _ _ t HP Ht) as Er. rewrite Er in *. apply map_ext_in.
    intros j Hj. apply filter_In in Hj. destruct Hj as [Hj _]. apply zrange_In in Hj.
    rewrite <- total_surf_sum by lia. unfold surf_sum. f_equal. apply map_ext_in.
    intros i Hi. apply zrange_In in Hi. apply Hv; try assumption. rewrite Er. exact Hj.
  - rewrite <- total_surf_sum by lia.
    rewrite <- (full_parts ns T lfreeb HT H2). f_equal. apply map_ext_in.
    intros t Ht. apply zrange_In in Ht. rewrite local_full_sum_R. f_equal.
    pose proof (partition_closed _ _ _ _ t HP Ht) as Er. rewrite Er in *. apply map_ext_in.
    intros j Hj. apply zrange_In in Hj.
    rewrite <- total_surf_sum by lia. unfold surf_sum. f_equal. apply map_ext_in.
    intros i Hi. apply zrange_In in Hi. apply Hv; try assumption. rewrite Er. exact Hj.
Qed.
Print Assumptions C08_force_residual_sums.

(** C08: the magnetic energy takes the absolute value per thread
    (ideal_mhd_model.cc:1957). If the contributions of all half-grid surfaces
    have the same sign, the total is the absolute value of the whole sum. *)
Theorem C08_magnetic_energy :
  forall ns T lfreeb r, is_partition ns T lfreeb r ->
  forall (v : Z -> Z -> Z -> R) (g : Z -> Z -> R) (nZnT : Z) (deltaS : R) (a b c : nat) (sgn : R),
    0 <= nZnT -> (sgn = 1 \/ sgn = -1)%R ->
    (forall h, 0 <= h < ns - 1 -> (0 <= sgn * total nZnT (g h))%R) ->
    (forall t h kl, 0 <= t < T -> nsMinH (r t) <= h < nsMaxH (r t) -> 0 <= kl < nZnT ->
       v t h kl = g h kl) ->
    (1 <= a)%nat -> (1 <= b)%nat ->
    forall result,
      team_result (accumulate Rplus 0%R
                     (fun t => (Rabs (local_half_surf_sum Rplus 0%R (r t) ns nZnT (v t)) * deltaS)%R)
                     (fun x => x) a b c) T result ->
      result = (Rabs (total (ns - 1) (fun h => total nZnT (g h))) * deltaS)%R.
Proof.
  intros ns T lfreeb r HP v g nZnT ds a b c sgn Hz Hsg Hpos Hv Ha Hb result (s0 & cf & Hs & Hf & <-).
  pose proof HP as (HT & H2 & _).
  rewrite (accumulate_R_any _ _ a b c T s0 cf Ha Hb HT Hs Hf).
  assert (Habs : forall x, (0 <= sgn * x)%R -> Rabs x = (sgn * x)%R).
  { intros x Hx. destruct Hsg as [-> | ->].
    - rewrite Rabs_pos_eq; lra.
    - rewrite Rabs_left1; lra. }
  assert (Hnn : forall l, (forall x, In x l -> (0 <= sgn * x)%R) -> (0 <= sgn * Rlist_sum l)%R).
  { induction l as [|x l IH]; intros Hl; unfold Rlist_sum in *; cbn; [lra|].
    pose proof (Hl x (or_introl eq_refl)). pose proof (IH (fun y Hy => Hl y (or_intror Hy))). lra. }
  rewrite <- total_surf_sum by lia.
  rewrite <- (half_parts ns T lfreeb HT H2).
  set (P t := Rlist_sum (map (fun h => total nZnT (g h))
      (filter (counts_half (rp_closed T t ns lfreeb) ns)
         (zrange (nsMinH (rp_closed T t ns lfreeb)) (nsMaxH (rp_closed T t ns lfreeb)))))).
  assert (HPp : forall t, 0 <= t < T -> (0 <= sgn * P t)%R).
  { intros t Ht. apply Hnn. intros x Hx. apply in_map_iff in Hx. destruct Hx as [h [<- Hh]].
    apply filter_In in Hh. destruct Hh as [Hh _]. apply zrange_In in Hh. apply Hpos.
    apply (r_half_full T ns lfreeb HT H2 t h Ht Hh). }
  rewrite Habs.
  2:{ apply Hnn. intros x Hx. apply in_map_iff in Hx. destruct Hx as [t [<- Ht]].
      apply zrange_In in Ht. apply HPp. assumption. }
  transitivity (Rlist_sum (map (fun t => (P t * (sgn * ds))%R) (zrange 0 T))).
  - f_equal. apply map_ext_in. intros t Ht. apply zrange_In in Ht.
    rewrite local_half_surf_sum_R.
    pose proof (partition_closed _ _ _ _ t HP Ht) as Er. rewrite Er in *.
    rewrite (map_ext_in _ (fun h => total nZnT (g h))).
    + fold (P t). rewrite Habs by (apply HPp; assumption). ring.
    + intros h Hh. apply filter_In in Hh. destruct Hh as [Hh _]. apply zrange_In in Hh.
      rewrite <- total_surf_sum by lia. unfold surf_sum. f_equal. apply map_ext_in.
      intros kl Hkl. apply zrange_In in Hkl. apply Hv; try assumption. rewrite Er. assumption.
  - rewrite <- (map_map P (fun x => (x * (sgn * ds))%R)). rewrite Rlist_sum_scale. ring.
Qed.
Print Assumptions C08_magnetic_energy.

(** The accumulations always finish: every team can complete from every
    reachable point, and no schedule is longer than the work to be done. *)
Theorem C08_accumulation_completes :
  forall {A} (add : A -> A -> A) zero part fin a b c T s0 cf,
    (1 <= a)%nat -> (1 <= b)%nat -> 1 <= T ->
    steps (accumulate add zero part fin a b c) T (start s0) cf ->
    exists cf', steps (accumulate add zero part fin a b c) T cf cf' /\
                finished (accumulate add zero part fin a b c) T cf'.
Proof.
  intros A add zero part fin a b c T s0 cf Ha Hb HT Hs.
  apply can_finish; [assumption|].
  refine (steps_ind_inv _ T _ _ _ _ Hs _).
  - intros x y. apply pc_bounded_step.
  - intros t _. cbn. lia.
Qed.
Print Assumptions C08_accumulation_completes.

(** C09 restricted: with one or two threads the IEEE result does not depend on
    the order in which the threads arrive. *)
Theorem C09_reproducible_two_threads :
  forall (T : Z) (part : Z -> spec_float) (fin : spec_float -> spec_float) (a b c : nat),
    1 <= T <= 2 -> (1 <= a)%nat -> (1 <= b)%nat ->
    forall x y,
      team_result (accumulate fadd fzero part fin a b c) T x ->
      team_result (accumulate fadd fzero part fin a b c) T y ->
      x = y.
Proof.
  intros T part fin a b c HT Ha Hb x y (s1 & c1 & S1 & F1 & <-) (s2 & c2 & S2 & F2 & <-).
  destruct (reduce_result _ _ _ a b c T Ha Hb (1+a) (2+a+b) eq_refl eq_refl s1 c1 ltac:(lia) S1 F1) as (l1 & P1 & E1).
  destruct (reduce_result _ _ _ a b c T Ha Hb (1+a) (2+a+b) eq_refl eq_refl s2 c2 ltac:(lia) S2 F2) as (l2 & P2 & E2).
  rewrite E1, E2. f_equal. unfold acc.
  assert (T = 1 \/ T = 2) as [-> | ->] by lia.
  - rewrite (perm_one _ P1), (perm_one _ P2). reflexivity.
  - destruct (perm_two _ P1) as [-> | ->], (perm_two _ P2) as [-> | ->]; cbn; try reflexivity;
      apply two_order.
Qed.
Print Assumptions C09_reproducible_two_threads.

(** Three partial sums of squares, as they occur in the residuals: 2^53, 1, 1. *)
Definition C09_parts (t : Z) : spec_float :=
  if t =? 0 then S754_finite false 4503599627370496 1 (* 2^53 *)
  else S754_finite false 4503599627370496 (-52) (* 1 *).

(** Round-robin through all constructs, with the critical sections in the
    order given. *)
Definition C09_schedule (order : list Z) : list Z :=
  [0;1;2] ++ [0;1;2] ++ order ++ [0;1;2] ++ [0;1;2] ++ [0;1;2].

(** C09 is false of the faithful model: two schedules of the same three-thread
    accumulation (barrier counts of evalFResInvar) end with different bits. *)
Theorem C09_reproducible_refuted :
  exists (part : Z -> spec_float) (x y : spec_float),
    (forall t, SFcompare fzero (part t) = Some Lt) /\
    team_result (accumulate fadd fzero part (fun s => s) 1 1 1) 3 x /\
    team_result (accumulate fadd fzero part (fun s => s) 1 1 1) 3 y /\
    SFcompare x y = Some Lt.
Proof.
  exists C09_parts.
  set (p := accumulate fadd fzero C09_parts (fun s => s) 1 1 1).
  assert (G : forall order c, exec p 3 (C09_schedule order) (start fzero) = Some c ->
              (forallb (fun t => Nat.eqb (pc c t) 6) (zrange 0 3) = true) ->
              team_result p 3 (shared c)).
  { intros order c E F. exists fzero, c. split; [eapply exec_sound; exact E|]. split; [|reflexivity].
    intros t Ht. rewrite forallb_forall in F. change (length p) with 6%nat.
    apply Nat.eqb_eq. apply F. apply zrange_In. exact Ht. }
  assert (Pos : forall t, SFcompare fzero (C09_parts t) = Some Lt).
  { intros t. unfold C09_parts. destruct (t =? 0); reflexivity. }
  destruct (exec p 3 (C09_schedule [0;1;2]) (start fzero)) as [c1|] eqn:E1; [|vm_compute in E1; discriminate].
  destruct (exec p 3 (C09_schedule [2;1;0]) (start fzero)) as [c2|] eqn:E2; [|vm_compute in E2; discriminate].
  exists (shared c1), (shared c2). split; [exact Pos|].
  split; [apply (G _ _ E1)|split; [apply (G _ _ E2)|]];
    vm_compute in E1, E2; injection E1 as <-; injection E2 as <-; reflexivity.
Qed.
Print Assumptions C09_reproducible_refuted.

(** Instances: a partition with several threads exists, and its volume
    accumulation has a finished execution. *)
Example C08_instance :
  exists r, is_partition 11 4 false r /\
  exists x, team_result (accumulate Rplus 0%R
     (fun t => (local_half_sum Rplus 0%R (r t) 11 (fun h => IZR (h + 1)) * (/ 10))%R)
     (fun x => x) 2 1 0) 4 x.
Proof.
  exists (fun t => rp_closed 4 t 11 false). split.
  - split; [lia|]. split; [lia|]. intros t Ht. apply adjust_ok; lia.
  - set (p := accumulate _ _ _ _ _ _ _).
    destruct (can_finish p 4 (start 0%R)) as [c [Hs Hf]]; [lia| |].
    + intros t _. cbn. lia.
    + exists (shared c), 0%R, c. auto.
Qed.
