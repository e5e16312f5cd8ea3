(** Loops that write every point of a (surface, angle) grid once. *)
From Coq Require Import ZArith List Lia Bool.
From Verif Require Import Base BaseLemmas.
Open Scope Z_scope.

(** A loop whose step [j] changes only element [idx j], as a function of its
    old content. [get] reads one element of the loop state. *)
Lemma loop_map {S A} (get : S -> Z -> A) (body : Z -> S -> S) (idx : Z -> Z)
    (v : Z -> A -> A) lo hi s0 :
  (forall a b, lo <= a < hi -> lo <= b < hi -> idx a = idx b -> a = b) ->
  (forall j s, lo <= j < hi -> get (body j s) (idx j) = v j (get s (idx j))) ->
  (forall j s i, lo <= j < hi -> i <> idx j -> get (body j s) i = get s i) ->
  (forall j, lo <= j < hi -> get (for_up lo hi body s0) (idx j) = v j (get s0 (idx j))) /\
  (forall i, (forall j, lo <= j < hi -> i <> idx j) -> get (for_up lo hi body s0) i = get s0 i).
Proof.
  intros INJ HV HU. destruct (Z_le_gt_dec lo hi) as [H|H].
  - apply (for_up_ind (fun m r =>
      (forall j, lo <= j < m -> get r (idx j) = v j (get s0 (idx j))) /\
      (forall i, (forall j, lo <= j < m -> i <> idx j) -> get r i = get s0 i))); auto.
    + split; intros; [lia|reflexivity].
    + intros m r Hm (I1 & I2). split.
      * intros j Hj. destruct (Z.eq_dec j m) as [E | E].
        -- subst j. rewrite HV by lia. rewrite I2; [reflexivity|].
           intros j' Hj' E. apply INJ in E; lia.
        -- rewrite HU; [apply I1; lia|lia|]. intros E'. apply E, INJ; auto; lia.
      * intros i Hi. rewrite HU by (try apply Hi; lia). apply I2. intros; apply Hi; lia.
  - rewrite for_up_empty by lia. split; intros; [lia|reflexivity].
Qed.

(** The same for a nest of two loops over a flat array. *)
Lemma grid_map {S A} (get : S -> Z -> A) (bd : Z -> Z -> S -> S) (v : Z -> Z -> A -> A)
    n o lo hi s0 : 0 <= n ->
  (forall j kl s, lo <= j < hi -> 0 <= kl < n ->
     get (bd j kl s) ((j - o) * n + kl) = v j kl (get s ((j - o) * n + kl))) ->
  (forall j kl s i, lo <= j < hi -> 0 <= kl < n -> i <> (j - o) * n + kl ->
     get (bd j kl s) i = get s i) ->
  let r := for_up lo hi (fun j s => for_up 0 n (bd j) s) s0 in
  (forall j kl, lo <= j < hi -> 0 <= kl < n ->
     get r ((j - o) * n + kl) = v j kl (get s0 ((j - o) * n + kl))) /\
  (forall i, (forall j kl, lo <= j < hi -> 0 <= kl < n -> i <> (j - o) * n + kl) ->
     get r i = get s0 i).
Proof.
  intros Hn HV HU. cbv zeta.
  assert (IN : forall j s, lo <= j < hi ->
    (forall kl, 0 <= kl < n ->
       get (for_up 0 n (bd j) s) ((j - o) * n + kl) = v j kl (get s ((j - o) * n + kl))) /\
    (forall i, (forall kl, 0 <= kl < n -> i <> (j - o) * n + kl) ->
       get (for_up 0 n (bd j) s) i = get s i)).
  { intros j s Hj.
    apply (loop_map get (bd j) (fun kl => (j - o) * n + kl) (v j)).
    - intros; lia.
    - intros; apply HV; auto.
    - intros; eapply HU; eauto. }
  destruct (Z_le_gt_dec lo hi) as [H|H].
  - apply (for_up_ind (fun m r =>
      (forall j kl, lo <= j < m -> 0 <= kl < n ->
         get r ((j - o) * n + kl) = v j kl (get s0 ((j - o) * n + kl))) /\
      (forall i, (forall j kl, lo <= j < m -> 0 <= kl < n -> i <> (j - o) * n + kl) ->
         get r i = get s0 i))); auto.
    + split; intros; [lia|reflexivity].
    + intros m r Hm (I1 & I2). destruct (IN m r ltac:(lia)) as (J1 & J2). split.
      * intros j kl Hj Hk. destruct (Z.eq_dec j m) as [E | E].
        -- subst j. rewrite J1 by auto. rewrite I2; [reflexivity|].
           intros j' kl' Hj' Hk' E. apply flat_inj in E; lia.
        -- rewrite J2; [apply I1; auto; lia|].
           intros kl' Hk' E'. apply flat_inj in E'; lia.
      * intros i Hi. rewrite J2 by (intros; apply Hi; lia). apply I2. intros; apply Hi; lia.
  - rewrite for_up_empty by lia. split; intros; [lia|reflexivity].
Qed.

(** An inner loop accumulating into one element. *)
Lemma for_up_acc {A} (f : Z -> A -> A) n i (d : Z -> A) :
  let r := for_up 0 n (fun kl d => upd d i (f kl (d i))) d in
  r i = for_up 0 n f (d i) /\ forall k, k <> i -> r k = d k.
Proof.
  cbv zeta. destruct (Z_le_gt_dec 0 n) as [H|H].
  2:{ rewrite !for_up_empty by lia. auto. }
  apply (for_up_ind (fun m r => r i = for_up 0 m f (d i) /\ forall k, k <> i -> r k = d k)); [lia| |].
  - rewrite for_up_empty by lia. auto.
  - intros m r Hm (I1 & I2). split.
    + rewrite upd_eq, for_up_snoc, I1 by lia. reflexivity.
    + intros k Hk. rewrite upd_neq by auto. auto.
Qed.

(** A loop over the whole flat array reaches every grid point. *)
Lemma flat_bound n lo hi j kl : 0 <= kl < n -> lo <= j < hi ->
  0 <= (j - lo) * n + kl < (hi - lo) * n.
Proof. intros. nia. Qed.
