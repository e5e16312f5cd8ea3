(** C44: copies of flux surfaces held by neighbouring threads. *)
From Coq Require Import ZArith List Bool Lia.
From Verif Require Import Base BaseLemmas Num PartModel PartProofs OmpModel OmpProofs OmpDet
  ReduceModel ReduceProps StepModel StepSpec StepProofs StepTeam.
Import ListNotations.
Open Scope Z_scope.

(** The code executed by every thread for a list of events (time steps, saves
    of the state vector, restores). *)
Definition team_code {K : num} (mpol ntor : Z) (lthreed lasym : bool) (ns : Z)
    (part : Z -> rpart) (l : list (@event K)) : list (instr (@state K)) :=
  events_prog mpol ntor (coef_sets lthreed lasym) ns part l.

(** [x t] is the array of thread [t]. Every stored surface has the value it has
    in the array of the thread that advances it. *)
Definition copies_agree {K : num} (mpol ntor : Z) (lthreed lasym : bool) (T : Z) (part : Z -> rpart)
    (x : Z -> Z -> Z -> K) : Prop :=
  forall t u j q m n, 0 <= t < T -> 0 <= u < T ->
    nsMinF1 (part t) <= j < nsMaxF1 (part t) ->
    nsMinF (part u) <= j < nsMaxFIncludingLcfs (part u) ->
    In q (coef_sets lthreed lasym) -> 0 <= m < mpol -> 0 <= n <= ntor ->
    x t q (((j - nsMinF1 (part t)) * mpol + m) * (ntor + 1) + n)
    = x u q (((j - nsMinF1 (part u)) * mpol + m) * (ntor + 1) + n).

Lemma copies_agree_iff {K : num} mpol ntor a b T part (x : Z -> Z -> Z -> K) : 0 <= mpol -> 0 <= ntor ->
  copies_agree mpol ntor a b T part x <-> agree mpol ntor (coef_sets a b) T part x.
Proof.
  intros Hm Hn. split; intros H.
  - intros t u j q mn Ht Hu Hj Ho Hq Hmn. unfold mnsize in *.
    assert (E : mn = mn / (ntor + 1) * (ntor + 1) + mn mod (ntor + 1)).
    { rewrite (Z.div_mod mn (ntor + 1)) at 1 by lia. ring. }
    pose proof (Z.mod_pos_bound mn (ntor + 1) ltac:(lia)) as Hb.
    assert (Hd : 0 <= mn / (ntor + 1) < mpol).
    { split; [apply Z.div_pos; lia|]. apply Z.div_lt_upper_bound; [lia|]. lia. }
    specialize (H t u j q (mn / (ntor + 1)) (mn mod (ntor + 1)) Ht Hu Hj Ho Hq Hd ltac:(lia)).
    replace ((j - nsMinF1 (part t)) * (mpol * (ntor + 1)) + mn) with
      (((j - nsMinF1 (part t)) * mpol + mn / (ntor + 1)) * (ntor + 1) + mn mod (ntor + 1))
      by (rewrite E at 3; ring).
    replace ((j - nsMinF1 (part u)) * (mpol * (ntor + 1)) + mn) with
      (((j - nsMinF1 (part u)) * mpol + mn / (ntor + 1)) * (ntor + 1) + mn mod (ntor + 1))
      by (rewrite E at 3; ring).
    exact H.
  - intros t u j q m n Ht Hu Hj Ho Hq Hm' Hn'.
    specialize (H t u j q (m * (ntor + 1) + n) Ht Hu Hj Ho Hq ltac:(unfold mnsize; nia)).
    unfold mnsize in H.
    replace (((j - nsMinF1 (part t)) * mpol + m) * (ntor + 1) + n) with
      ((j - nsMinF1 (part t)) * (mpol * (ntor + 1)) + (m * (ntor + 1) + n)) by ring.
    replace (((j - nsMinF1 (part u)) * mpol + m) * (ntor + 1) + n) with
      ((j - nsMinF1 (part u)) * (mpol * (ntor + 1)) + (m * (ntor + 1) + n)) by ring.
    exact H.
Qed.

(** C44: one time step brings all copies into agreement with the owner's, for
    every schedule of the threads and whatever the copies were before. *)
Theorem C44_step_synchronises_copies :
  forall (K : num) mpol ntor lthreed lasym ns lfreeb T part,
    0 <= mpol -> 0 <= ntor -> is_partition ns T lfreeb part ->
  forall (fac b1 dt : K) (f : Z -> Z -> Z -> K) s c,
    steps (step_prog mpol ntor (coef_sets lthreed lasym) ns part fac b1 dt f) T (start s) c ->
    finished (step_prog mpol ntor (coef_sets lthreed lasym) ns part fac b1 dt f) T c ->
    copies_agree mpol ntor lthreed lasym T part (sx (shared c)).
Proof.
  intros K mpol ntor a b ns lfreeb T part Hm Hn Hp fac b1 dt f s c Hs Hf.
  apply copies_agree_iff; [exact Hm|exact Hn|].
  apply (step_agree mpol ntor _ ns lfreeb T part Hm ltac:(lia) (coef_sets_NoDup a b) Hp fac b1 dt f s c Hs Hf).
Qed.
Print Assumptions C44_step_synchronises_copies.

(** C44: any sequence of time steps, saves and restores keeps the copies of the
    state vector and of its backup in agreement. *)
Theorem C44_copies_agree_after_any_history :
  forall (K : num) mpol ntor lthreed lasym ns lfreeb T part,
    0 <= mpol -> 0 <= ntor -> is_partition ns T lfreeb part ->
  forall (l : list (@event K)) s c,
    copies_agree mpol ntor lthreed lasym T part (sx s) ->
    copies_agree mpol ntor lthreed lasym T part (sb s) ->
    steps (team_code mpol ntor lthreed lasym ns part l) T (start s) c ->
    finished (team_code mpol ntor lthreed lasym ns part l) T c ->
    copies_agree mpol ntor lthreed lasym T part (sx (shared c)) /\
    copies_agree mpol ntor lthreed lasym T part (sb (shared c)).
Proof.
  intros K mpol ntor a b ns lfreeb T part Hm Hn Hp l s c Hx Hb Hs Hf.
  apply copies_agree_iff in Hx; [|exact Hm|exact Hn].
  apply copies_agree_iff in Hb; [|exact Hm|exact Hn].
  destruct (events_agree mpol ntor _ ns lfreeb T part Hm ltac:(lia) (coef_sets_NoDup a b) Hp l s c Hx Hb Hs Hf)
    as [A B].
  split; (apply copies_agree_iff; [exact Hm|exact Hn|assumption]).
Qed.
Print Assumptions C44_copies_agree_after_any_history.

(** C44: moreover the evolution of every coefficient is the one without
    threads: if the threads start from pieces of a common state [g] and get pieces
    of common forces, every schedule of any number of threads leaves every
    thread with pieces of [grun gl g]. *)
Theorem C44_team_follows_single_history :
  forall (K : num) mpol ntor lthreed lasym ns lfreeb T part,
    0 <= mpol -> 0 <= ntor -> is_partition ns T lfreeb part ->
  forall (gl : list gevent) (l : list (@event K)) (g : gstate) s c,
    Forall2 (local_event mpol ntor (coef_sets lthreed lasym) T part) gl l ->
    rep mpol ntor (coef_sets lthreed lasym) T part s g ->
    steps (team_code mpol ntor lthreed lasym ns part l) T (start s) c ->
    finished (team_code mpol ntor lthreed lasym ns part l) T c ->
    rep mpol ntor (coef_sets lthreed lasym) T part (shared c) (grun gl g).
Proof.
  intros K mpol ntor a b ns lfreeb T part Hm Hn Hp gl l g s c Hl Hr Hs Hf.
  exact (events_rep mpol ntor _ ns lfreeb T part Hm ltac:(lia) (coef_sets_NoDup a b) Hp gl l Hl s g c Hr Hs Hf).
Qed.
Print Assumptions C44_team_follows_single_history.

(** C44: the team cannot block: every partial execution can be completed. *)
Theorem C44_team_can_finish :
  forall (K : num) mpol ntor lthreed lasym ns T part (l : list (@event K)) s c, 1 <= T ->
    steps (team_code mpol ntor lthreed lasym ns part l) T (start s) c ->
    exists c', steps (team_code mpol ntor lthreed lasym ns part l) T c c' /\
      finished (team_code mpol ntor lthreed lasym ns part l) T c'.
Proof.
  intros K mpol ntor a b ns T part l s c HT Hs. apply can_finish; [exact HT|].
  refine (steps_ind_inv _ T (pc_bounded (team_code mpol ntor a b ns part l) T) _ _ _ Hs _).
  - intros u v Hu Hv. exact (pc_bounded_step _ _ _ _ Hu Hv).
  - intros t Ht. cbn. lia.
Qed.
Print Assumptions C44_team_can_finish.

(** A case: five surfaces, two threads, one mode. *)
Definition ex_part : Z -> rpart := fun t => rp_closed 2 t 5 false.
Example C44_case_partition : is_partition 5 2 false ex_part.
Proof. repeat split; try lia. intros t Ht. apply adjust_ok; lia. Qed.

(** Thread 0 owns surfaces 0, 1 and keeps a copy of 2; thread 1 owns 2, 3, 4 and
    keeps a copy of 1. The copies start out wrong (7) and end up equal to the
    owner's new value, which differs from the old one. *)
Definition ex_state : @state num_f64 :=
  mk_state (fun t q i => if (t =? 0) && (i =? 2) || (t =? 1) && (i =? 0) then nZ 7
                         else nZ (100 * q + 10 * (i + (if t =? 0 then 0 else 1))))
           (fun _ _ _ => nZ 0) (fun _ _ _ => nZ 0) (fun _ _ _ => nZ 0) (fun _ _ _ => nZ 0).
Definition ex_out : @state num_f64 :=
  in_order (step_prog 1 0 (coef_sets false false) 5 ex_part (nZ 1) (nZ 1) (nZ 2)
              (fun t _ i => nZ (1 + i + (if t =? 0 then 0 else 2)))) 2 ex_state.
Example C44_case_values :
  (sx ex_out 0 1 2, sx ex_out 1 1 1) = (nZ (100 + 20 + 2 * (2 * 3)), nZ (100 + 20 + 2 * (2 * 3))) /\
  (sx ex_out 1 1 0, sx ex_out 0 1 1) = (nZ (100 + 10 + 2 * (2 * 2)), nZ (100 + 10 + 2 * (2 * 2))).
Proof. vm_compute. split; reflexivity. Qed.
