From Coq Require Import ZArith List Bool Lia Permutation.
From Verif Require Import Base BaseLemmas OmpModel.
Import ListNotations.
Open Scope Z_scope.

Arguments set_fired : simpl never.
Arguments set_pc : simpl never.

Section Gen.
  Context {S : Type}.
  Implicit Types (prog : list (instr S)) (c : config S).

  Lemma set_pc_eq p t k : set_pc p t k t = k.
  Proof. unfold set_pc. rewrite Z.eqb_refl. reflexivity. Qed.
  Lemma set_pc_neq p t k u : u <> t -> set_pc p t k u = p u.
  Proof. intros. unfold set_pc. destruct (Z.eqb_spec u t); congruence. Qed.

  (** Every step moves exactly one thread forward by one. *)
  Lemma step_pc prog T c c' : step prog T c c' ->
    exists t, 0 <= t < T /\ pc c' = set_pc (pc c) t (Datatypes.S (pc c t)) /\
      (pc c t < length prog)%nat.
  Proof.
    intros H; inversion H; subst; exists t; cbn; repeat split; try lia;
      try (apply nth_error_Some; congruence).
  Qed.

  (** Barrier invariant: nobody is past a barrier that somebody has not reached. *)
  Definition barrier_inv prog T c : Prop :=
    forall k, nth_error prog k = Some IBarrier ->
      forall t u, 0 <= t < T -> 0 <= u < T -> (k < pc c t)%nat -> (k <= pc c u)%nat.

  Lemma barrier_inv_step prog T c c' :
    barrier_inv prog T c -> step prog T c c' -> barrier_inv prog T c'.
  Proof.
    intros I H k Hk t u Ht Hu Hlt.
    destruct (step_pc _ _ _ _ H) as (v & Hv & Epc & Hlen).
    rewrite Epc in *.
    assert (Mu : (pc c u <= set_pc (pc c) v (Datatypes.S (pc c v)) u)%nat).
    { destruct (Z.eq_dec u v) as [->|]; [rewrite set_pc_eq; lia|rewrite set_pc_neq by auto; lia]. }
    destruct (Z.eq_dec t v) as [->|Ntv].
    - rewrite set_pc_eq in Hlt.
      destruct (Nat.eq_dec k (pc c v)) as [E|E].
      + subst k. inversion H; subst; cbn in Epc.
        all: assert (t = v) by
          (destruct (Z.eq_dec t v); [assumption|];
           pose proof (f_equal (fun f => f t) Epc) as Q; cbn in Q;
           rewrite set_pc_eq, set_pc_neq in Q by auto; lia); subst t.
        all: try congruence.
        match goal with [ W : forall u, _ -> (_ <= _)%nat |- _ ] => specialize (W u Hu) end. lia.
      + specialize (I k Hk v u Hv Hu ltac:(lia)). lia.
    - rewrite set_pc_neq in Hlt by auto. specialize (I k Hk t u Ht Hu Hlt). lia.
  Qed.

  Lemma barrier_inv_start prog T s : barrier_inv prog T (start s).
  Proof. intros k _ t u _ _ H. cbn in H. lia. Qed.

  Lemma steps_ind_inv prog T (P : config S -> Prop) c c' :
    (forall a b, P a -> step prog T a b -> P b) -> steps prog T c c' -> P c -> P c'.
  Proof. intros Hs H. induction H; intros; auto. apply IHsteps. eapply Hs; eauto. Qed.

  (** Progress: a team that has not finished can always move. *)
  Lemma min_thread (p : Z -> nat) T : 1 <= T ->
    exists t, 0 <= t < T /\ forall u, 0 <= u < T -> (p t <= p u)%nat.
  Proof.
    intros HT.
    assert (G : forall k : nat, (1 <= k)%nat -> exists t, 0 <= t < Z.of_nat k /\
              forall u, 0 <= u < Z.of_nat k -> (p t <= p u)%nat).
    { induction k as [|k IH]; [lia|]. intros _.
      destruct k as [|k].
      - exists 0. split; [lia|]. intros u Hu. assert (u = 0) by lia. subst. lia.
      - destruct IH as [t [Ht Hm]]; [lia|].
        destruct (le_lt_dec (p t) (p (Z.of_nat (Datatypes.S k)))) as [L|L].
        + exists t. split; [lia|]. intros u Hu.
          destruct (Z.eq_dec u (Z.of_nat (Datatypes.S k))) as [->|]; [lia|]. apply Hm. lia.
        + exists (Z.of_nat (Datatypes.S k)). split; [lia|]. intros u Hu.
          destruct (Z.eq_dec u (Z.of_nat (Datatypes.S k))) as [->|]; [lia|].
          specialize (Hm u ltac:(lia)). lia. }
    destruct (G (Z.to_nat T)) as [t [Ht Hm]]; [lia|].
    rewrite Z2Nat.id in * by lia. exists t. split; assumption.
  Qed.

  Definition pc_bounded prog T c := forall t, 0 <= t < T -> (pc c t <= length prog)%nat.

  Lemma pc_bounded_step prog T c c' : pc_bounded prog T c -> step prog T c c' -> pc_bounded prog T c'.
  Proof.
    intros I H t Ht. destruct (step_pc _ _ _ _ H) as (v & Hv & E & L). rewrite E.
    destruct (Z.eq_dec t v) as [->|]; [rewrite set_pc_eq; lia|rewrite set_pc_neq by auto; auto].
  Qed.

  Lemma progress prog T c : 1 <= T -> pc_bounded prog T c ->
    finished prog T c \/ exists c', step prog T c c'.
  Proof.
    intros HT B. destruct (min_thread (pc c) T HT) as [t [Ht Hm]].
    destruct (Nat.eq_dec (pc c t) (length prog)) as [E|E].
    - left. intros u Hu. specialize (Hm u Hu). specialize (B u Hu). lia.
    - right. assert (L : (pc c t < length prog)%nat) by (specialize (B t Ht); lia).
      apply nth_error_Some in L. destruct (nth_error prog (pc c t)) as [i|] eqn:Ei; [|congruence].
      destruct i as [f|f|].
      + destruct (fired c (pc c t)) eqn:Ef; eexists;
          [eapply step_single_skip|eapply step_single_first]; eauto.
      + eexists. eapply step_critical; eauto.
      + eexists. eapply step_barrier; eauto.
  Qed.
End Gen.

  Lemma nth_repeat_lt {A} (x : A) n k : (k < n)%nat -> nth_error (repeat x n) k = Some x.
  Proof. revert k; induction n; intros k H; [lia|]. destruct k; cbn; [reflexivity|]. apply IHn. lia. Qed.

(** The accumulation pattern. *)
Section Reduce.
  Context {S : Type} (init : S -> S) (add : Z -> S -> S) (fin : S -> S).
  Context (a b c : nat) (T : Z).
  Hypothesis Ha : (1 <= a)%nat.
  Hypothesis Hb : (1 <= b)%nat.
  Let prog := reduce_prog init add fin a b c.
  Context (kC kF : nat).
  Hypothesis EkC : kC = (1 + a)%nat.
  Hypothesis EkF : kF = (2 + a + b)%nat.

  Lemma prog_len : length prog = (3 + a + b + c)%nat.
  Proof.
    subst prog. unfold reduce_prog. cbn. rewrite app_length. cbn.
    rewrite app_length. cbn. rewrite !repeat_length. lia.
  Qed.


  Lemma prog_nth k i : nth_error prog k = Some i ->
    (k = 0%nat /\ i = ISingle init) \/ (k = kC /\ i = ICritical add) \/
    (k = kF /\ i = ISingle fin) \/ (k <> 0%nat /\ k <> kC /\ k <> kF /\ i = IBarrier).
  Proof.
    intros H.
    assert (L : (k < length prog)%nat) by (apply nth_error_Some; congruence).
    rewrite prog_len in L.
    subst prog. rewrite EkC, EkF. unfold reduce_prog in H. destruct k as [|k]; cbn in H.
    { left. split; congruence. }
    destruct (lt_dec k a) as [L1|L1].
    { rewrite nth_error_app1 in H by (rewrite repeat_length; lia).
      rewrite nth_repeat_lt in H by lia. right; right; right. repeat split; try lia. congruence. }
    rewrite nth_error_app2 in H by (rewrite repeat_length; lia). rewrite repeat_length in H.
    destruct (k - a)%nat as [|k2] eqn:E2; cbn in H.
    { right; left. split; [lia|congruence]. }
    destruct (lt_dec k2 b) as [L2|L2].
    { rewrite nth_error_app1 in H by (rewrite repeat_length; lia).
      rewrite nth_repeat_lt in H by lia. right; right; right. repeat split; try lia. congruence. }
    rewrite nth_error_app2 in H by (rewrite repeat_length; lia). rewrite repeat_length in H.
    destruct (k2 - b)%nat as [|k3] eqn:E3; cbn in H.
    { right; right; left. split; [lia|congruence]. }
    rewrite nth_repeat_lt in H by lia. right; right; right. repeat split; try lia. congruence.
  Qed.

  Lemma prog_bar1 : nth_error prog 1 = Some IBarrier.
  Proof. subst prog. unfold reduce_prog. cbn. destruct a; [lia|]. reflexivity. Qed.

  Lemma prog_bar2 : nth_error prog (Datatypes.S kC) = Some IBarrier.
  Proof.
    destruct (nth_error prog (Datatypes.S kC)) as [i|] eqn:E.
    - destruct (prog_nth _ _ E) as [[? ?]|[[? ?]|[[? ?]|(_ & _ & _ & ->)]]]; try lia. reflexivity.
    - exfalso. apply nth_error_None in E. rewrite prog_len in E. lia.
  Qed.

  (** Result of executing the critical sections in the order [l]. *)
  Definition acc (s0 : S) (l : list Z) : S := fold_left (fun s t => add t s) l (init s0).

  Record inv (s0 : S) (cf : config S) : Prop := {
    i_bar : barrier_inv prog T cf;
    i_bnd : pc_bounded prog T cf;
    i_fired0 : fired cf 0%nat = true <-> exists t, 0 <= t < T /\ (1 <= pc cf t)%nat;
    i_firedF : fired cf kF = true <-> exists t, 0 <= t < T /\ (kF < pc cf t)%nat;
    i_order : exists l, NoDup l /\
        (forall t, In t l <-> 0 <= t < T /\ (kC < pc cf t)%nat) /\
        shared cf = (if fired cf 0%nat then
                       if fired cf kF then fin (acc s0 l) else acc s0 l
                     else s0)
  }.

  Lemma set_fired_eq f k : set_fired f k k = true.
  Proof. unfold set_fired. rewrite Nat.eqb_refl. reflexivity. Qed.
  Lemma set_fired_neq f k i : i <> k -> set_fired f k i = f i.
  Proof. intros. unfold set_fired. destruct (Nat.eqb_spec i k); congruence. Qed.

  Lemma inv_start s0 : inv s0 (start s0).
  Proof.
    constructor.
    - apply barrier_inv_start.
    - intros t _. cbn. lia.
    - cbn. split; [discriminate|]. intros [t [_ H]]. lia.
    - cbn. split; [discriminate|]. intros [t [_ H]]. lia.
    - exists []. split; [constructor|]. split; [|reflexivity].
      intros t. cbn. split; [tauto|]. lia.
  Qed.

  Lemma ex_pc_step (p : Z -> nat) t k : 0 <= t < T ->
    (exists u, 0 <= u < T /\ (k < set_pc p t (Datatypes.S (p t)) u)%nat) <->
    ((exists u, 0 <= u < T /\ (k < p u)%nat) \/ k = p t).
  Proof.
    intros Ht. split.
    - intros [u [Hu Hk]]. destruct (Z.eq_dec u t) as [->|N].
      + rewrite set_pc_eq in Hk. destruct (Nat.eq_dec k (p t)); [right; assumption|].
        left. exists t. split; [assumption|lia].
      + rewrite set_pc_neq in Hk by auto. left. exists u. tauto.
    - intros [[u [Hu Hk]]| ->].
      + exists u. split; [assumption|]. destruct (Z.eq_dec u t) as [->|N];
          [rewrite set_pc_eq; lia|rewrite set_pc_neq by auto; assumption].
      + exists t. split; [assumption|]. rewrite set_pc_eq. lia.
  Qed.

  Lemma order_keep (p : Z -> nat) t l : 0 <= t < T -> p t <> kC ->
    (forall u, In u l <-> 0 <= u < T /\ (kC < p u)%nat) ->
    (forall u, In u l <-> 0 <= u < T /\ (kC < set_pc p t (Datatypes.S (p t)) u)%nat).
  Proof.
    intros Ht Hne H u. rewrite H. destruct (Z.eq_dec u t) as [->|N];
      [rewrite set_pc_eq; lia|rewrite set_pc_neq by auto; reflexivity].
  Qed.

  Lemma inv_step s0 cf cf' : inv s0 cf -> step prog T cf cf' -> inv s0 cf'.
  Proof.
    intros [Ibar Ibnd I0 IF (l & ND & Hl & Hs)] H.
    pose proof (barrier_inv_step _ _ _ _ Ibar H) as Ibar'.
    pose proof (pc_bounded_step _ _ _ _ Ibnd H) as Ibnd'.
    assert (kCF : (kC < kF)%nat) by lia.
    assert (kC2 : (2 <= kC)%nat) by lia.
    assert (E1 : forall p : Z -> nat, (exists t, 0 <= t < T /\ (1 <= p t)%nat) <->
                                      (exists t, 0 <= t < T /\ (0 < p t)%nat))
      by (intros p; split; intros [t Q]; exists t; lia).
    inversion H; subst; cbn in *.
    - (* single, first *)
      destruct (prog_nth _ _ H1) as [[Ek Ei]|[[Ek Ei]|[[Ek Ei]|(_&_&_&Ei)]]]; try discriminate.
      + (* init *)
        injection Ei as ->. rewrite Ek in *.
        assert (NF : fired cf kF = false).
        { destruct (fired cf kF) eqn:E; [|reflexivity].
          destruct (proj1 IF eq_refl) as [u [Hu Hk]].
          assert (fired cf 0%nat = true) by (apply I0; exists u; split; [assumption|lia]). congruence. }
        assert (Nl : l = []).
        { destruct l as [|u l']; [reflexivity|]. exfalso.
          destruct (proj1 (Hl u) (or_introl eq_refl)) as [Hu Hk].
          assert (fired cf 0%nat = true) by (apply I0; exists u; split; [assumption|lia]). congruence. }
        constructor; cbn; auto.
        * rewrite set_fired_eq. split; [|reflexivity]. intros _. exists t.
          split; [assumption|]. rewrite set_pc_eq. lia.
        * rewrite set_fired_neq by lia. rewrite NF. split; [discriminate|].
          intros [u [Hu Hk]]. exfalso. destruct (Z.eq_dec u t) as [->|N].
          { rewrite set_pc_eq in Hk. lia. }
          rewrite set_pc_neq in Hk by auto.
          assert (fired cf kF = true) by (apply IF; exists u; tauto). congruence.
        * exists []. rewrite set_fired_eq, set_fired_neq by lia. rewrite NF.
          split; [constructor|]. split.
          { subst l. rewrite <- Ek. apply order_keep; [assumption|lia|assumption]. }
          { unfold acc. cbn. f_equal. rewrite Hs, H2. reflexivity. }
      + (* fin *)
        injection Ei as ->. rewrite Ek in *.
        assert (F0 : fired cf 0%nat = true) by (apply I0; exists t; split; [assumption|lia]).
        constructor; cbn; auto.
        * rewrite set_fired_neq by lia. rewrite I0, !E1, <- Ek, ex_pc_step by assumption.
          split; [tauto|]. intros [?|?]; [assumption|lia].
        * rewrite set_fired_eq. split; [|reflexivity]. intros _. exists t.
          split; [assumption|]. rewrite set_pc_eq. lia.
        * exists l. rewrite set_fired_eq, set_fired_neq by lia. rewrite F0 in *.
          split; [assumption|]. split.
          { rewrite <- Ek. apply order_keep; [assumption|lia|assumption]. }
          { rewrite Hs, H2. reflexivity. }
    - (* single, skip *)
      destruct (prog_nth _ _ H1) as [[Ek Ei]|[[Ek Ei]|[[Ek Ei]|(_&_&_&Ei)]]]; try discriminate.
      + constructor; cbn; auto.
        * rewrite I0, !E1, ex_pc_step by assumption. split; [tauto|]. intros [?|?]; [assumption|].
          rewrite Ek in H2. apply E1, I0. assumption.
        * rewrite IF, ex_pc_step by assumption. split; [tauto|]. intros [?|?]; [assumption|lia].
        * exists l. split; [assumption|]. split; [|assumption]. apply order_keep; [assumption|lia|assumption].
      + constructor; cbn; auto.
        * rewrite I0, !E1, ex_pc_step by assumption. split; [tauto|]. intros [?|?]; [assumption|lia].
        * rewrite IF, ex_pc_step by assumption. split; [tauto|]. intros [?|?]; [assumption|].
          rewrite Ek in H2. apply IF. assumption.
        * exists l. split; [assumption|]. split; [|assumption]. apply order_keep; [assumption|lia|assumption].
    - (* critical *)
      destruct (prog_nth _ _ H1) as [[Ek Ei]|[[Ek Ei]|[[Ek Ei]|(_&_&_&Ei)]]]; try discriminate.
      injection Ei as ->.
      assert (F0 : fired cf 0%nat = true) by (apply I0; exists t; split; [assumption|lia]).
      assert (FF : fired cf kF = false).
      { destruct (fired cf kF) eqn:E; [|reflexivity].
        destruct (proj1 IF eq_refl) as [u [Hu Hk]].
        pose proof (Ibar _ prog_bar2 u t Hu H0) as Q. rewrite Ek in Q.
        lia. }
      constructor; cbn; auto.
      + rewrite I0, !E1, ex_pc_step by assumption. split; [tauto|]. intros [?|?]; [assumption|lia].
      + rewrite IF, ex_pc_step by assumption. split; [tauto|]. intros [?|?]; [assumption|lia].
      + exists (l ++ [t]). split.
        { apply NoDup_rev in ND. rewrite <- (rev_involutive (l ++ [t])). apply NoDup_rev.
          rewrite rev_app_distr. cbn. constructor; [|assumption].
          rewrite <- in_rev, Hl. lia. }
        split.
        { intros u. rewrite in_app_iff. cbn. rewrite Hl.
          destruct (Z.eq_dec u t) as [->|N].
          - rewrite set_pc_eq. split; [intros _; lia|intros _; right; left; reflexivity].
          - rewrite set_pc_neq by auto. split; [intros [?|[?|[]]]; [assumption|congruence]|tauto]. }
        rewrite F0, FF in *. unfold acc. rewrite fold_left_app. cbn. f_equal. exact Hs.
    - (* barrier *)
      destruct (prog_nth _ _ H1) as [[Ek Ei]|[[Ek Ei]|[[Ek Ei]|(N0&NC&NF&_)]]]; try discriminate.
      constructor; cbn; auto.
      + rewrite I0, !E1, ex_pc_step by assumption. split; [tauto|]. intros [?|?]; [assumption|congruence].
      + rewrite IF, ex_pc_step by assumption. split; [tauto|]. intros [?|?]; [assumption|congruence].
      + exists l. split; [assumption|]. split; [|assumption]. apply order_keep; auto.
  Qed.

  Lemma inv_steps s0 cf cf' : inv s0 cf -> steps prog T cf cf' -> inv s0 cf'.
  Proof. intros I H. induction H; auto. apply IHsteps. eapply inv_step; eauto. Qed.

  (** Every finished execution applied [init] once, then every thread's
      contribution exactly once in some order, then [fin] once. *)
  Lemma reduce_result s0 cf : 1 <= T -> steps prog T (start s0) cf -> finished prog T cf ->
    exists l, Permutation l (zrange 0 T) /\ shared cf = fin (acc s0 l).
  Proof.
    intros HT Hs Hf. destruct (inv_steps _ _ _ (inv_start s0) Hs) as [_ _ I0 IF (l & ND & Hl & E)].
    assert (P0 : pc cf 0 = length prog) by (apply Hf; lia). rewrite prog_len in P0.
    exists l. split.
    - apply NoDup_Permutation; [assumption|apply zrange_NoDup|].
      intros t. rewrite Hl, zrange_In. split; [tauto|]. intros Ht. split; [assumption|].
      rewrite (Hf t Ht), prog_len. lia.
    - rewrite E.
      replace (fired cf 0%nat) with true by (symmetry; apply I0; exists 0; split; lia).
      replace (fired cf kF) with true by (symmetry; apply IF; exists 0; split; lia).
      reflexivity.
  Qed.

  Lemma reduce_progress s0 cf : 1 <= T -> steps prog T (start s0) cf ->
    finished prog T cf \/ exists cf', step prog T cf cf'.
  Proof.
    intros HT Hs. apply progress; [assumption|].
    exact (i_bnd _ _ (inv_steps _ _ _ (inv_start s0) Hs)).
  Qed.
End Reduce.

(** Termination: every step uses up one unit of remaining work. *)
Fixpoint nsum (l : list nat) : nat := match l with [] => 0 | x :: r => x + nsum r end%nat.

Section Term.
  Context {S : Type}.
  Definition remaining (prog : list (instr S)) (T : Z) (c : config S) : nat :=
    nsum (map (fun t => length prog - pc c t)%nat (zrange 0 T)).

  Lemma nsum_upd (p : Z -> nat) (L : nat) t l : NoDup l -> In t l -> (p t < L)%nat ->
    nsum (map (fun u => L - p u)%nat l)
    = Datatypes.S (nsum (map (fun u => L - set_pc p t (Datatypes.S (p t)) u)%nat l)).
  Proof.
    intros ND. induction ND as [|x l Hx ND IH]; intros Hin Hp; [destruct Hin|]. cbn.
    assert (K : ~ In t l -> map (fun u => L - set_pc p t (Datatypes.S (p t)) u)%nat l
                 = map (fun u => L - p u)%nat l).
    { intros N. apply map_ext_in. intros u Hu. rewrite set_pc_neq by (intros ->; contradiction). reflexivity. }
    destruct (Z.eq_dec x t) as [->|N].
    - rewrite set_pc_eq, (K Hx). lia.
    - rewrite set_pc_neq by auto. destruct Hin as [->|Hin]; [congruence|].
      rewrite (IH Hin Hp). lia.
  Qed.

  Lemma step_remaining (prog : list (instr S)) T c c' : step prog T c c' ->
    remaining prog T c = Datatypes.S (remaining prog T c').
  Proof.
    intros H. destruct (step_pc _ _ _ _ H) as (t & Ht & E & L).
    unfold remaining. rewrite E. apply nsum_upd; [apply zrange_NoDup|apply zrange_In; lia|assumption].
  Qed.

  Lemma can_finish (prog : list (instr S)) T (c : config S) : 1 <= T -> pc_bounded prog T c ->
    exists c', steps prog T c c' /\ finished prog T c'.
  Proof.
    intros HT. remember (remaining prog T c) as n eqn:En. revert c En.
    induction n as [|n IH]; intros c En B.
    - destruct (progress prog T c HT B) as [F|[c' Hs]].
      + exists c. split; [constructor|assumption].
      + pose proof (step_remaining _ _ _ _ Hs). lia.
    - destruct (progress prog T c HT B) as [F|[c' Hs]].
      + exists c. split; [constructor|assumption].
      + destruct (IH c') as [c2 [H1 H2]].
        * pose proof (step_remaining _ _ _ _ Hs). lia.
        * eapply pc_bounded_step; eauto.
        * exists c2. split; [|assumption]. econstructor; eauto.
  Qed.

  (** An executor for concrete schedules, used to exhibit witnesses. *)
  Definition exec1 (prog : list (instr S)) (T : Z) (t : Z) (c : config S) : option (config S) :=
    if (0 <=? t) && (t <? T) then
      match nth_error prog (pc c t) with
      | None => None
      | Some (ISingle f) =>
          Some (if fired c (pc c t)
                then mk_config (set_pc (pc c) t (Datatypes.S (pc c t))) (fired c) (shared c)
                else mk_config (set_pc (pc c) t (Datatypes.S (pc c t)))
                       (set_fired (fired c) (pc c t)) (f (shared c)))
      | Some (ICritical f) =>
          Some (mk_config (set_pc (pc c) t (Datatypes.S (pc c t))) (fired c) (f t (shared c)))
      | Some IBarrier =>
          if forallb (fun u => Nat.leb (pc c t) (pc c u)) (zrange 0 T)
          then Some (mk_config (set_pc (pc c) t (Datatypes.S (pc c t))) (fired c) (shared c))
          else None
      end
    else None.

  Fixpoint exec (prog : list (instr S)) (T : Z) (sched : list Z) (c : config S) : option (config S) :=
    match sched with
    | [] => Some c
    | t :: rest => match exec1 prog T t c with Some c' => exec prog T rest c' | None => None end
    end.

  Lemma exec1_sound prog T t c c' : exec1 prog T t c = Some c' -> step prog T c c'.
  Proof.
    unfold exec1. destruct ((0 <=? t) && (t <? T)) eqn:Et; [|discriminate].
    apply andb_true_iff in Et. destruct Et as [E1 E2]. apply Z.leb_le in E1. apply Z.ltb_lt in E2.
    destruct (nth_error prog (pc c t)) as [[f|f|]|] eqn:En; try discriminate.
    - intros [= <-]. destruct (fired c (pc c t)) eqn:Ef;
        [eapply step_single_skip|eapply step_single_first]; eauto.
    - intros [= <-]. eapply step_critical; eauto.
    - destruct (forallb _ _) eqn:Ef; [|discriminate]. intros [= <-].
      eapply step_barrier; eauto. intros u Hu.
      rewrite forallb_forall in Ef. apply Nat.leb_le. apply Ef. apply zrange_In. lia.
  Qed.

  Lemma exec_sound prog T sched : forall c c', exec prog T sched c = Some c' -> steps prog T c c'.
  Proof.
    induction sched as [|t rest IH]; cbn; intros c c' H.
    - injection H as <-. constructor.
    - destruct (exec1 prog T t c) as [c1|] eqn:E; [|discriminate].
      econstructor; [eapply exec1_sound; eauto|apply IH; assumption].
  Qed.
End Term.
