(** Determinism of race-free teams: if, between two barriers, instructions of
    different threads commute, then every schedule of the team ends in the state
    in which the instructions are executed one after the other, each by thread
    0, 1, ..., T-1 in turn. *)
From Coq Require Import ZArith List Bool Lia.
From Verif Require Import Base BaseLemmas OmpModel OmpProofs.
Import ListNotations.
Open Scope Z_scope.

Local Arguments Nat.ltb : simpl never.
Local Arguments Nat.leb : simpl never.

Section Det.
  Context {S : Type}.
  Implicit Types (prog : list (instr S)) (c : config S) (s : S).

  (** Execution in program order, used as the specification. *)
  Definition run_instr (T : Z) (i : instr S) (s : S) : S :=
    match i with
    | ISingle f => f s
    | ICritical f => fold_left (fun s t => f t s) (zrange 0 T) s
    | IBarrier => s
    end.
  Definition in_order prog (T : Z) (s : S) : S :=
    fold_left (fun s i => run_instr T i s) prog s.

  Definition no_single prog : Prop :=
    forall k f, nth_error prog k <> Some (ISingle f).

  (** Instructions of different threads with no barrier between them commute. *)
  Definition race_free prog (T : Z) : Prop :=
    forall k k' f g, (k <= k')%nat ->
      nth_error prog k = Some (ICritical f) ->
      nth_error prog k' = Some (ICritical g) ->
      (forall j, (k < j < k')%nat -> nth_error prog j <> Some IBarrier) ->
      forall t u s, 0 <= t < T -> 0 <= u < T -> t <> u ->
        f t (g u s) = g u (f t s).

  (** The part of [in_order] that the team has executed when thread [t] has
      executed the first [p t] instructions. *)
  Definition part_instr (T : Z) (k : nat) (p : Z -> nat) (i : instr S) (s : S) : S :=
    match i with
    | ICritical f => fold_left (fun s t => if Nat.ltb k (p t) then f t s else s) (zrange 0 T) s
    | _ => s
    end.
  Fixpoint canon (T : Z) (k : nat) prog (p : Z -> nat) (s : S) : S :=
    match prog with
    | [] => s
    | i :: r => canon T (Datatypes.S k) r p (part_instr T k p i s)
    end.

  Lemma fold_ext {A B} (f g : A -> B -> A) l : (forall a b, In b l -> f a b = g a b) ->
    forall a, fold_left f l a = fold_left g l a.
  Proof.
    induction l as [|x l IH]; intros E a; [reflexivity|].
    cbn. rewrite E by (left; reflexivity). apply IH. intros; apply E; right; assumption.
  Qed.

  Lemma fold_id {A B} (f : A -> B -> A) l : (forall a b, In b l -> f a b = a) ->
    forall a, fold_left f l a = a.
  Proof.
    induction l as [|x l IH]; intros E a; [reflexivity|].
    cbn. rewrite E by (left; reflexivity). apply IH. intros; apply E; right; assumption.
  Qed.

  (** A function that commutes with every further contribution can be moved
      to the end of a fold. *)
  Lemma fold_move {B} (f : S -> B -> S) (h : S -> S) l :
    (forall s b, In b l -> f (h s) b = h (f s b)) ->
    forall s, fold_left f l (h s) = h (fold_left f l s).
  Proof.
    induction l as [|x l IH]; intros E s; [reflexivity|].
    cbn. rewrite E by (left; reflexivity). apply IH. intros; apply E; right; assumption.
  Qed.

  (** Moving one thread's instruction past everything that has been executed
      after it in program order. *)
  Lemma canon_move T prog p (h : S -> S) : forall k s,
    (forall i g u s, nth_error prog i = Some (ICritical g) -> 0 <= u < T ->
       (k + i < p u)%nat -> g u (h s) = h (g u s)) ->
    canon T k prog p (h s) = h (canon T k prog p s).
  Proof.
    induction prog as [|i r IH]; intros k s E; [reflexivity|].
    cbn. rewrite <- IH.
    - f_equal. destruct i as [f|f|]; cbn; try reflexivity.
      apply (fold_move (fun s t => if Nat.ltb k (p t) then f t s else s)).
      intros s' b Hb. apply zrange_In in Hb. cbv beta.
      destruct (Nat.ltb_spec k (p b)); [|reflexivity].
      apply (E 0%nat f b s'); [reflexivity|lia|lia].
    - intros i' g u s' Hn Hu Hk. apply (E (Datatypes.S i') g u s'); [exact Hn|exact Hu|lia].
  Qed.

  Lemma canon_ext T prog p p' : forall k s,
    (forall i u, (i < length prog)%nat -> 0 <= u < T ->
       Nat.ltb (k + i) (p u) = Nat.ltb (k + i) (p' u)) ->
    canon T k prog p s = canon T k prog p' s.
  Proof.
    induction prog as [|i r IH]; intros k s E; [reflexivity|].
    cbn. rewrite (IH (Datatypes.S k)).
    - f_equal. destruct i as [f|f|]; cbn; try reflexivity.
      apply fold_ext. intros s' b Hb. apply zrange_In in Hb.
      specialize (E 0%nat b ltac:(cbn; lia) Hb). rewrite Nat.add_0_r in E. rewrite E. reflexivity.
    - intros i' u Hi Hu. specialize (E (Datatypes.S i') u ltac:(cbn; lia) Hu).
      replace (Datatypes.S k + i')%nat with (k + Datatypes.S i')%nat by lia. exact E.
  Qed.

  Lemma zrange_around t T : 0 <= t < T ->
    zrange 0 T = zrange 0 t ++ t :: zrange (t + 1) T.
  Proof.
    intros H. rewrite (zrange_app 0 t T) by lia. f_equal. apply zrange_cons. lia.
  Qed.

  (** One step of one thread in the canonical order. *)
  Lemma canon_step T f t p : forall prog k0 i s,
    nth_error prog i = Some (ICritical f) -> 0 <= t < T -> p t = (k0 + i)%nat ->
    (forall j g u s, (i <= j)%nat -> nth_error prog j = Some (ICritical g) -> 0 <= u < T ->
       u <> t -> (k0 + j < p u)%nat -> g u (f t s) = f t (g u s)) ->
    canon T k0 prog (set_pc p t (Datatypes.S (p t))) s = f t (canon T k0 prog p s).
  Proof.
    induction prog as [|a r IH]; intros k0 i s Hn Ht Hp Hc; [destruct i; discriminate|].
    destruct i as [|i].
    - cbn in Hn. injection Hn as ->. cbn.
      rewrite (canon_ext T r (set_pc p t (Datatypes.S (p t))) p).
      2:{ intros i u Hi Hu. destruct (Z.eq_dec u t) as [->|Hut].
          - rewrite set_pc_eq.
            destruct (Nat.ltb_spec (Datatypes.S k0 + i) (Datatypes.S (p t)));
            destruct (Nat.ltb_spec (Datatypes.S k0 + i) (p t)); try reflexivity; lia.
          - rewrite set_pc_neq by auto. reflexivity. }
      rewrite <- canon_move.
      + f_equal. rewrite (zrange_around t T) by lia. rewrite !fold_left_app. cbn [fold_left].
        rewrite set_pc_eq.
        replace (Nat.ltb k0 (Datatypes.S (p t))) with true
          by (symmetry; apply Nat.ltb_lt; lia).
        replace (Nat.ltb k0 (p t)) with false by (symmetry; apply Nat.ltb_ge; lia).
        set (s1 := fold_left _ (zrange 0 t) s).
        set (s2 := fold_left _ (zrange 0 t) s).
        assert (E12 : s1 = s2).
        { apply fold_ext. intros s' b Hb. apply zrange_In in Hb. rewrite set_pc_neq by lia. reflexivity. }
        rewrite E12.
        rewrite <- (fold_move (fun s u => if Nat.ltb k0 (p u) then f u s else s) (f t)).
        * apply fold_ext. intros s' b Hb. apply zrange_In in Hb. rewrite set_pc_neq by lia. reflexivity.
        * intros s' b Hb. apply zrange_In in Hb.
          destruct (Nat.ltb_spec k0 (p b)); [|reflexivity].
          apply (Hc 0%nat f b s'); [lia|reflexivity|lia|lia|lia].
      + intros i g u s' Hi Hu Hk.
        destruct (Z.eq_dec u t) as [->|Hut]; [lia|].
        apply (Hc (Datatypes.S i) g u s'); [lia|exact Hi|lia|exact Hut|lia].
    - cbn [canon].
      assert (E : part_instr T k0 (set_pc p t (Datatypes.S (p t))) a s = part_instr T k0 p a s).
      { destruct a as [h|h|]; cbn; try reflexivity. apply fold_ext. intros s' b Hb.
        destruct (Z.eq_dec b t) as [->|Hb2].
        - rewrite set_pc_eq.
          replace (Nat.ltb k0 (Datatypes.S (p t))) with true by (symmetry; apply Nat.ltb_lt; lia).
          replace (Nat.ltb k0 (p t)) with true by (symmetry; apply Nat.ltb_lt; lia). reflexivity.
        - rewrite set_pc_neq by auto. reflexivity. }
      rewrite E. apply (IH (Datatypes.S k0) i); [exact Hn|exact Ht|lia|].
      intros j g u s' Hij Hj Hu Hut Hk.
      apply (Hc (Datatypes.S j) g u s'); [lia|exact Hj|exact Hu|exact Hut|lia].
  Qed.

  Definition det_inv prog T s0 c : Prop :=
    barrier_inv prog T c /\ shared c = canon T 0 prog (pc c) s0.

  Lemma det_step prog T s0 c c' : no_single prog -> race_free prog T ->
    det_inv prog T s0 c -> step prog T c c' -> det_inv prog T s0 c'.
  Proof.
    intros NS RF [B E] H. split; [exact (barrier_inv_step _ _ _ _ B H)|].
    inversion H as [? t f Ht Hn Hf | ? t f Ht Hn Hf | ? t f Ht Hn | ? t Ht Hn Hw]; subst; cbn.
    - exfalso. exact (NS _ _ Hn).
    - exfalso. exact (NS _ _ Hn).
    - rewrite E. symmetry. apply (canon_step T f t (pc c) prog 0 (pc c t)); [exact Hn|exact Ht|lia|].
      intros j g u s Hij Hj Hu Hut Hlt. symmetry.
      apply (RF (pc c t) j f g Hij Hn Hj); [|exact Ht|exact Hu|congruence].
      intros l Hl Hb. specialize (B l Hb u t Hu Ht ltac:(lia)). lia.
    - rewrite E. clear E H.
      assert (G : forall r k i s, nth_error r i = Some IBarrier -> pc c t = (k + i)%nat ->
        canon T k r (pc c) s = canon T k r (set_pc (pc c) t (Datatypes.S (pc c t))) s).
      { induction r as [|a r IH]; intros k i s Hi Hk; [destruct i; discriminate|].
        destruct i as [|i].
        - cbn in Hi. injection Hi as ->. cbn. apply canon_ext. intros j u Hj Hu.
          destruct (Z.eq_dec u t) as [->|Hut].
          + rewrite set_pc_eq.
            destruct (Nat.ltb_spec (Datatypes.S k + j) (Datatypes.S (pc c t)));
            destruct (Nat.ltb_spec (Datatypes.S k + j) (pc c t)); try reflexivity; lia.
          + rewrite set_pc_neq by auto. reflexivity.
        - cbn. rewrite (IH (Datatypes.S k) i); [|exact Hi|lia]. f_equal.
          destruct a as [h|h|]; cbn; try reflexivity. apply fold_ext. intros s' b Hb.
          destruct (Z.eq_dec b t) as [->|Hb2].
          + rewrite set_pc_eq.
            replace (Nat.ltb k (Datatypes.S (pc c t))) with true by (symmetry; apply Nat.ltb_lt; lia).
            replace (Nat.ltb k (pc c t)) with true by (symmetry; apply Nat.ltb_lt; lia). reflexivity.
          + rewrite set_pc_neq by auto. reflexivity. }
      apply (G prog 0%nat (pc c t)); [exact Hn|lia].
  Qed.

  Lemma canon_start T : forall prog k s, canon T k prog (fun _ => 0%nat) s = s.
  Proof.
    induction prog as [|a r IH]; intros k s; [reflexivity|]. cbn. rewrite IH.
    destruct a as [f|f|]; cbn; try reflexivity. apply fold_id. intros. reflexivity.
  Qed.

  Lemma canon_finish T p : forall prog k s,
    (forall f, ~ In (ISingle f) prog) ->
    (forall u, 0 <= u < T -> (k + length prog <= p u)%nat) ->
    canon T k prog p s = in_order prog T s.
  Proof.
    induction prog as [|a r IH]; intros k s Hns Hp; [reflexivity|]. cbn.
    rewrite IH.
    - unfold in_order. f_equal. destruct a as [f|f|]; cbn.
      + exfalso. apply (Hns f). left; reflexivity.
      + apply fold_ext. intros s' b Hb. apply zrange_In in Hb. specialize (Hp b Hb). cbn in Hp.
        replace (Nat.ltb k (p b)) with true by (symmetry; apply Nat.ltb_lt; lia). reflexivity.
      + reflexivity.
    - intros f Hf. apply (Hns f). right; exact Hf.
    - intros u Hu. specialize (Hp u Hu). cbn in Hp. lia.
  Qed.

  Theorem race_free_det prog T s0 c : no_single prog -> race_free prog T ->
    steps prog T (start s0) c -> finished prog T c -> shared c = in_order prog T s0.
  Proof.
    intros NS RF Hs Hf.
    assert (I : det_inv prog T s0 c).
    { refine (steps_ind_inv prog T (det_inv prog T s0) _ _ _ Hs _).
      - intros a b Ha Hb. exact (det_step prog T s0 a b NS RF Ha Hb).
      - split; [apply barrier_inv_start|]. cbn. symmetry. apply canon_start. }
    destruct I as [_ E]. rewrite E. apply canon_finish.
    - intros f Hf'. apply In_nth_error in Hf'. destruct Hf' as [n Hn]. exact (NS n f Hn).
    - intros u Hu. rewrite (Hf u Hu). lia.
  Qed.
End Det.
