From Coq Require Import String List Bool Arith Lia.
From Verif Require Import SaveModel SaveSpec.
Import ListNotations.

Section Proofs.
  Context {C : Type} (empty : C).
  Context (procs0 : nat -> call C * pc) (f0 : fs C) (Hinit : initial procs0 f0).
  (** No object is saved under the name of a temporary file. *)
  Context (Hdisj : forall k j tmp, temp_name (target (fst (procs0 k))) tmp -> target (fst (procs0 j)) <> tmp).

  Definition holding (p : pc) : option string := match p with Writing t | Failed t | Ready t => Some t | _ => None end.

  Record inv (procs : nat -> call C * pc) (f : fs C) : Prop := {
    v_calls : forall k, fst (procs k) = fst (procs0 k);
    v_alloc : forall name i, dir f name = Some i -> i < fresh f;
    v_ge : fresh f0 <= fresh f;
    v_old : forall i, i < fresh f0 -> data f i = data f0 i;
    v_tmp : forall k t, holding (snd (procs k)) = Some t ->
      temp_name (target (fst (procs0 k))) t /\
      exists i, dir f t = Some i /\ fresh f0 <= i /\ (forall name, dir f name = Some i -> name = t);
    v_distinct : forall k j t, holding (snd (procs k)) = Some t -> holding (snd (procs j)) = Some t -> k = j;
    v_ready : forall k t i, snd (procs k) = Ready t -> dir f t = Some i -> data f i = content (fst (procs0 k));
    v_target : forall j, let name := target (fst (procs0 j)) in
      dir f name = dir f0 name \/
      (exists k i, target (fst (procs0 k)) = name /\ dir f name = Some i /\ data f i = content (fst (procs0 k)));
    v_other : forall name, (forall k, target (fst (procs0 k)) <> name) -> (forall k, ~ temp_name (target (fst (procs0 k))) name) -> dir f name = dir f0 name }.

  Lemma eqb_s a b : String.eqb a b = true <-> a = b. Proof. apply String.eqb_eq. Qed.

  Lemma inv_init : inv procs0 f0.
  Proof using Hinit.
    destruct Hinit as (H1 & H2). constructor; auto.
    - intros k t. rewrite H1. discriminate.
    - intros k j t. rewrite H1. discriminate.
    - intros k t i. rewrite H1. discriminate.
  Qed.

  Definition move (procs : nat -> call C * pc) k p' : nat -> call C * pc := fun j => if Nat.eqb j k then (fst (procs k), p') else procs j.
  Lemma move_fst procs k p' j : fst (move procs k p' j) = fst (procs j).
  Proof using. unfold move. destruct (Nat.eqb_spec j k) as [->|]; reflexivity. Qed.
  Lemma move_same procs k p' : snd (move procs k p' k) = p'.
  Proof using. unfold move. rewrite Nat.eqb_refl. reflexivity. Qed.
  Lemma move_diff procs k p' j : j <> k -> snd (move procs k p' j) = snd (procs j).
  Proof using. intros H. unfold move. apply Nat.eqb_neq in H. rewrite H. reflexivity. Qed.

  (** A process that changes its position but no file, holding the same file or none. *)
  Lemma inv_move procs f k p' : inv procs f -> (holding p' = None \/ holding p' = holding (snd (procs k))) -> (forall t, p' <> Ready t) -> inv (move procs k p') f.
  Proof using.
    intros I Hh Hr. destruct I. constructor; auto.
    - intros j. rewrite move_fst. apply v_calls0.
    - intros j t H. destruct (Nat.eq_dec j k) as [->|N]; [rewrite move_same in H|rewrite move_diff in H by exact N; apply v_tmp0; exact H].
      destruct Hh as [Hh|Hh]; [congruence|]. apply v_tmp0. congruence.
    - intros j1 j2 t H1 H2. destruct (Nat.eq_dec j1 k) as [->|N1], (Nat.eq_dec j2 k) as [->|N2]; auto; rewrite ?move_same, ?move_diff in * by auto.
      + apply (v_distinct0 _ _ t); [|exact H2]. destruct Hh; congruence.
      + apply (v_distinct0 _ _ t); [exact H1|]. destruct Hh; congruence.
      + apply (v_distinct0 _ _ t); auto.
    - intros j t i H. destruct (Nat.eq_dec j k) as [->|N]; [rewrite move_same in H; exfalso; exact (Hr t H)|]. rewrite move_diff in H by exact N. apply v_ready0. exact H.
  Qed.

  (** Changing the contents of a held file. *)
  Lemma inv_modify procs f k t i d p' : inv procs f -> snd (procs k) = Writing t -> dir f t = Some i ->
    (p' = Writing t \/ (p' = Ready t /\ d = content (fst (procs k)))) -> inv (move procs k p') (set_data f i d).
  Proof using Hdisj.
    intros I Hp Hd Hp'. pose proof I as I0. destruct I. assert (Hh : holding (snd (procs k)) = Some t) by (rewrite Hp; reflexivity).
    assert (Hh' : holding p' = Some t) by (destruct Hp' as [->|(-> & _)]; reflexivity).
    destruct (v_tmp0 k t Hh) as (T1 & i' & T2 & T3 & T4). rewrite Hd in T2. injection T2 as <-. constructor; cbn [set_data dir data fresh]; auto.
    - intros j. rewrite move_fst. apply v_calls0.
    - intros i' Hi'. destruct (Nat.eqb_spec i' i) as [->|]; [lia|]. apply v_old0. exact Hi'.
    - intros j t' H. destruct (Nat.eq_dec j k) as [->|N]; [rewrite move_same in H|rewrite move_diff in H by exact N; apply v_tmp0; exact H]. apply v_tmp0. congruence.
    - intros j1 j2 t' H1 H2. destruct (Nat.eq_dec j1 k) as [->|N1], (Nat.eq_dec j2 k) as [->|N2]; auto; rewrite ?move_same, ?move_diff in * by auto; apply (v_distinct0 _ _ t'); congruence.
    - intros j t' i' H Hi'. destruct (Nat.eq_dec j k) as [->|N].
      + rewrite move_same in H. destruct Hp' as [->|(-> & ->)]; [discriminate|]. injection H as <-. rewrite Hd in Hi'. injection Hi' as <-. rewrite Nat.eqb_refl. rewrite v_calls0. reflexivity.
      + rewrite move_diff in H by exact N. destruct (Nat.eqb_spec i' i) as [->|Ni]; [|eapply v_ready0; eassumption].
        exfalso. apply N. apply (v_distinct0 j k t); [|exact Hh]. rewrite (T4 t' Hi') in H. rewrite H. reflexivity.
    - intros j. cbv zeta. set (name := target (fst (procs0 j))). destruct (v_target0 j) as [E|(k' & i' & E1 & E2 & E3)]; [left; exact E|]. right. exists k', i'. split; [exact E1|]. split; [exact E2|].
      destruct (Nat.eqb_spec i' i) as [->|]; [|exact E3]. exfalso. apply (Hdisj k j t T1). apply T4. exact E2.
  Qed.

  Lemma inv_create procs f k t f' : inv procs f -> snd (procs k) = Start -> temp_name (target (fst (procs k))) t -> create f t empty = Some f' -> inv (move procs k (Writing t)) f'.
  Proof using Hdisj.
    intros I Hp Ht E. destruct I. unfold create in E. destruct (dir f t) eqn:Ed; [discriminate|]. injection E as <-. rewrite v_calls0 in Ht.
    constructor; cbn [dir data fresh].
    - intros j. rewrite move_fst. apply v_calls0.
    - intros name i. destruct (String.eqb_spec name t) as [->|]; [intros H; injection H as <-; lia|]. intros H. apply v_alloc0 in H. lia.
    - lia.
    - intros i Hi. destruct (Nat.eqb_spec i (fresh f)); [lia|]. apply v_old0. exact Hi.
    - intros j t' H. destruct (Nat.eq_dec j k) as [->|N].
      + rewrite move_same in H. injection H as <-. split; [exact Ht|]. exists (fresh f). rewrite (proj2 (String.eqb_eq t t) eq_refl). split; [reflexivity|]. split; [lia|].
        intros name. destruct (String.eqb_spec name t) as [->|]; [reflexivity|]. intros H. apply v_alloc0 in H. lia.
      + rewrite move_diff in H by exact N. destruct (v_tmp0 j t' H) as (T1 & i & T2 & T3 & T4). split; [exact T1|]. exists i.
        assert (Nt : t' <> t) by congruence. rewrite (proj2 (String.eqb_neq t' t) Nt). split; [exact T2|]. split; [exact T3|].
        intros name. destruct (String.eqb_spec name t) as [->|]; [|apply T4]. intros Q. injection Q as <-. apply v_alloc0 in T2. lia.
    - intros j1 j2 t' H1 H2. destruct (Nat.eq_dec j1 k) as [->|N1], (Nat.eq_dec j2 k) as [->|N2]; auto; rewrite ?move_same, ?move_diff in * by auto.
      + injection H1 as <-. destruct (v_tmp0 j2 t H2) as (_ & i & T2 & _). congruence.
      + injection H2 as <-. destruct (v_tmp0 j1 t H1) as (_ & i & T2 & _). congruence.
      + apply (v_distinct0 _ _ t'); auto.
    - intros j t' i H. destruct (Nat.eq_dec j k) as [->|N]; [rewrite move_same in H; discriminate|]. rewrite move_diff in H by exact N.
      destruct (v_tmp0 j t') as (_ & i' & T2 & _); [rewrite H; reflexivity|]. assert (Nt : t' <> t) by congruence. rewrite (proj2 (String.eqb_neq t' t) Nt). intros Hi.
      destruct (Nat.eqb_spec i (fresh f)) as [->|]; [apply v_alloc0 in Hi; lia|]. eapply v_ready0; eassumption.
    - intros j. cbv zeta. set (name := target (fst (procs0 j))). assert (Nt : name <> t) by (apply (Hdisj k j t Ht)). rewrite (proj2 (String.eqb_neq name t) Nt).
      destruct (v_target0 j) as [E|(k' & i' & E1 & E2 & E3)]; [left; exact E|]. right. exists k', i'. split; [exact E1|]. split; [exact E2|].
      destruct (Nat.eqb_spec i' (fresh f)) as [->|]; [|exact E3]. apply v_alloc0 in E2. lia.
    - intros name H1 H2. destruct (String.eqb_spec name t) as [->|]; [exfalso; exact (H2 k Ht)|]. apply v_other0; auto.
  Qed.

  Lemma inv_unlink procs f k t p' : inv procs f -> holding (snd (procs k)) = Some t -> holding p' = None -> inv (move procs k p') (set_dir f t None).
  Proof using Hdisj.
    intros I Hh Hp'. destruct I. destruct (v_tmp0 k t Hh) as (T1 & i & T2 & T3 & T4). constructor; cbn [set_dir dir data fresh]; auto.
    - intros j. rewrite move_fst. apply v_calls0.
    - intros name i'. destruct (String.eqb_spec name t); [discriminate|]. apply v_alloc0.
    - intros j t' H. destruct (Nat.eq_dec j k) as [->|N]; [rewrite move_same in H; congruence|]. rewrite move_diff in H by exact N.
      assert (Nt : t' <> t) by (intros ->; apply N; exact (v_distinct0 j k t H Hh)). destruct (v_tmp0 j t' H) as (U1 & i' & U2 & U3 & U4). split; [exact U1|].
      exists i'. rewrite (proj2 (String.eqb_neq t' t) Nt). split; [exact U2|]. split; [exact U3|]. intros name. destruct (String.eqb_spec name t); [discriminate|]. apply U4.
    - intros j1 j2 t' H1 H2. destruct (Nat.eq_dec j1 k) as [->|N1], (Nat.eq_dec j2 k) as [->|N2]; auto; rewrite ?move_same, ?move_diff in * by auto; try congruence. apply (v_distinct0 _ _ t'); auto.
    - intros j t' i' H. destruct (Nat.eq_dec j k) as [->|N]; [rewrite move_same in H; subst p'; discriminate|]. rewrite move_diff in H by exact N.
      destruct (String.eqb_spec t' t); [discriminate|]. apply v_ready0. exact H.
    - intros j. cbv zeta. set (name := target (fst (procs0 j))). assert (Nt : name <> t) by (apply (Hdisj k j t T1)). rewrite (proj2 (String.eqb_neq name t) Nt). apply v_target0.
    - intros name H1 H2. destruct (String.eqb_spec name t) as [->|]; [exfalso; exact (H2 k T1)|]. apply v_other0; auto.
  Qed.

  Lemma inv_replace procs f k t i : inv procs f -> snd (procs k) = Ready t -> dir f t = Some i ->
    inv (move procs k Done) (set_dir (set_dir f (target (fst (procs k))) (Some i)) t None).
  Proof using Hdisj.
    intros I Hp Hd. destruct I. assert (Hh : holding (snd (procs k)) = Some t) by (rewrite Hp; reflexivity).
    destruct (v_tmp0 k t Hh) as (T1 & i' & T2 & T3 & T4). rewrite Hd in T2. injection T2 as <-. rewrite v_calls0. set (out := target (fst (procs0 k))) in *.
    assert (No : out <> t) by (apply (Hdisj k k t T1)). pose proof (v_ready0 k t i Hp Hd) as Hc.
    constructor; cbn [set_dir dir data fresh]; auto.
    - intros j. rewrite move_fst. apply v_calls0.
    - intros name i'. destruct (String.eqb_spec name t); [discriminate|]. destruct (String.eqb_spec name out); [intros Q; injection Q as <-; exact (v_alloc0 t i Hd)|]. apply v_alloc0.
    - intros j t' H. destruct (Nat.eq_dec j k) as [->|N]; [rewrite move_same in H; discriminate|]. rewrite move_diff in H by exact N.
      assert (Nt : t' <> t) by (intros ->; apply N; exact (v_distinct0 j k t H Hh)). destruct (v_tmp0 j t' H) as (U1 & i' & U2 & U3 & U4). split; [exact U1|].
      assert (Nt' : t' <> out) by (intros E; apply (Hdisj j k t' U1); symmetry; exact E).
      exists i'. rewrite (proj2 (String.eqb_neq t' t) Nt), (proj2 (String.eqb_neq t' out) Nt'). split; [exact U2|]. split; [exact U3|].
      intros name. destruct (String.eqb_spec name t); [discriminate|]. destruct (String.eqb_spec name out); [|apply U4]. intros Q. injection Q as <-. exfalso. apply Nt. apply T4. exact U2.
    - intros j1 j2 t' H1 H2. destruct (Nat.eq_dec j1 k) as [->|N1], (Nat.eq_dec j2 k) as [->|N2]; auto; rewrite ?move_same, ?move_diff in * by auto; try discriminate. apply (v_distinct0 _ _ t'); auto.
    - intros j t' i' H. destruct (Nat.eq_dec j k) as [->|N]; [rewrite move_same in H; discriminate|]. rewrite move_diff in H by exact N.
      destruct (String.eqb_spec t' t); [discriminate|]. destruct (v_tmp0 j t') as (U1 & _); [rewrite H; reflexivity|]. destruct (String.eqb_spec t' out) as [E|]; [exfalso; apply (Hdisj j k t' U1); symmetry; exact E|]. apply v_ready0. exact H.
    - intros j. cbv zeta. set (name := target (fst (procs0 j))). assert (Nt : name <> t) by (apply (Hdisj k j t T1)). rewrite (proj2 (String.eqb_neq name t) Nt).
      destruct (String.eqb_spec name out) as [E|]; [|apply v_target0]. right. exists k, i. split; [symmetry; exact E|]. split; [reflexivity|exact Hc].
    - intros name H1 H2. destruct (String.eqb_spec name t) as [->|]; [exfalso; exact (H2 k T1)|]. destruct (String.eqb_spec name out) as [E|]; [exfalso; apply (H1 k); symmetry; exact E|]. apply v_other0; auto.
  Qed.

  Lemma inv_step procs f k e p' f' : inv procs f -> allowed (fst (procs k)) e -> step empty (fst (procs k)) (snd (procs k)) e f = Some (p', f') -> inv (move procs k p') f'.
  Proof using Hdisj.
    intros I A E. destruct (snd (procs k)) eqn:Hp; destruct e; cbn [step] in E; try discriminate E;
      try (injection E as <- <-; apply inv_move; [exact I| |intros ?; discriminate]; rewrite ?Hp; cbn; auto; fail).
    - destruct (is_h5 _); [|discriminate]. injection E as <- <-. apply inv_move; [exact I|left; reflexivity|intros ?; discriminate].
    - destruct (is_h5 _); [discriminate|]. destruct (create f tmp empty) as [f2|] eqn:Ec; [|discriminate]. injection E as <- <-. eapply inv_create; eassumption.
    - destruct (is_h5 _); [discriminate|]. injection E as <- <-. apply inv_move; [exact I|left; reflexivity|intros ?; discriminate].
    - destruct (dir f tmp) as [i|] eqn:Ed; [|discriminate]. injection E as <- <-. eapply inv_modify; eauto.
    - destruct (dir f tmp) as [i|] eqn:Ed; [|discriminate]. injection E as <- <-. eapply inv_modify; eauto.
    - injection E as <- <-. apply inv_unlink; [exact I|rewrite Hp; reflexivity|reflexivity].
    - destruct (dir f tmp) as [i|] eqn:Ed; [|discriminate]. injection E as <- <-. apply inv_replace; assumption.
  Qed.

  Theorem reachable_inv procs f : reachable empty (procs0, f0) (procs, f) -> inv procs f.
  Proof using Hinit Hdisj.
    assert (G : forall s, reachable empty (procs0, f0) s -> inv (fst s) (snd s)).
    { intros s R. induction R as [|procs' f' k e p' f2 R IH A E]; [apply inv_init|]. exact (inv_step procs' f' k e p' f2 IH A E). }
    intros R. exact (G _ R).
  Qed.

  Theorem atomic procs f : reachable empty (procs0, f0) (procs, f) -> forall name, is_target procs0 name -> old_or_complete procs0 f0 f name.
  Proof using Hinit Hdisj.
    intros R name (j & <-). apply reachable_inv in R. destruct (v_target _ _ R j) as [E|(k & i & E1 & E2 & E3)].
    - left. unfold read. rewrite E. destruct (dir f0 (target (fst (procs0 j)))) as [i|] eqn:Ei; [|reflexivity]. cbn. f_equal. apply (v_old _ _ R). eapply (proj2 Hinit). exact Ei.
    - right. exists k. split; [exact E1|]. unfold read. rewrite E2. cbn. f_equal. exact E3.
  Qed.

  Theorem others_untouched procs f : reachable empty (procs0, f0) (procs, f) ->
    forall name, ~ is_target procs0 name -> (forall k, ~ temp_name (target (fst (procs0 k))) name) -> read f name = read f0 name.
  Proof using Hinit Hdisj.
    intros R name N1 N2. apply reachable_inv in R. unfold read. rewrite (v_other _ _ R name) by (auto; intros k E; apply N1; exists k; exact E).
    destruct (dir f0 name) as [i|] eqn:Ei; [|reflexivity]. cbn. f_equal. apply (v_old _ _ R). eapply (proj2 Hinit). exact Ei.
  Qed.

  (** Open files do not change. *)
  Definition published (procs : nat -> call C * pc) (f : fs C) (i : nat) : Prop :=
    i < fresh f /\ forall k t, holding (snd (procs k)) = Some t -> dir f t <> Some i.

  Lemma published_step procs f k e p' f' i : inv procs f -> allowed (fst (procs k)) e -> step empty (fst (procs k)) (snd (procs k)) e f = Some (p', f') ->
    published procs f i -> published (move procs k p') f' i /\ data f' i = data f i.
  Proof using Hdisj.
    intros I A E (P1 & P2).
    assert (Stay : forall p2, (holding p2 = None \/ holding p2 = holding (snd (procs k))) -> published (move procs k p2) f i).
    { intros p2 Hp2. split; [exact P1|]. intros j t H. destruct (Nat.eq_dec j k) as [->|N]; [rewrite move_same in H; apply (P2 k t); destruct Hp2; congruence|]. rewrite move_diff in H by exact N. exact (P2 j t H). }
    destruct (snd (procs k)) eqn:Hp; destruct e; cbn [step] in E; try discriminate E;
      try (injection E as <- <-; split; [apply Stay; cbn; auto|reflexivity]; fail).
    - destruct (is_h5 _); [|discriminate]. injection E as <- <-. split; [apply Stay; auto|reflexivity].
    - destruct (is_h5 _); [discriminate|]. unfold create in E. destruct (dir f tmp) eqn:Ed; [discriminate|]. injection E as <- <-. split; [|cbn; destruct (Nat.eqb_spec i (fresh f)); [lia|reflexivity]].
      split; cbn [fresh dir]; [lia|]. intros j t H. destruct (Nat.eq_dec j k) as [->|N].
      + rewrite move_same in H. injection H as <-. rewrite (proj2 (String.eqb_eq tmp tmp) eq_refl). intros Q. injection Q as Q. lia.
      + rewrite move_diff in H by exact N. destruct (String.eqb_spec t tmp); [intros Q; injection Q as Q; lia|]. exact (P2 j t H).
    - destruct (is_h5 _); [discriminate|]. injection E as <- <-. split; [apply Stay; auto|reflexivity].
    - destruct (dir f tmp) as [i'|] eqn:Ed; [|discriminate]. injection E as <- <-. split; [exact (Stay (Writing tmp) (or_intror eq_refl))|].
      cbn. destruct (Nat.eqb_spec i i') as [->|]; [|reflexivity]. exfalso. apply (P2 k tmp); [rewrite Hp; reflexivity|exact Ed].
    - destruct (dir f tmp) as [i'|] eqn:Ed; [|discriminate]. injection E as <- <-. split; [exact (Stay (Ready tmp) (or_intror eq_refl))|].
      cbn. destruct (Nat.eqb_spec i i') as [->|]; [|reflexivity]. exfalso. apply (P2 k tmp); [rewrite Hp; reflexivity|exact Ed].
    - injection E as <- <-. split; [|reflexivity]. split; [exact P1|]. intros j t H. cbn. destruct (String.eqb_spec t tmp); [discriminate|].
      destruct (Nat.eq_dec j k) as [->|N]; [rewrite move_same in H; discriminate|]. rewrite move_diff in H by exact N. exact (P2 j t H).
    - destruct (dir f tmp) as [i'|] eqn:Ed; [|discriminate]. injection E as <- <-. split; [|reflexivity]. split; [exact P1|]. intros j t H. cbn. destruct (String.eqb_spec t tmp); [discriminate|].
      destruct (Nat.eq_dec j k) as [->|N]; [rewrite move_same in H; discriminate|]. rewrite move_diff in H by exact N.
      destruct (String.eqb_spec t (target (fst (procs k)))) as [Et|]; [|exact (P2 j t H)].
      exfalso. destruct (v_tmp _ _ I j t H) as (U & _). rewrite (v_calls _ _ I k) in Et. apply (Hdisj j k t U). symmetry. exact Et.
  Qed.

  Theorem reader_stable procs1 f1 procs2 f2 name i : reachable empty (procs0, f0) (procs1, f1) -> reachable empty (procs1, f1) (procs2, f2) ->
    is_target procs0 name -> dir f1 name = Some i -> data f2 i = data f1 i.
  Proof using Hinit Hdisj.
    intros R1 R2 (j & <-) Ei. apply reachable_inv in R1.
    assert (P : published procs1 f1 i).
    { split; [exact (v_alloc _ _ R1 _ _ Ei)|]. intros k t H Hd. destruct (v_tmp _ _ R1 k t H) as (T1 & i' & T2 & _ & T4). rewrite Hd in T2. injection T2 as <-. apply (Hdisj k j t T1). apply T4. exact Ei. }
    assert (G : forall s, reachable empty (procs1, f1) s -> inv (fst s) (snd s) /\ published (fst s) (snd s) i /\ data (snd s) i = data f1 i).
    { intros s R. induction R as [|procs' f' k e p' f3 R IH A E]; [split; [exact R1|split; [exact P|reflexivity]]|]. destruct IH as (I & Pi & D). split; [exact (inv_step _ _ _ _ _ _ I A E)|].
      destruct (published_step _ _ _ _ _ _ i I A E Pi) as (Q1 & Q2). split; [exact Q1|]. cbn in *. congruence. }
    apply (G _ R2).
  Qed.
End Proofs.

(** *** One process. *)
Section One.
  Context {C : Type} (empty : C).

  (** Its files so far: those of [f0] and perhaps one temporary file. *)
  Definition one (f0 : fs C) (p : pc) (f : fs C) : Prop :=
    match p with
    | Start | Raised => (forall n, dir f n = dir f0 n) /\ (forall i, i < fresh f0 -> data f i = data f0 i)
    | Writing t | Failed t => dir f0 t = None /\ (exists i, dir f t = Some i /\ fresh f0 <= i) /\ (forall n, n <> t -> dir f n = dir f0 n) /\ (forall i, i < fresh f0 -> data f i = data f0 i)
    | _ => True
    end.
  Definition failed_late (e : event C) : Prop := match e with ReplaceFails | UnlinkFails | Kill => True | _ => False end.

  Lemma one_step f0 c p e f p' f' : one f0 p f -> fresh f0 <= fresh f -> ~ failed_late e -> step empty c p e f = Some (p', f') -> one f0 p' f' /\ fresh f0 <= fresh f'.
  Proof.
    intros O Hf N E. destruct p; destruct e; cbn [step failed_late] in *; try discriminate E; try tauto.
    - destruct (is_h5 _); [|discriminate]. injection E as <- <-. auto.
    - destruct (is_h5 _); [discriminate|]. unfold create in E. destruct (dir f tmp) eqn:Ed; [discriminate|]. injection E as <- <-. destruct O as (O1 & O2). cbn. split; [|lia]. split; [rewrite <- O1; exact Ed|]. split; [|split].
      + exists (fresh f). rewrite (proj2 (String.eqb_eq tmp tmp) eq_refl). auto.
      + intros n Hn. rewrite (proj2 (String.eqb_neq n tmp) Hn). apply O1.
      + intros i Hi. destruct (Nat.eqb_spec i (fresh f)); [lia|]. apply O2. exact Hi.
    - destruct (is_h5 _); [discriminate|]. injection E as <- <-. auto.
    - destruct O as (O0 & (i & O1 & O2) & O3 & O4). rewrite O1 in E. injection E as <- <-. cbn. split; [|exact Hf]. split; [exact O0|]. split; [exists i; auto|]. split; [exact O3|].
      intros i' Hi'. destruct (Nat.eqb_spec i' i); [lia|]. apply O4. exact Hi'.
    - destruct O as (O0 & (i & O1 & O2) & O3 & O4). rewrite O1 in E. injection E as <- <-. cbn. auto.
    - injection E as <- <-. auto.
    - injection E as <- <-. destruct O as (O0 & _ & O3 & O4). cbn. split; [|exact Hf]. split; [|exact O4]. intros n. destruct (String.eqb_spec n tmp) as [->|Hn]; [symmetry; exact O0|]. apply O3. exact Hn.
    - destruct (dir f tmp); [|discriminate]. injection E as <- <-. cbn. auto.
  Qed.
  Lemma one_steps f0 c es : forall p f p' f', one f0 p f -> fresh f0 <= fresh f -> (forall e, In e es -> ~ failed_late e) -> steps empty c p es f = Some (p', f') -> one f0 p' f'.
  Proof.
    induction es as [|e es IH]; intros p f p' f' O Hf N E; cbn [steps] in E; [injection E as <- <-; exact O|].
    destruct (step empty c p e f) as [(p2, f2)|] eqn:Es; [|discriminate]. destruct (one_step f0 c p e f p2 f2 O Hf (N e (or_introl eq_refl)) Es) as (O2 & Hf2).
    apply (IH p2 f2); auto. intros e' He'. apply N. right. exact He'.
  Qed.
  Theorem failed_save c es f f' : (forall name i, dir f name = Some i -> i < fresh f) -> (forall e, In e es -> ~ failed_late e) ->
    steps empty c Start es f = Some (Raised, f') -> (forall name, dir f' name = dir f name) /\ forall name, read f' name = read f name.
  Proof.
    intros Ha N E. destruct (one_steps f c es Start f Raised f') as (O1 & O2); [cbn; auto|lia|exact N|exact E|]. split; [exact O1|].
    intros name. unfold read. rewrite O1. destruct (dir f name) as [i|] eqn:Ei; [|reflexivity]. cbn. f_equal. apply O2. eapply Ha. exact Ei.
  Qed.
End One.

Lemma substring_all (s : string) : substring 0 (String.length s) s = s.
Proof. induction s as [|a s IH]; cbn; [reflexivity|]. now rewrite IH. Qed.
Lemma substring_app (b s : string) : substring (String.length b) (String.length s) (b ++ s) = s.
Proof. induction b as [|a b IH]; cbn; [apply substring_all|exact IH]. Qed.
Lemma length_app (b s : string) : String.length (b ++ s) = String.length b + String.length s.
Proof. induction b as [|a b IH]; cbn; [reflexivity|]. now rewrite IH. Qed.
Lemma substring_split n (s : string) : n <= String.length s -> s = (substring 0 n s ++ substring n (String.length s - n) s)%string.
Proof.
  revert s. induction n as [|n IH]; intros s H.
  - rewrite Nat.sub_0_r, substring_all. destruct s; reflexivity.
  - destruct s as [|a s]; cbn in *; [lia|]. f_equal. apply IH. lia.
Qed.
Lemma is_h5_spec name : is_h5 name = true <-> exists base, base <> ""%string /\ name = (base ++ ".h5")%string.
Proof.
  unfold is_h5. rewrite andb_true_iff, Nat.ltb_lt, String.eqb_eq. split.
  - intros (L & E). exists (substring 0 (String.length name - 3) name). pose proof (substring_split (String.length name - 3) name ltac:(lia)) as S.
    replace (String.length name - (String.length name - 3)) with 3 in S by lia. rewrite E in S. split; [|exact S].
    intros Z. rewrite Z in S. cbn in S. rewrite S in L. cbn in L. lia.
  - intros (base & HB & ->). rewrite length_app. cbn [String.length]. split.
    + destruct base; [congruence|]. cbn. lia.
    + replace (String.length base + 3 - 3) with (String.length base) by lia. apply (substring_app base ".h5").
Qed.
