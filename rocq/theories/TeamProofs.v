(** Threads of a well-synchronised program stay together: soundness of a
    simple check, for every schedule. *)
From Coq Require Import ZArith List Bool Lia.
From Verif Require Import Base BaseLemmas TeamModel.
Import ListNotations.
Open Scope Z_scope.

Section Check.
  Context {val : Type} (prog : Z -> list (instr val)) (T : Z).
  (** Private variables that are the same on all threads; a bound on the length
      of a phase. *)
  Context (uni : Z -> bool) (fuel : nat).

  Definition i_reads (i : instr val) : list Z :=
    match i with Up _ rs _ _ => rs | Br rs _ _ _ => rs | _ => [] end.
  Definition i_writes (i : instr val) : list Z :=
    match i with Wr v _ => [v] | Sg ws => map fst ws | _ => [] end.
  Definition i_priv (i : instr val) : list Z :=
    match i with Up _ _ rp _ => rp | Br _ rp _ _ => rp | _ => [] end.

  Definition disjb (a b : list Z) : bool := forallb (fun v => negb (existsb (Z.eqb v) b)) a.

  (** No path from here to the next barrier reads a shared variable that is also
      written on that path, or decides on a private variable that differs. *)
  Fixpoint ph (n : nat) (k : list (instr val)) (R W : list Z) : bool :=
    match n with
    | O => false
    | S n =>
        match k with
        | [] => false
        | Bar :: _ | Rt :: _ => disjb R W
        | Jm l :: _ => ph n (prog l) R W
        | i :: k' =>
            forallb uni (i_priv i) &&
            (match i with Br _ _ _ l => ph n (prog l) (i_reads i ++ R) (i_writes i ++ W) | _ => true end) &&
            ph n k' (i_reads i ++ R) (i_writes i ++ W)
        end
    end.

  (** Every phase starting at a barrier of [k] passes the check; private values
      that count as equal on all threads are. *)
  Fixpoint okc (k : list (instr val)) : Prop :=
    match k with
    | [] => True
    | Bar :: k' => ph fuel k' [] [] = true /\ okc k'
    | Lp p f :: k' => (uni p = true -> forall t t' n, f t n = f t' n) /\ okc k'
    | _ :: k' => okc k'
    end.

  Definition ok_prog : Prop := forall l, okc (prog l).

  Definition agree (u u' : Z -> val) : Prop := forall p, uni p = true -> u p = u' p.

  (** What a thread does within a phase, if the shared variables it reads have
      the values [s] of the start of the phase. *)
  Definition ustep (s : Z -> val) (n : nat) (x : list (instr val) * (Z -> val)) : option (list (instr val) * (Z -> val)) :=
    let u := snd x in
    match fst x with
    | [] => None
    | Bar :: _ => None
    | Rt :: _ => None
    | Wr _ _ :: k => Some (k, u)
    | Sg _ :: k => Some (k, u)
    | Lp p f :: k => Some (k, upd u p (f 0 n))
    | Up p rs rp f :: k => Some (k, upd u p (f (map s rs) (map u rp)))
    | Br rs rp b l :: k => Some (if b (map s rs) (map u rp) then prog l else k, u)
    | Jm l :: k => Some (prog l, u)
    end.

  Fixpoint uiter (s : Z -> val) (n : nat) (m : nat) (x : list (instr val) * (Z -> val)) : option (list (instr val) * (Z -> val)) :=
    match m with
    | O => Some x
    | S m => match uiter s n m x with None => None | Some y => ustep s n y end
    end.

  Lemma uiter_none s n m x : uiter s n m x = None -> forall m', (m <= m')%nat -> uiter s n m' x = None.
  Proof. intros H m' Hm. induction Hm as [|m' Hm IH]; [exact H|]. cbn. rewrite IH. reflexivity. Qed.

  Lemma uiter_terminal s n m m' x y y' :
    uiter s n m x = Some y -> ustep s n y = None -> uiter s n m' x = Some y' -> ustep s n y' = None -> y = y'.
  Proof.
    intros A Ay B By. destruct (Nat.lt_trichotomy m m') as [L|[->|L]].
    - assert (E : uiter s n (S m) x = None) by (cbn; rewrite A; exact Ay).
      rewrite (uiter_none _ _ _ _ E m') in B by lia. discriminate.
    - congruence.
    - assert (E : uiter s n (S m') x = None) by (cbn; rewrite B; exact By).
      rewrite (uiter_none _ _ _ _ E m) in A by lia. discriminate.
  Qed.

  Lemma uiter_S s n m x : uiter s n (S m) x = match ustep s n x with None => None | Some y => uiter s n m y end.
  Proof.
    induction m as [|m IH]; [cbn; destruct (ustep s n x); reflexivity|].
    cbn [uiter] in IH |- *. rewrite IH. destruct (ustep s n x) as [y|]; [|reflexivity]. reflexivity.
  Qed.

  (** Heads of the states of the path from [x]. *)
  Definition on_path (s : Z -> val) (n : nat) (x : list (instr val) * (Z -> val)) (i : instr val) : Prop :=
    exists m k u, uiter s n m x = Some (i :: k, u).

  Definition preads s n x v : Prop := exists i, on_path s n x i /\ In v (i_reads i).
  Definition pwrites s n x v : Prop := exists i, on_path s n x i /\ In v (i_writes i).

  Lemma on_path_cases s n x i : on_path s n x i ->
    (exists k, fst x = i :: k) \/ (exists y, ustep s n x = Some y /\ on_path s n y i).
  Proof.
    intros (m & k & u & E). destruct m as [|m].
    - cbn in E. injection E as ->. left. exists k. reflexivity.
    - rewrite uiter_S in E. destruct (ustep s n x) as [y|] eqn:Ey; [|discriminate].
      right. exists y. split; [reflexivity|]. exists m, k, u. exact E.
  Qed.

  Lemma disjb_spec a b : disjb a b = true -> forall v, In v a -> ~ In v b.
  Proof.
    unfold disjb. rewrite forallb_forall. intros H v Hv Hb. specialize (H v Hv).
    apply negb_true_iff in H. rewrite <- not_true_iff_false in H. apply H.
    apply existsb_exists. exists v. split; [exact Hb|apply Z.eqb_refl].
  Qed.

  Lemma ph_ok s n f : forall k u R W, ph f k R W = true ->
    (forall v, (In v R \/ preads s n (k, u) v) -> ~ (In v W \/ pwrites s n (k, u) v)) /\
    (forall i, on_path s n (k, u) i -> Forall (fun p => uni p = true) (i_priv i)).
  Proof.
    induction f as [|f IH]; intros k u R W H; [discriminate|].
    destruct k as [|i k]; [discriminate|].
    assert (Term : ustep s n (i :: k, u) = None -> i_reads i = [] -> i_writes i = [] -> i_priv i = [] ->
      disjb R W = true ->
      (forall v, (In v R \/ preads s n (i :: k, u) v) -> ~ (In v W \/ pwrites s n (i :: k, u) v)) /\
      (forall i', on_path s n (i :: k, u) i' -> Forall (fun p => uni p = true) (i_priv i'))).
    { intros Et Er Ew Ep D.
      assert (Only : forall i', on_path s n (i :: k, u) i' -> i' = i).
      { intros i' O. destruct (on_path_cases _ _ _ _ O) as [(k' & X)|(y & X & _)].
        - cbn in X. congruence.
        - rewrite Et in X. discriminate. }
      split.
      - intros v [A|(i' & O & A)]; [|rewrite (Only _ O), Er in A; destruct A].
        intros [B|(i' & O & B)]; [|rewrite (Only _ O), Ew in B; destruct B].
        exact (disjb_spec _ _ D v A B).
      - intros i' O. rewrite (Only _ O), Ep. constructor. }
    assert (Go : forall y R' W', ustep s n (i :: k, u) = Some y ->
      R' = i_reads i ++ R -> W' = i_writes i ++ W -> forallb uni (i_priv i) = true ->
      ph f (fst y) R' W' = true ->
      (forall v, (In v R \/ preads s n (i :: k, u) v) -> ~ (In v W \/ pwrites s n (i :: k, u) v)) /\
      (forall i', on_path s n (i :: k, u) i' -> Forall (fun p => uni p = true) (i_priv i'))).
    { intros [k' u'] R' W' Ey -> -> Hp Hph. destruct (IH k' u' _ _ Hph) as (A & B).
      assert (Cs : forall i', on_path s n (i :: k, u) i' -> i' = i \/ on_path s n (k', u') i').
      { intros i' O. destruct (on_path_cases _ _ _ _ O) as [(q & X)|(y & X & O')].
        - left. cbn in X. congruence.
        - right. rewrite Ey in X. injection X as <-. exact O'. }
      split.
      - intros v Hr Hw. apply (A v).
        + destruct Hr as [Hr|(i' & O & Hr)]; [left; apply in_or_app; right; exact Hr|].
          destruct (Cs i' O) as [->|O']; [left; apply in_or_app; left; exact Hr|right; exists i'; split; assumption].
        + destruct Hw as [Hw|(i' & O & Hw)]; [left; apply in_or_app; right; exact Hw|].
          destruct (Cs i' O) as [->|O']; [left; apply in_or_app; left; exact Hw|right; exists i'; split; assumption].
      - intros i' O. destruct (Cs i' O) as [->|O']; [|exact (B i' O')].
        apply Forall_forall. rewrite forallb_forall in Hp. exact Hp. }
    destruct i; cbn [ph] in H; try (apply Term; [reflexivity..|exact H]).
    all: try (apply andb_prop in H; destruct H as (H & H2); apply andb_prop in H; destruct H as (H0 & H1)).
    - eapply Go; [reflexivity|reflexivity|reflexivity|exact H0|exact H2].
    - eapply Go; [reflexivity|reflexivity|reflexivity|exact H0|exact H2].
    - eapply Go; [reflexivity|reflexivity|reflexivity|exact H0|exact H2].
    - eapply Go; [reflexivity|reflexivity|reflexivity|exact H0|exact H2].
    - eapply Go; [reflexivity|reflexivity|reflexivity|exact H0|]. cbn [fst].
      destruct (c _ _); assumption.
    - eapply Go; [reflexivity|reflexivity|reflexivity|reflexivity|exact H].
  Qed.

  (** The path from [x] ends. *)
  Lemma ph_ends s n f : forall k u R W, ph f k R W = true -> exists m y, uiter s n m (k, u) = Some y /\ match fst y with Bar :: _ | Rt :: _ => True | _ => False end.
  Proof.
    induction f as [|f IH]; intros k u R W H; [discriminate|].
    destruct k as [|i k]; [discriminate|].
    assert (Go : forall y, ustep s n (i :: k, u) = Some y -> (exists R' W', ph f (fst y) R' W' = true) ->
      exists m y, uiter s n m (i :: k, u) = Some y /\ match fst y with Bar :: _ | Rt :: _ => True | _ => False end).
    { intros [k' u'] Ey (R' & W' & Hp). destruct (IH k' u' R' W' Hp) as (m & z & A & B).
      exists (S m), z. rewrite uiter_S, Ey. split; assumption. }
    destruct i; cbn [ph] in H; try (exists O; eexists; split; [reflexivity|exact I]).
    all: try (apply andb_prop in H; destruct H as (H & H2); apply andb_prop in H; destruct H as (H0 & H1)).
    all: try (eapply Go; [reflexivity|eauto]; fail).
    eapply Go; [reflexivity|]. cbn [fst]. destruct (c _ _); eauto.
  Qed.

  Context (OK : ok_prog).

  Lemma okc_tail i k : okc (i :: k) -> okc k.
  Proof. destruct i; cbn; tauto. Qed.

  Lemma ustep_okc s n x y : ustep s n x = Some y -> okc (fst x) -> okc (fst y).
  Proof.
    destruct x as [k u]. unfold ustep. cbn [fst snd]. intros E A.
    destruct k as [|i k]; [discriminate|].
    destruct i; try discriminate; injection E as <-; cbn [fst]; try (apply (okc_tail _ _ A)).
    - destruct (c _ _); [apply OK|exact A].
    - apply OK.
  Qed.

  Lemma uiter_okc s n m x y : uiter s n m x = Some y -> okc (fst x) -> okc (fst y).
  Proof.
    revert y. induction m as [|m IH]; intros y E Hx; cbn in E.
    - injection E as <-. exact Hx.
    - destruct (uiter s n m x) as [z|] eqn:Ez; [|discriminate].
      exact (ustep_okc s n z y E (IH z eq_refl Hx)).
  Qed.

  Definition in_phase (k : nat) (P : list (instr val)) (U S0 : Z -> val) (x : thread val) : Prop :=
    nb x = k /\ exists m u, uiter S0 k m (P, U) = Some (code x, u) /\ agree u (pv x).

  Definition behind (k : nat) (P : list (instr val)) (U : Z -> val) (x : thread val) : Prop :=
    S (nb x) = k /\ code x = Bar :: P /\ agree U (pv x).

  (** The invariant: all threads are in phase [k], which starts with code [P],
      or still at the barrier before it. *)
  Definition inv_at (k : nat) (P : list (instr val)) (U S0 : Z -> val) (c : config val) : Prop :=
    (forall v, ~ pwrites S0 k (P, U) v -> sh c v = S0 v) /\ (okc P /\ ph fuel P [] [] = true) /\
    (forall t, 0 <= t < T -> in_phase k P U S0 (th c t) \/ behind k P U (th c t)).

  Definition inv (c : config val) : Prop := exists k P U S0, inv_at k P U S0 c.

  Lemma map_shared (s S0 : Z -> val) (W : Z -> Prop) rs : (forall v, ~ W v -> s v = S0 v) -> (forall v, In v rs -> ~ W v) -> map s rs = map S0 rs.
  Proof. intros H D. apply map_ext_in. intros v Hv. apply H, D, Hv. Qed.

  Lemma map_private u u' rp : agree u u' -> Forall (fun p => uni p = true) rp -> map u rp = map u' rp.
  Proof. intros H D. apply map_ext_in. intros v Hv. apply H. rewrite Forall_forall in D. auto. Qed.

  Lemma agree_upd u u' p x : agree u u' -> agree (upd u p x) (upd u' p x).
  Proof. intros H q Hq. unfold upd. destruct (q =? p); [reflexivity|auto]. Qed.

  Lemma agree_upd2 u u' p x y : agree u u' -> (uni p = true -> x = y) -> agree (upd u p x) (upd u' p y).
  Proof. intros H E q Hq. unfold upd. destruct (Z.eqb_spec q p) as [->|]; [auto|auto]. Qed.

  Lemma set_opt_other (s : Z -> val) v o w : w <> v -> set_opt s v o w = s w.
  Proof. intros H. destruct o; cbn; [|reflexivity]. unfold upd. destruct (Z.eqb_spec w v); congruence. Qed.

  Lemma set_fold_other (g : (Z * (Z -> nat -> (Z -> val) -> (Z -> val) -> option val)) -> (Z -> val) -> option val) ws s w :
    ~ In w (map fst ws) -> fold_left (fun s x => set_opt s (fst x) (g x s)) ws s w = s w.
  Proof.
    revert s. induction ws as [|x ws IH]; intros s H; [reflexivity|].
    cbn [fold_left]. rewrite IH by (intro; apply H; right; assumption).
    apply set_opt_other. intros ->. apply H. left. reflexivity.
  Qed.

  Lemma reached_all n (c : config val) : forallb (fun t' => reached n (th c t')) (zrange 0 T) = true <->
    (forall t, 0 <= t < T -> reached n (th c t) = true).
  Proof. rewrite forallb_forall. split; intros H t Ht; apply H; rewrite zrange_In in *; lia. Qed.

  Lemma not_behind k P U (x : thread val) i : behind k P U x -> code x = i -> match i with Bar :: _ => True | _ => False end.
  Proof. intros (_ & E & _) <-. rewrite E. exact I. Qed.

  (** One step within a phase, of thread [t]. *)
  Lemma phase_step k P U S0 c t c' :
    inv_at k P U S0 c -> 0 <= t < T -> fire prog T c t = Some c' ->
    match code (th c t) with Bar :: _ => False | _ => True end ->
    inv_at k P U S0 c'.
  Proof.
    intros (Hs & HP & Ht) H0 F HB.
    destruct (Ht t H0) as [HI | HI].
    2:{ destruct HI as (_ & E & _). rewrite E in HB. destruct HB. }
    destruct HI as (Hk & m & u & E & Ag).
    destruct HP as (HO & HP).
    pose proof (uiter_okc _ _ _ _ _ E HO) as St. cbn [fst] in St.
    destruct (ph_ok S0 k fuel P U [] [] HP) as (Dis & Pri).
    assert (OnP : forall i q, code (th c t) = i :: q -> on_path S0 k (P, U) i).
    { intros i q Ei. exists m, q, u. rewrite <- Ei. exact E. }
    assert (Sh : forall i q, code (th c t) = i :: q -> map (sh c) (i_reads i) = map S0 (i_reads i)).
    { intros i q Ei. apply (map_shared _ _ (pwrites S0 k (P, U))); [exact Hs|]. intros v Hv Hw.
      apply (Dis v); [right; exists i; split; [exact (OnP _ _ Ei)|exact Hv]|right; exact Hw]. }
    assert (Pr : forall i q, code (th c t) = i :: q -> map u (i_priv i) = map (pv (th c t)) (i_priv i)).
    { intros i q Ei. apply map_private; [exact Ag|exact (Pri _ (OnP _ _ Ei))]. }
    assert (Wp : forall i q v, code (th c t) = i :: q -> In v (i_writes i) -> pwrites S0 k (P, U) v).
    { intros i q v Ei Hv. exists i. split; [exact (OnP _ _ Ei)|exact Hv]. }
    assert (Next : forall y, ustep S0 k (code (th c t), u) = Some y -> uiter S0 k (S m) (P, U) = Some y).
    { intros y Ey. cbn. rewrite E. exact Ey. }
    assert (Others : forall x' s' f', in_phase k P U S0 x' -> (forall v, ~ pwrites S0 k (P, U) v -> s' v = S0 v) ->
      inv_at k P U S0 (mkConfig s' f' (upd (th c) t x'))).
    { intros x' s' f' Hx' Hs'. split; [exact Hs'|]. split; [split; assumption|]. intros t' Ht'. cbn [th].
      unfold upd. destruct (t' =? t); [left; exact Hx'|]. exact (Ht t' Ht'). }
    unfold fire in F. destruct (code (th c t)) as [|i kk] eqn:Ec; [discriminate|].
    destruct i; try discriminate; try (destruct HB).
    - injection F as <-. cbn in Next. apply Others.
      + split; [exact Hk|]. exists (S m), u. split; [exact (Next _ eq_refl)|exact Ag].
      + intros w Hw. rewrite set_opt_other; [apply Hs, Hw|]. intros ->. apply Hw. apply (Wp _ _ v eq_refl). left. reflexivity.
    - injection F as <-. cbn in Next. apply Others; [|exact Hs].
      split; [exact Hk|]. eexists (S m), _. split; [exact (Next _ eq_refl)|]. cbn [pv].
      apply agree_upd2; [exact Ag|]. intros Hp. rewrite Hk. cbn in St. apply (proj1 St Hp).
    - injection F as <-. cbn in Next. apply Others; [|exact Hs].
      split; [exact Hk|]. eexists (S m), _. split; [exact (Next _ eq_refl)|]. cbn [pv].
      specialize (Sh _ _ eq_refl). specialize (Pr _ _ eq_refl). cbn in Sh, Pr.
      rewrite Sh, Pr. apply agree_upd. exact Ag.
    - cbn in Next.
      assert (IP : in_phase k P U S0 (mkThread kk (pv (th c t)) (nb (th c t)) (S (nsg (th c t))))).
      { split; [exact Hk|]. exists (S m), u. split; [exact (Next _ eq_refl)|exact Ag]. }
      destruct (Nat.eqb _ _); injection F as <-; apply Others; try exact IP; [|exact Hs].
      intros w Hw. rewrite (set_fold_other (fun x s => snd x t (nb (th c t)) s (pv (th c t)))); [apply Hs, Hw|].
      intros Hi. apply Hw. apply (Wp _ _ w eq_refl). exact Hi.
    - injection F as <-. cbn in Next. apply Others; [|exact Hs].
      split; [exact Hk|]. exists (S m), u. split; [|exact Ag]. cbn [code].
      specialize (Sh _ _ eq_refl). specialize (Pr _ _ eq_refl). cbn in Sh, Pr.
      rewrite Sh, <- Pr. exact (Next _ eq_refl).
    - injection F as <-. cbn in Next. apply Others; [|exact Hs].
      split; [exact Hk|]. exists (S m), u. split; [exact (Next _ eq_refl)|exact Ag].
  Qed.

  Lemma reached_bar (x : thread val) : (exists k, code x = Bar :: k) -> reached (nb x) x = true.
  Proof. intros (k & E). unfold reached. rewrite E, Nat.eqb_refl. apply orb_true_r. Qed.

  (** All threads of a phase are at a barrier: the next phase can be entered. *)
  Lemma next_phase k P U S0 c : 1 <= T -> inv_at k P U S0 c ->
    (forall t, 0 <= t < T -> nb (th c t) = k /\ exists q, code (th c t) = Bar :: q) ->
    exists P' U' S0', inv_at (S k) P' U' S0' c.
  Proof.
    intros HT (Hs & HP & Ht) All.
    destruct (All 0 ltac:(lia)) as (Hk0 & q & Eq).
    destruct (Ht 0 ltac:(lia)) as [(_ & m & u & E & Ag) | (Hb & _)]; [|lia].
    destruct HP as (HO & HP).
    pose proof (uiter_okc _ _ _ _ _ E HO) as St. cbn [fst] in St. rewrite Eq in St.
    destruct St as (D & A).
    exists q, u, (sh c). split; [auto|]. split; [split; assumption|].
    intros t H0. right. destruct (All t H0) as (Hk & q' & Eq').
    destruct (Ht t H0) as [(_ & m' & u' & E' & Ag') | (Hb & _)]; [|lia].
    rewrite Eq in E. rewrite Eq' in E'.
    pose proof (uiter_terminal S0 k m m' (P, U) _ _ E eq_refl E' eq_refl) as X. injection X as -> ->.
    split; [lia|]. split; [exact Eq'|exact Ag'].
  Qed.

  Lemma bar_step k P U S0 c t c' q :
    inv_at k P U S0 c -> 0 <= t < T -> behind k P U (th c t) -> code (th c t) = Bar :: q ->
    fire prog T c t = Some c' -> inv_at k P U S0 c'.
  Proof.
    intros (Hs & HP & Ht) H0 (Hb & Ec & Ag) Eq F. unfold fire in F. rewrite Ec in F.
    destruct (forallb _ _); [|discriminate]. injection F as <-.
    split; [exact Hs|]. split; [exact HP|]. intros t' Ht'. cbn [th put]. unfold upd.
    destruct (Z.eqb_spec t' t) as [->|]; [|exact (Ht t' Ht')].
    left. split; [exact Hb|]. exists O, U. split; [reflexivity|exact Ag].
  Qed.

  Lemma fire_inv c t c' : 0 <= t < T -> inv c -> fire prog T c t = Some c' -> inv c'.
  Proof.
    intros H0 (k & P & U & S0 & I) F.
    destruct (code (th c t)) as [|i q] eqn:Ec; [unfold fire in F; rewrite Ec in F; discriminate|].
    destruct i.
    4:{ pose proof I as (Hs & HP & Ht). destruct (Ht t H0) as [HI|HI].
        - assert (R : forall t, 0 <= t < T -> reached k (th c t) = true).
          { unfold fire in F. rewrite Ec in F.
            destruct (forallb _ _) eqn:Ef; [|discriminate]. rewrite reached_all in Ef.
            destruct HI as (Ek & _). rewrite <- Ek. exact Ef. }
          destruct (next_phase k P U S0 c ltac:(lia) I) as (P' & U' & S1 & I').
          { intros t' Ht'. specialize (R t' Ht'). unfold reached in R.
            destruct (Ht t' Ht') as [(Hk & _)|(Hb & _)].
            - split; [exact Hk|]. rewrite Hk, Nat.ltb_irrefl in R. cbn [orb] in R.
              apply andb_prop in R. destruct R as (_ & R).
              destruct (code (th c t')) as [|[] q']; try discriminate. eauto.
            - rewrite (proj2 (Nat.ltb_ge _ _)) in R by lia.
              rewrite (proj2 (Nat.eqb_neq _ _)) in R by lia. discriminate. }
          exists (S k), P', U', S1. pose proof I' as (_ & _ & Ht'').
          destruct (Ht'' t H0) as [(Hk & _)|Hb]; [destruct HI as (Hk' & _); lia|].
          exact (bar_step _ _ _ _ _ _ _ q I' H0 Hb Ec F).
        - exists k, P, U, S0. exact (bar_step _ _ _ _ _ _ _ q I H0 HI Ec F). }
    all: exists k, P, U, S0; apply (phase_step k P U S0 c t c' I H0 F); rewrite Ec; exact Logic.I.
  Qed.

  Lemma runs_inv c c' : inv c -> runs prog T c c' -> inv c'.
  Proof. intros H R. induction R as [c|c c1 c2 t R IH Ht F]; [exact H|]. exact (fire_inv c1 t c2 Ht (IH H) F). Qed.

  Lemma starts_inv P s u : okc P -> ph fuel P [] [] = true -> inv (starts P s u).
  Proof.
    intros A D. exists O, P, u, s. split; [reflexivity|]. split; [split; assumption|].
    intros t _. left. split; [reflexivity|]. exists O, u. split; [reflexivity|]. intros p _. reflexivity.
  Qed.

  (** Threads waiting for the same barrier wait at the same place. *)
  Lemma same_barrier c t t' q q' : inv c -> 0 <= t < T -> 0 <= t' < T ->
    code (th c t) = Bar :: q -> code (th c t') = Bar :: q' -> nb (th c t) = nb (th c t') ->
    q = q' /\ agree (pv (th c t)) (pv (th c t')).
  Proof.
    intros (k & P & U & S0 & (Hs & HP & Ht)) H0 H0' E E' En.
    destruct (Ht t H0) as [(Hk & m & u & X & Ag)|(Hk & X & Ag)];
    destruct (Ht t' H0') as [(Hk' & m' & u' & X' & Ag')|(Hk' & X' & Ag')]; try lia.
    - rewrite E in X. rewrite E' in X'. pose proof (uiter_terminal S0 k m m' (P, U) _ _ X eq_refl X' eq_refl) as Y.
      injection Y as -> ->. split; [reflexivity|]. intros p Hp. rewrite <- Ag by exact Hp. apply Ag'. exact Hp.
    - rewrite E in X. rewrite E' in X'. injection X as ->. injection X' as ->. split; [reflexivity|].
      intros p Hp. rewrite <- Ag by exact Hp. apply Ag'. exact Hp.
  Qed.

  Lemma count_close c t t' : inv c -> 0 <= t < T -> 0 <= t' < T -> (nb (th c t) <= S (nb (th c t')))%nat.
  Proof.
    intros (k & P & U & S0 & (Hs & HP & Ht)) H0 H0'.
    destruct (Ht t H0) as [(Hk & _)|(Hk & _)]; destruct (Ht t' H0') as [(Hk' & _)|(Hk' & _)]; lia.
  Qed.

  Lemma terminal_dec (k : list (instr val)) : match k with Rt :: _ | Bar :: _ | [] => True | _ => False end \/
    match k with Rt :: _ | Bar :: _ | [] => False | _ => True end.
  Proof. destruct k as [|[] k]; auto. Qed.

  (** No deadlock, and all threads end alike. *)
  Lemma progress c : 1 <= T -> inv c ->
    (exists t c', 0 <= t < T /\ fire prog T c t = Some c') \/
    (forall t t', 0 <= t < T -> 0 <= t' < T ->
       ended (th c t) /\ nb (th c t) = nb (th c t') /\ agree (pv (th c t)) (pv (th c t'))).
  Proof.
    intros HT (k & P & U & S0 & (Hs & HP & Ht)).
    (* is some thread able to move on its own? *)
    assert (Dec : (exists t, 0 <= t < T /\ (behind k P U (th c t) \/
        match code (th c t) with Rt :: _ | Bar :: _ | [] => False | _ => True end)) \/
      (forall t, 0 <= t < T -> in_phase k P U S0 (th c t) /\
         match code (th c t) with Rt :: _ | Bar :: _ | [] => True | _ => False end)).
    { assert (G : forall n, 0 <= n -> n <= T -> (exists t, 0 <= t < n /\ (behind k P U (th c t) \/
          match code (th c t) with Rt :: _ | Bar :: _ | [] => False | _ => True end)) \/
        (forall t, 0 <= t < n -> in_phase k P U S0 (th c t) /\
           match code (th c t) with Rt :: _ | Bar :: _ | [] => True | _ => False end)).
      { intros n Hn. pattern n. revert n Hn. apply natlike_ind.
        - intros _. right. intros t Ht0. lia.
        - intros n Hn IH Hle. destruct (IH ltac:(lia)) as [(t & Ht0 & X)|X]; [left; exists t; split; [lia|exact X]|].
          destruct (Ht n ltac:(lia)) as [A|A].
          + destruct (terminal_dec (code (th c n))) as [B|B].
            * right. intros t Ht0. destruct (Z.eq_dec t n) as [->|]; [split; assumption|]. apply X. lia.
            * left. exists n. split; [lia|]. right. exact B.
          + left. exists n. split; [lia|]. left. exact A. }
      apply (G T); lia. }
    destruct Dec as [(t & H0 & X)|All].
    - left. destruct X as [B|B].
      + pose proof B as (Hb & Ec & Ag).
        exists t. unfold fire. rewrite Ec.
        replace (forallb _ _) with true; [eauto|]. symmetry. apply reached_all. intros t' Ht'.
        unfold reached. destruct (Ht t' Ht') as [(Hk & _)|(Hk & E & _)].
        * rewrite (proj2 (Nat.ltb_lt _ _)) by lia. reflexivity.
        * rewrite E. replace (nb (th c t')) with (nb (th c t)) by lia. rewrite Nat.eqb_refl. apply orb_true_r.
      + exists t. unfold fire. destruct (code (th c t)) as [|[] q]; try destruct B; eauto.
        destruct (Nat.eqb _ _); eauto.
    - destruct (All 0 ltac:(lia)) as ((Hk0 & m0 & u0 & E0 & Ag0) & T0).
      assert (Tm : forall k' u', match k' with Rt :: _ | Bar :: _ | [] => True | _ => False end -> ustep S0 k (k', u') = None).
      { intros k' u'. unfold ustep. cbn. destruct k' as [|[] ?]; tauto. }
      assert (Same : forall t, 0 <= t < T -> nb (th c t) = k /\ code (th c t) = code (th c 0) /\ agree u0 (pv (th c t))).
      { intros t H0. destruct (All t H0) as ((Hk & m & u & E & Ag) & Tt). split; [exact Hk|].
        pose proof (uiter_terminal S0 k m0 m (P, U) _ _ E0 (Tm _ _ T0) E (Tm _ _ Tt)) as Y.
        injection Y as -> ->. split; [reflexivity|exact Ag]. }
      destruct (ph_ends S0 k fuel P U [] [] (proj2 HP)) as (me & [ke ue] & Ee & Te). cbn [fst] in Te.
      assert (A : match code (th c 0) with Bar :: _ | Rt :: _ => True | _ => False end).
      { assert (X : ustep S0 k (ke, ue) = None) by (apply Tm; destruct ke as [|[] ?]; tauto).
        pose proof (uiter_terminal S0 k m0 me (P, U) _ _ E0 (Tm _ _ T0) Ee X) as Y. injection Y as -> _. exact Te. }
      destruct (code (th c 0)) as [|[] q] eqn:Ec; try destruct T0; try (destruct A; fail).
      + left. exists 0. unfold fire. rewrite Ec. replace (forallb _ _) with true; [eexists; split; [lia|reflexivity]|].
        symmetry. apply reached_all. intros t H0. destruct (Same t H0) as (Hk & E & _).
        replace (nb (th c 0)) with (nb (th c t)) by lia. apply reached_bar. eauto.
      + right. intros t t' H0 H0'. destruct (Same t H0) as (Hk & E & Ag). destruct (Same t' H0') as (Hk' & E' & Ag').
        split; [exists q; exact E|]. split; [lia|]. intros p Hp. rewrite <- Ag by exact Hp. apply Ag'. exact Hp.
  Qed.
End Check.
