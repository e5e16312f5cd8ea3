From Coq Require Import ZArith List Bool Lia FunctionalExtensionality.
From Verif Require Import Base BaseLemmas GridLemmas Num PartModel PartSpec PartProofs
  OmpModel OmpProofs OmpDet StepModel StepSpec.
Import ListNotations.
Open Scope Z_scope.

Lemma upd_comm {A} (f : Z -> A) i j v w : i <> j -> upd (upd f i v) j w = upd (upd f j w) i v.
Proof.
  intros H. extensionality k. unfold upd.
  destruct (Z.eqb_spec k j), (Z.eqb_spec k i); try reflexivity; lia.
Qed.

(** Two nested counted loops over a flat index. *)
Lemma for_up_flat {S} a b (body : Z -> S -> S) s : 0 <= a -> 0 <= b ->
  for_up 0 a (fun m s => for_up 0 b (fun n s => body (m * b + n) s) s) s = for_up 0 (a * b) body s.
Proof.
  intros Ha Hb. revert s. pattern a. revert a Ha. apply natlike_ind.
  - intros s. rewrite !for_up_empty by lia. reflexivity.
  - intros a Ha IH s. unfold Z.succ. rewrite for_up_snoc by lia. rewrite IH.
    rewrite (for_up_split 0 (a * b) ((a + 1) * b)) by nia.
    generalize (for_up 0 (a * b) body s). clear IH s. intros s.
    replace ((a + 1) * b) with (a * b + b) by ring.
    revert s. pattern b at 1 4. revert b Hb. 
    assert (G : forall o b, 0 <= b -> forall s,
      for_up 0 b (fun n s => body (o + n) s) s = for_up o (o + b) body s).
    { intros o b Hb. pattern b. revert b Hb. apply natlike_ind.
      - intros s. rewrite !for_up_empty by lia. reflexivity.
      - intros b Hb IH s. unfold Z.succ. rewrite for_up_snoc by lia. rewrite IH.
        rewrite Z.add_assoc, for_up_snoc by lia. reflexivity. }
    intros b Hb s. apply G. exact Hb.
Qed.

Lemma fold_sets {A} (F : Z -> A -> A) i sets : NoDup sets -> forall (v : Z -> Z -> A) q j,
  fold_left (fun v q => upd2 v q i (F q (v q i))) sets v q j
  = if (if in_dec Z.eq_dec q sets then true else false) && (j =? i) then F q (v q j) else v q j.
Proof.
  induction sets as [|a l IH]; intros ND v q j.
  - cbn. reflexivity.
  - inversion ND as [|? ? Ha Hl]; subst. cbn [fold_left]. rewrite IH by assumption.
    destruct (in_dec Z.eq_dec q l) as [I|I]; destruct (in_dec Z.eq_dec q (a :: l)) as [I2|I2];
      cbn [andb].
    + unfold upd2. assert (q <> a) by congruence.
      destruct (Z.eqb_spec q a); [contradiction|]. reflexivity.
    + exfalso. apply I2. right. exact I.
    + destruct I2 as [-> | ?]; [|contradiction]. unfold upd2. rewrite Z.eqb_refl. cbn.
      destruct (Z.eqb_spec j i) as [-> |]; reflexivity.
    + unfold upd2. destruct (Z.eqb_spec q a) as [-> |]; [exfalso; apply I2; left; reflexivity|].
      reflexivity.
Qed.

Lemma coef_sets_NoDup a b : NoDup (coef_sets a b).
Proof.
  destruct a, b; cbn; repeat constructor; cbn; intuition lia.
Qed.

Section P.
  Context {K : num} (mpol ntor : Z) (sets : list Z).
  Hypothesis Hmpol : 0 <= mpol.
  Hypothesis Hntor : 0 <= ntor + 1.
  Hypothesis Hsets : NoDup sets.
  Let mns := mnsize mpol ntor.

  Lemma mns_nonneg : 0 <= mns.
  Proof. unfold mns, mnsize. nia. Qed.

  Lemma evolve_spec (r : rpart) (fac b1 dt : K) (f : Z -> Z -> K) x v q :
    In q sets ->
    let xv := evolve_local mpol ntor sets r fac b1 dt f (x, v) in
    forall j mn, nsMinF r <= j < nsMaxFIncludingLcfs r -> 0 <= mn < mns ->
      let i := (j - nsMinF r) * mns + mn in
      let i1 := (j - nsMinF1 r) * mns + mn in
      snd xv q i = new_v fac b1 dt (v q i) (f q i) /\
      fst xv q i1 = nadd (x q i1) (nmul dt (new_v fac b1 dt (v q i) (f q i))).
  Proof.
    intros Hq xv j mn Hj Hmn i i1. subst xv. unfold evolve_local.
    set (off := (nsMinF r - nsMinF1 r) * mns).
    set (get := fun (s : (Z -> Z -> K) * (Z -> Z -> K)) (i : Z) => (fst s q (i + off), snd s q i)).
    set (bd := fun (j kl : Z) (xv : (Z -> Z -> K) * (Z -> Z -> K)) =>
      let idx_mn := (j - nsMinF r) * mns + kl in
      let idx_mn1 := (j - nsMinF1 r) * mns + kl in
      let v' := fold_left (fun v q =>
        upd2 v q idx_mn (nmul fac (nadd (nmul b1 (v q idx_mn)) (nmul dt (f q idx_mn))))) sets (snd xv) in
      let x' := fold_left (fun x q =>
        upd2 x q idx_mn1 (nadd (x q idx_mn1) (nmul dt (v' q idx_mn)))) sets (fst xv) in
      (x', v')).
    set (V := fun (j kl : Z) (a : K * K) =>
      let nv := new_v fac b1 dt (snd a) (f q ((j - nsMinF r) * mns + kl)) in
      (nadd (fst a) (nmul dt nv), nv)).
    match goal with |- context [snd ?e q i] => assert (E : e =
      for_up (nsMinF r) (nsMaxFIncludingLcfs r) (fun j s => for_up 0 mns (bd j) s) (x, v)) end.
    { apply for_up_ext. intros j' s' Hj'. change (for_up 0 mns (bd j') s') with (for_up 0 (mpol * (ntor + 1)) (bd j') s').
      rewrite <- for_up_flat by lia. apply for_up_ext. intros m s1 Hm. apply for_up_ext.
      intros n s2 Hn. unfold bd.
      replace (((j' - nsMinF r) * mpol + m) * (ntor + 1) + n)
        with ((j' - nsMinF r) * mns + (m * (ntor + 1) + n)) by (unfold mns, mnsize; ring).
      replace (((j' - nsMinF1 r) * mpol + m) * (ntor + 1) + n)
        with ((j' - nsMinF1 r) * mns + (m * (ntor + 1) + n)) by (unfold mns, mnsize; ring).
      reflexivity. }
    rewrite E. clear E.
    destruct (grid_map get bd V mns (nsMinF r) (nsMinF r) (nsMaxFIncludingLcfs r) (x, v)) as [G _].
    - apply mns_nonneg.
    - intros j' kl s Hj' Hkl. unfold get, bd, V. cbn [fst snd].
      replace ((j' - nsMinF r) * mns + kl + off) with ((j' - nsMinF1 r) * mns + kl)
        by (unfold off; ring).
      set (a := (j' - nsMinF r) * mns + kl). set (b := (j' - nsMinF1 r) * mns + kl).
      set (v' := fold_left _ sets (snd s)).
      assert (Ev : v' q a = new_v fac b1 dt (snd s q a) (f q a)).
      { unfold v'. rewrite (fold_sets (fun q y => nmul fac (nadd (nmul b1 y) (nmul dt (f q a)))) a)
          by assumption.
        destruct (in_dec Z.eq_dec q sets); [|contradiction]. rewrite Z.eqb_refl. reflexivity. }
      rewrite (fold_sets (fun q y => nadd y (nmul dt (v' q a))) b) by assumption.
      destruct (in_dec Z.eq_dec q sets); [|contradiction]. rewrite Z.eqb_refl. cbn [andb].
      rewrite Ev. reflexivity.
    - intros j' kl s i' Hj' Hkl Hne. unfold get, bd. cbn [fst snd].
      set (a := (j' - nsMinF r) * mns + kl). set (b := (j' - nsMinF1 r) * mns + kl).
      set (v' := fold_left _ sets (snd s)).
      assert (Ev : v' q i' = snd s q i').
      { unfold v'. rewrite (fold_sets (fun q y => nmul fac (nadd (nmul b1 y) (nmul dt (f q a)))) a)
          by assumption.
        destruct (Z.eqb_spec i' a) as [Ei|Ei]; [contradiction|]. rewrite andb_false_r. reflexivity. }
      rewrite Ev.
      rewrite (fold_sets (fun q y => nadd y (nmul dt (v' q a))) b) by assumption.
      destruct (Z.eqb_spec (i' + off) b) as [Ei2|Ei2].
      + exfalso. apply Hne. unfold b, off in Ei2. lia.
      + rewrite andb_false_r. reflexivity.
    - specialize (G j mn Hj Hmn). fold i in G.
      assert (Ei : i + off = i1) by (unfold i, i1, off; ring).
      unfold get, V in G. rewrite Ei in G. cbn [fst snd] in G. fold i in G.
      injection G as G1 G2. split; [exact G2|exact G1].
  Qed.

  Lemma row_loop (w : Z -> Z) (src : Z -> Z -> K) : 
    (forall a b, 0 <= a < mns -> 0 <= b < mns -> w a = w b -> a = b) ->
    forall l (row : Z -> Z -> K) q i,
    let r := fold_left (fun row q => for_up 0 mns (fun mn row =>
      upd2 row q (w mn) (src q mn)) row) l row in
    (forall mn, 0 <= mn < mns -> In q l -> r q (w mn) = src q mn) /\
    ((forall mn, 0 <= mn < mns -> i <> w mn) -> r q i = row q i).
  Proof.
    intros W. induction l as [|a l IH] using rev_ind; intros row q i r.
    - split; [intros ? ? []|intros; reflexivity].
    - subst r. rewrite fold_left_app. cbn [fold_left].
      set (row1 := fold_left _ l row).
      assert (L : forall q' i', 
        (forall mn, 0 <= mn < mns -> q' = a -> for_up 0 mns (fun mn row => upd2 row a (w mn) (src a mn)) row1 q' (w mn) = src a mn) /\
        ((q' <> a \/ forall mn, 0 <= mn < mns -> i' <> w mn) ->
           for_up 0 mns (fun mn row => upd2 row a (w mn) (src a mn)) row1 q' i' = row1 q' i')).
      { intros q' i'.
        destruct (loop_map (fun (s : Z -> Z -> K) i => s a i)
          (fun mn row => upd2 row a (w mn) (src a mn)) w (fun mn _ => src a mn) 0 mns row1 W) as [A1 A2].
        - intros. unfold upd2. rewrite !Z.eqb_refl. reflexivity.
        - intros j s i2 Hj Hi. unfold upd2. destruct (Z.eqb_spec i2 (w j)); [contradiction|].
          rewrite andb_false_r. reflexivity.
        - split.
          + intros mn Hmn ->. apply A1. exact Hmn.
          + intros Hor. destruct (Z.eq_dec q' a) as [-> | Hq].
            * destruct Hor as [Hor|Hor]; [congruence|]. apply A2. exact Hor.
            * apply (for_up_ind (fun _ (s : Z -> Z -> K) => s q' i' = row1 q' i')); [apply mns_nonneg|reflexivity|].
              intros j s Hj E. unfold upd2. destruct (Z.eqb_spec q' a); [contradiction|]. exact E. }
      split.
      + intros mn Hmn I. destruct (Z.eq_dec q a) as [-> | Hq].
        * apply (L a (w mn)); auto.
        * destruct (L q (w mn)) as [_ L2]. rewrite L2 by (left; exact Hq).
          apply in_app_or in I. destruct I as [I|[I|[]]]; [|congruence].
          apply (IH row q (w mn)); assumption.
      + intros Hi. destruct (L q i) as [_ L2]. rewrite L2 by (right; exact Hi).
        apply (IH row q i). exact Hi.
  Qed.

  Lemma put_row_get (x row : Z -> Z -> K) k q mn : In q sets -> 0 <= mn < mns ->
    put_row mpol ntor sets x row k q mn = x q (k * mns + mn).
  Proof.
    intros Hq Hmn. apply (row_loop (fun mn => mn) (fun q mn => x q (k * mns + mn)) ltac:(auto) sets row q 0); auto.
  Qed.

  Lemma get_row_get (row x : Z -> Z -> K) k q mn : In q sets -> 0 <= mn < mns ->
    get_row mpol ntor sets row x k q (k * mns + mn) = row q mn.
  Proof.
    intros Hq Hmn.
    apply (row_loop (fun mn => k * mns + mn) (fun q mn => row q mn) (fun a b _ _ E => Z.add_reg_l _ _ _ E) sets x q 0); auto.
  Qed.

  Lemma get_row_other (row x : Z -> Z -> K) k k' q mn : k' <> k -> 0 <= mn < mns ->
    get_row mpol ntor sets row x k q (k' * mns + mn) = x q (k' * mns + mn).
  Proof.
    intros Hk Hmn.
    apply (row_loop (fun mn => k * mns + mn) (fun q mn => row q mn) (fun a b _ _ E => Z.add_reg_l _ _ _ E) sets x q (k' * mns + mn)).
    intros mn' Hmn' E. apply flat_inj in E; lia.
  Qed.
End P.

(** Programs made of commuting pieces separated by barriers. *)
Section Race.
  Context {S : Type} (T : Z).
  Definition commutes (f g : Z -> S -> S) : Prop :=
    forall t u s, 0 <= t < T -> 0 <= u < T -> t <> u -> f t (g u s) = g u (f t s).

  Lemma race_free_all (l : list (instr S)) :
    (forall f g, In (ICritical f) l -> In (ICritical g) l -> commutes f g) -> race_free l T.
  Proof.
    intros H k k' f g _ Hk Hk' _ t u s Ht Hu Htu.
    apply (H f g); auto; eapply nth_error_In; eauto.
  Qed.

  Lemma race_free_app (a b : list (instr S)) : race_free a T -> race_free (IBarrier :: b) T ->
    race_free (a ++ IBarrier :: b) T.
  Proof.
    intros Ha Hb k k' f g Hkk Hk Hk' Hn t u s Ht Hu Htu.
    destruct (Nat.lt_ge_cases k' (length a)) as [L'|L'].
    - rewrite nth_error_app1 in Hk by lia. rewrite nth_error_app1 in Hk' by lia.
      apply (Ha k k' f g Hkk Hk Hk'); auto. intros j Hj. specialize (Hn j Hj).
      rewrite nth_error_app1 in Hn by lia. exact Hn.
    - rewrite nth_error_app2 in Hk' by lia.
      destruct (Nat.lt_ge_cases k (length a)) as [L|L].
      + exfalso. destruct (Nat.eq_dec k' (length a)) as [E|E].
        * subst k'. rewrite Nat.sub_diag in Hk'. discriminate.
        * apply (Hn (length a)); [lia|]. rewrite nth_error_app2 by lia. rewrite Nat.sub_diag. reflexivity.
      + rewrite nth_error_app2 in Hk by lia.
        apply (Hb (k - length a)%nat (k' - length a)%nat f g ltac:(lia) Hk Hk'); auto.
        intros j Hj. specialize (Hn (length a + j)%nat ltac:(lia)).
        rewrite nth_error_app2 in Hn by lia. replace (length a + j - length a)%nat with j in Hn by lia.
        exact Hn.
  Qed.
End Race.
