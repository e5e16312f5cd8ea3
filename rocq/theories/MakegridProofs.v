From Coq Require Import ZArith Reals List Bool Lia Lra Psatz Permutation.
From Verif Require Import Base BaseLemmas GridLemmas Num MgridModel MgridSpec MgridProofs MgridMore MgridFinal MakegridModel MakegridSpec.
Import ListNotations.
Open Scope Z_scope.

(** ** Loops. *)
Lemma grid3 {A} nphi nz nr (v : Z -> Z -> Z -> A) g0 : 0 <= nphi -> 0 <= nz -> 0 <= nr ->
  forall p j i, 0 <= p < nphi -> 0 <= j < nz -> 0 <= i < nr ->
    for_up 0 nphi (fun p g => for_up 0 nz (fun j g => for_up 0 nr (fun i g => upd g ((p * nz + j) * nr + i) (v p j i)) g) g) g0
      ((p * nz + j) * nr + i) = v p j i.
Proof.
  intros Hp Hz Hr.
  set (good := fun g p j i => g ((p * nz + j) * nr + i) = v p j i).
  assert (keep : forall g p j i p' j' i', 0 <= j < nz -> 0 <= i < nr -> 0 <= j' < nz -> 0 <= i' < nr ->
    good g p j i -> good (upd g ((p' * nz + j') * nr + i') (v p' j' i')) p j i).
  { intros g p j i p' j' i' Hj Hi Hj' Hi' G. unfold good, upd.
    destruct (Z.eqb_spec ((p * nz + j) * nr + i) ((p' * nz + j') * nr + i')) as [E|E]; [|exact G].
    apply at_inj in E; try assumption. destruct E as (-> & -> & ->). reflexivity. }
  assert (inner : forall p' j' g, 0 <= j' < nz ->
    let g' := for_up 0 nr (fun i g => upd g ((p' * nz + j') * nr + i) (v p' j' i)) g in
    (forall i, 0 <= i < nr -> good g' p' j' i) /\ (forall p j i, 0 <= j < nz -> 0 <= i < nr -> good g p j i -> good g' p j i)).
  { intros p' j' g Hj' g'. unfold g'.
    apply (for_up_ind (fun m g' => (forall i, 0 <= i < m -> good g' p' j' i) /\ (forall p j i, 0 <= j < nz -> 0 <= i < nr -> good g p j i -> good g' p j i))); [lia| |].
    - split; [intros; lia|auto].
    - intros m s Hm (A1 & A2). split.
      + intros i Hi. destruct (Z.eq_dec i m) as [->|N]; [unfold good; apply upd_eq|]. apply keep; try lia. apply A1. lia.
      + intros p j i Hj Hi G. apply keep; try lia. apply A2; assumption. }
  assert (mid : forall p' g,
    let g' := for_up 0 nz (fun j g => for_up 0 nr (fun i g => upd g ((p' * nz + j) * nr + i) (v p' j i)) g) g in
    (forall j i, 0 <= j < nz -> 0 <= i < nr -> good g' p' j i) /\ (forall p j i, 0 <= j < nz -> 0 <= i < nr -> good g p j i -> good g' p j i)).
  { intros p' g g'. unfold g'.
    apply (for_up_ind (fun m g' => (forall j i, 0 <= j < m -> 0 <= i < nr -> good g' p' j i) /\ (forall p j i, 0 <= j < nz -> 0 <= i < nr -> good g p j i -> good g' p j i))); [lia| |].
    - split; [intros; lia|auto].
    - intros m s Hm (A1 & A2). destruct (inner p' m s Hm) as (B1 & B2). cbv zeta in B1, B2. split.
      + intros j i Hj Hi. destruct (Z.eq_dec j m) as [->|N]; [apply B1; assumption|]. apply B2; try lia. apply A1; lia.
      + intros p j i Hj Hi G. apply B2; try lia. apply A2; assumption. }
  intros p j i H1 H2 H3. revert p j i H1 H2 H3.
  apply (for_up_ind (fun m g' => forall p j i, 0 <= p < m -> 0 <= j < nz -> 0 <= i < nr -> g' ((p * nz + j) * nr + i) = v p j i)); [lia|intros; lia|].
  intros m s Hm AA p j i Hpm Hj Hi. destruct (mid m s) as (B1 & B2). cbv zeta in B1, B2.
  destruct (Z.eq_dec p m) as [->|N]; [apply B1; assumption|]. apply B2; try assumption. apply AA; lia.
Qed.

(** A parallel loop over three rows that writes position [l] from position
    [src l], none of the sources being written by the loop: every order of the
    iterations gives the same result. *)
Lemma par_rows {K : num} order (src : Z -> Z) (fr fp fz : Z -> K -> K) (o : row3 K) :
  (forall l, In l order -> ~ In (src l) order) ->
  let o' := par_for order (fun l o => match o with (br, bp, bz) =>
     (upd br l (fr l (br (src l))), upd bp l (fp l (bp (src l))), upd bz l (fz l (bz (src l)))) end) o in
  forall l,
    (In l order -> fst (fst o') l = fr l (fst (fst o) (src l)) /\ snd (fst o') l = fp l (snd (fst o) (src l)) /\ snd o' l = fz l (snd o (src l))) /\
    (~ In l order -> fst (fst o') l = fst (fst o) l /\ snd (fst o') l = snd (fst o) l /\ snd o' l = snd o l).
Proof.
  intros H o' l. unfold o', par_for. clear o'.
  match goal with |- context [fold_left ?g order o] => set (f := g) end.
  assert (G : forall done todo s, (forall a, In a todo -> In a order) -> (forall a, In a done -> In a order) ->
    (forall a, In a done -> fst (fst s) a = fr a (fst (fst o) (src a)) /\ snd (fst s) a = fp a (snd (fst o) (src a)) /\ snd s a = fz a (snd o (src a))) ->
    (forall a, ~ In a done -> fst (fst s) a = fst (fst o) a /\ snd (fst s) a = snd (fst o) a /\ snd s a = snd o a) ->
    let r := fold_left f todo s in
    (forall a, In a done \/ In a todo -> fst (fst r) a = fr a (fst (fst o) (src a)) /\ snd (fst r) a = fp a (snd (fst o) (src a)) /\ snd r a = fz a (snd o (src a))) /\
    (forall a, ~ (In a done \/ In a todo) -> fst (fst r) a = fst (fst o) a /\ snd (fst r) a = snd (fst o) a /\ snd r a = snd o a)).
  { intros done todo. revert done. induction todo as [|x t IH]; intros done s Ht Hd A B; cbn [fold_left].
    - split; intros a Ha; [apply A; destruct Ha as [|[]]; assumption|apply B; tauto].
    - destruct (IH (x :: done) (f s x)) as (C & D).
      + intros a Ha. apply Ht. right. exact Ha.
      + intros a [<-|Ha]; [apply Ht; left; reflexivity|auto].
      + intros a Ha. destruct s as [[br bp] bz]. unfold f. cbn [fst snd] in *.
        destruct (Z.eq_dec a x) as [->|N].
        * rewrite !upd_eq. destruct (B (src x)) as (-> & -> & ->); [|auto].
          intros Hin. apply (H x); [apply Ht; left; reflexivity|apply Hd; exact Hin].
        * rewrite !upd_neq by exact N. apply A. destruct Ha as [E|]; [congruence|assumption].
      + intros a Ha. destruct s as [[br bp] bz]. unfold f. cbn [fst snd] in *.
        assert (a <> x) by (intros ->; apply Ha; left; reflexivity).
        rewrite !upd_neq by assumption. apply B. intros Hin. apply Ha. right. exact Hin.
      + cbv zeta in C, D. split; intros a Ha.
        * apply C. cbn [In] in *. tauto.
        * apply D. cbn [In] in *. tauto. }
  destruct (G [] order o) as (C & D); [auto|intros a []|intros a []|auto|]. cbv zeta in C, D.
  split; intros Hl; [apply C; right; exact Hl|apply D; intros [[]|]; auto].
Qed.

Lemma quot_parts nz nr p j i : 0 <= p -> 0 <= j < nz -> 0 <= i < nr ->
  let l := (p * nz + j) * nr + i in
  Z.quot l (nz * nr) = p /\ Z.quot (Z.rem l (nz * nr)) nr = j /\ Z.rem (Z.rem l (nz * nr)) nr = i.
Proof.
  intros Hp Hj Hi l. assert (Hn : 0 < nz * nr) by nia. assert (Hl : 0 <= l) by (unfold l; nia).
  assert (Hs : 0 <= j * nr + i < nz * nr) by nia.
  assert (E : l = nz * nr * p + (j * nr + i)) by (unfold l; ring).
  rewrite Z.quot_div_nonneg, Z.rem_mod_nonneg by lia.
  assert (D : l / (nz * nr) = p) by (symmetry; apply (Z.div_unique l (nz * nr) p (j * nr + i)); lia).
  assert (R : l mod (nz * nr) = j * nr + i) by (symmetry; apply (Z.mod_unique l (nz * nr) p (j * nr + i)); lia).
  rewrite D, R. split; [reflexivity|]. rewrite Z.quot_div_nonneg, Z.rem_mod_nonneg by lia.
  split; symmetry; [apply (Z.div_unique _ nr j i)|apply (Z.mod_unique _ nr j i)]; lia.
Qed.

(** ** Any arithmetic. *)
Section Any.
  Context {K : num}.

  (** Orders in which OpenMP may run a loop. *)
  Definition order_of (lo hi : Z) (order : list Z) : Prop := Permutation order (zrange lo hi).

  Lemma order_In lo hi order l : order_of lo hi order -> In l order <-> lo <= l < hi.
  Proof.
    intros P. rewrite <- zrange_In. split; apply Permutation_in; [exact P|apply Permutation_sym; exact P].
  Qed.

  Lemma cyl_field (c s : Z -> K) nphi nz nr npe (B : Z -> vec K) o1 o2 o :
    0 < nz -> 0 < nr -> 0 <= npe <= nphi -> order_of 0 (npe * nz * nr) o1 -> order_of (npe * nz * nr) (nphi * nr * nz) o2 ->
    (npe < nphi -> forall k, npe <= k < nphi -> 0 <= nphi - k < npe) ->
    let r := CartesianToCylindricalField c s nphi nz nr (npe * nz * nr) B o1 o2 o in
    let at3 k j i := (k * nz + j) * nr + i in
    (forall k j i, 0 <= k < npe -> 0 <= j < nz -> 0 <= i < nr ->
       let b := B (at3 k j i) in
       fst (fst r) (at3 k j i) = nadd (nmul (vx b) (c k)) (nmul (vy b) (s k)) /\
       snd (fst r) (at3 k j i) = nsub (nmul (vy b) (c k)) (nmul (vx b) (s k)) /\
       snd r (at3 k j i) = vz b) /\
    (forall k j i, npe <= k < nphi -> 0 <= j < nz -> 0 <= i < nr ->
       let l' := at3 (nphi - k) (nz - 1 - j) i in
       0 <= l' < npe * nz * nr /\
       fst (fst r) (at3 k j i) = nsub (nZ 0) (fst (fst r) l') /\
       snd (fst r) (at3 k j i) = snd (fst r) l' /\
       snd r (at3 k j i) = snd r l').
  Proof.
    intros Hz Hr Hnp O1 O2 Mir r at3.
    assert (Er : r = CartesianToCylindricalField c s nphi nz nr (npe * nz * nr) B o1 o2 o) by reflexivity.
    clearbody r. unfold CartesianToCylindricalField in Er.
    pose proof (fun l => order_In _ _ _ l O1) as I1. pose proof (fun l => order_In _ _ _ l O2) as I2.
    match type of Er with context [par_for o1 ?g o] => set (a := par_for o1 g o) in Er end.
    assert (A : forall l, (0 <= l < npe * nz * nr -> fst (fst a) l = nadd (nmul (vx (B l)) (c (Z.quot l (nz * nr)))) (nmul (vy (B l)) (s (Z.quot l (nz * nr)))) /\
                                       snd (fst a) l = nsub (nmul (vy (B l)) (c (Z.quot l (nz * nr)))) (nmul (vx (B l)) (s (Z.quot l (nz * nr)))))).
    { unfold a, par_for. clear r Er a.
      match goal with |- context [fold_left ?g o1 o] => set (f := g) end.
      assert (G : forall todo st, let x := fold_left f todo st in forall l,
         (In l todo \/ (fst (fst st) l = nadd (nmul (vx (B l)) (c (Z.quot l (nz * nr)))) (nmul (vy (B l)) (s (Z.quot l (nz * nr)))) /\
                        snd (fst st) l = nsub (nmul (vy (B l)) (c (Z.quot l (nz * nr)))) (nmul (vx (B l)) (s (Z.quot l (nz * nr)))))) ->
         fst (fst x) l = nadd (nmul (vx (B l)) (c (Z.quot l (nz * nr)))) (nmul (vy (B l)) (s (Z.quot l (nz * nr)))) /\
         snd (fst x) l = nsub (nmul (vy (B l)) (c (Z.quot l (nz * nr)))) (nmul (vx (B l)) (s (Z.quot l (nz * nr))))).
      { induction todo as [|y t IH]; intros st x l Hl; cbn [fold_left] in x; [destruct Hl as [[]|Hl]; exact Hl|].
        apply IH. destruct (Z.eq_dec l y) as [->|N].
        - right. destruct st as [[br bp] bz]. unfold f. cbn [fst snd]. rewrite !upd_eq. auto.
        - destruct Hl as [[E|Hin]|Hl]; [congruence|left; exact Hin|right].
          destruct st as [[br bp] bz]. unfold f. cbn [fst snd] in *. rewrite !upd_neq by exact N. exact Hl. }
      intros l Hl. apply G. left. apply I1. exact Hl. }
    clearbody a. destruct a as [[ar ap] az]. cbn [fst snd] in A.
    match type of Er with context [for_up 0 (npe * nz * nr) ?g az] => set (bz := for_up 0 (npe * nz * nr) g az) in Er end.
    assert (Bz : forall l, 0 <= l < npe * nz * nr -> bz l = vz (B l)).
    { intros l Hl. unfold bz.
      pose proof (loop_map (S := Z -> K) (A := K) (fun s i => s i) (fun l bz => upd bz l (vz (B l))) (fun l => l) (fun l _ => vz (B l)) 0 (npe * nz * nr) az) as (L & _).
      - intros; assumption.
      - intros; apply upd_eq.
      - intros; apply upd_neq; assumption.
      - apply L. exact Hl. }
    clearbody bz.
    set (m := (ar, ap, bz) : row3 K) in Er.
    assert (R : (forall l, 0 <= l < npe * nz * nr -> fst (fst r) l = fst (fst m) l /\ snd (fst r) l = snd (fst m) l /\ snd r l = snd m l) /\
      (forall k j i, npe <= k < nphi -> 0 <= j < nz -> 0 <= i < nr ->
       let l' := at3 (nphi - k) (nz - 1 - j) i in
       0 <= l' < npe * nz * nr /\ fst (fst r) (at3 k j i) = nsub (nZ 0) (fst (fst m) l') /\ snd (fst r) (at3 k j i) = snd (fst m) l' /\ snd r (at3 k j i) = snd m l')).
    { cbn [fst snd] in Er. destruct (npe * nz * nr <? nphi * nr * nz) eqn:Lt.
      - set (src := fun l => (( nphi - Z.quot l (nz * nr)) * nz + (nz - 1 - Z.quot (Z.rem l (nz * nr)) nr)) * nr + Z.rem (Z.rem l (nz * nr)) nr).
        assert (Dis : forall l, In l o2 -> ~ In (src l) o2 /\ 0 <= src l < npe * nz * nr).
        { intros l Hl. apply I2 in Hl. apply Z.ltb_lt in Lt.
          destruct (index_split nphi nz nr l ltac:(lia) ltac:(lia) ltac:(lia) ltac:(nia)) as (k & j & i & Hk & Hj & Hi & E).
          assert (E' : l = (k * nz + j) * nr + i) by (rewrite E; unfold at_; ring).
          destruct (quot_parts nz nr k j i ltac:(lia) Hj Hi) as (Q1 & Q2 & Q3). cbv zeta in Q1, Q2, Q3.
          assert (Kge : npe <= k). { destruct (Z_lt_le_dec k npe) as [Hlt|]; [|assumption]. exfalso. assert (k * nz + j < npe * nz) by nia. nia. }
          pose proof (Mir ltac:(nia) k ltac:(lia)) as Mk.
          assert (S : src l = at3 (nphi - k) (nz - 1 - j) i) by (unfold src, at3; rewrite E', Q1, Q2, Q3; reflexivity).
          assert (Rg : 0 <= src l < npe * nz * nr) by (rewrite S; unfold at3; apply plane_bound; lia).
          split; [|exact Rg]. intros Hin. apply I2 in Hin. lia. }
        assert (P : forall l,
          (In l o2 -> fst (fst r) l = nsub (nZ 0) (fst (fst m) (src l)) /\ snd (fst r) l = snd (fst m) (src l) /\ snd r l = snd m (src l)) /\
          (~ In l o2 -> fst (fst r) l = fst (fst m) l /\ snd (fst r) l = snd (fst m) l /\ snd r l = snd m l)).
        { intros l. rewrite Er. exact (par_rows o2 src (fun _ x => nsub (nZ 0) x) (fun _ x => x) (fun _ x => x) m (fun l Hl => proj1 (Dis l Hl)) l). }
        split.
        + intros l Hl. apply (P l). intros Hin. apply I2 in Hin. lia.
        + intros k j i Hk Hj Hi. cbv zeta.
          assert (Hin : In (at3 k j i) o2).
          { apply I2. unfold at3. pose proof (plane_bound nphi nz nr k j i ltac:(lia) Hj Hi). pose proof (Z.mul_le_mono_nonneg_r npe k nz ltac:(lia) ltac:(lia)). assert (npe * nz <= k * nz + j) by lia. replace (nphi * nr * nz) with (nphi * nz * nr) by ring. split; [nia|lia]. }
          destruct (quot_parts nz nr k j i ltac:(lia) Hj Hi) as (Q1 & Q2 & Q3). cbv zeta in Q1, Q2, Q3.
          assert (S : src (at3 k j i) = at3 (nphi - k) (nz - 1 - j) i) by (unfold src, at3; rewrite Q1, Q2, Q3; reflexivity).
          rewrite <- S. split; [apply (Dis _ Hin)|]. apply (P (at3 k j i)). exact Hin.
      - apply Z.ltb_ge in Lt. rewrite Er. split; [intros; auto|]. intros k j i Hk Hj Hi. exfalso. assert (0 < nz * nr) by nia. pose proof (Zmult_lt_compat_r npe nphi (nz * nr) ltac:(lia) ltac:(lia)). lia. }
    destruct R as (R1 & R2). split.
    - intros k j i Hk Hj Hi. cbv zeta. pose proof (plane_bound npe nz nr k j i Hk Hj Hi) as Rg. fold (at3 k j i) in Rg.
      destruct (R1 _ Rg) as (-> & -> & ->). unfold m. cbn [fst snd].
      destruct (A _ Rg) as (-> & ->). rewrite (Bz _ Rg).
      destruct (quot_parts nz nr k j i ltac:(lia) Hj Hi) as (Q1 & _). cbv zeta in Q1. unfold at3. rewrite Q1. auto.
    - intros k j i Hk Hj Hi. cbv zeta. destruct (R2 k j i Hk Hj Hi) as (Rg & -> & -> & ->).
      destruct (R1 _ Rg) as (-> & -> & ->). auto.
  Qed.
End Any.
