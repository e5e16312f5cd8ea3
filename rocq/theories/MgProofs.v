From Coq Require Import ZArith List Bool Lia.
From Verif Require Import Base BaseLemmas GridLemmas Num PartModel PartSpec PartProofs
  ReduceModel ReduceProps StepModel StepSpec StepProofs StepTeam MgModel.
Import ListNotations.
Open Scope Z_scope.

Lemma fold_flat {A B S} (f : S -> B -> S) (g : A -> list B) l : forall s,
  fold_left (fun s a => fold_left f (g a) s) l s = fold_left f (flat_map g l) s.
Proof. induction l as [|a l IH]; intros s; [reflexivity|]. cbn. rewrite fold_left_app. apply IH. Qed.

Lemma fold_map {A B S} (f : S -> B -> S) (g : A -> B) l : forall s,
  fold_left (fun s a => f s (g a)) l s = fold_left f (map g l) s.
Proof. induction l as [|a l IH]; intros s; [reflexivity|]. cbn. apply IH. Qed.

Lemma fold_ext' {A B} (f g : A -> B -> A) l : (forall a b, In b l -> f a b = g a b) ->
  forall a, fold_left f l a = fold_left g l a.
Proof.
  induction l as [|x l IH]; intros E a; [reflexivity|].
  cbn. rewrite E by (left; reflexivity). apply IH. intros; apply E; right; assumption.
Qed.

(** A sequence of assignments to distinct cells whose right-hand sides read only
    cells that are never assigned. *)
Lemma cells_fold {X Key V A} (eqd : forall a b : Key, {a = b} + {a <> b})
    (get : X -> Key -> V) (key : A -> Key) (val : A -> (Key -> V) -> V) (body : A -> X -> X)
    (prot : Key -> Prop) (L : list A) (x0 : X) :
  (forall c x, In c L -> get (body c x) (key c) = val c (get x)) ->
  (forall c x k, In c L -> k <> key c -> get (body c x) k = get x k) ->
  (forall c, In c L -> ~ prot (key c)) ->
  (forall c g1 g2, In c L -> (forall k, prot k -> g1 k = g2 k) -> val c g1 = val c g2) ->
  let r := fold_left (fun x c => body c x) L x0 in
  (forall c, In c L -> (forall c', In c' L -> key c' = key c -> c' = c) ->
     get r (key c) = val c (get x0)) /\
  (forall k, (forall c, In c L -> k <> key c) -> get r k = get x0 k).
Proof.
  intros H1 H2 H3 H4. cbv zeta. induction L as [|a L IH] using rev_ind.
  - split; [intros ? []|reflexivity].
  - assert (HL : forall c, In c L -> In c (L ++ [a])) by (intros; apply in_or_app; auto).
    assert (Ha : In a (L ++ [a])) by (apply in_or_app; right; left; reflexivity).
    destruct IH as [I1 I2]; [intros; apply H1; auto|intros; apply H2; auto|intros; apply H3; auto
      |intros; apply H4; auto|].
    rewrite fold_left_app. cbn [fold_left]. split.
    + intros c Hc U. destruct (eqd (key c) (key a)) as [E|E].
      * assert (a = c) by (apply U; auto). subst c. rewrite H1 by assumption.
        apply H4; [assumption|]. intros k Pk. apply I2. intros c Hc' Ek.
        subst k. exact (H3 c (HL c Hc') Pk).
      * rewrite H2 by assumption. apply in_app_or in Hc. destruct Hc as [Hc|[->|[]]]; [|congruence].
        apply I1; [assumption|]. intros c' Hc' E'. apply U; auto.
    + intros k Hk. rewrite H2 by (try apply Hk; assumption). apply I2. intros c Hc. apply Hk. auto.
Qed.

Definition key_dec (a b : Z * Z * Z) : {a = b} + {a <> b}.
Proof. decide equality; [apply Z.eq_dec|]. decide equality; apply Z.eq_dec. Defined.

Section P.
  Context {K : num} (nsqrt : K -> K) (mpol ntor : Z) (sets : list Z).
  Hypothesis Hmpol : 0 <= mpol.
  Hypothesis Hntor : 0 <= ntor.
  Hypothesis Hsets : NoDup sets.
  Context (ns_old ns_new T_old T_new : Z) (lf_old lf_new : bool) (r_old r_new : Z -> rpart).
  Hypothesis Hold : is_partition ns_old T_old lf_old r_old.
  Hypothesis Hnew : is_partition ns_new T_new lf_new r_new.
  Hypothesis Hns_old : 3 <= ns_old.
  Hypothesis Hns_new : 3 <= ns_new.

  Local Notation idx := (idx_fc mpol ntor).

  Lemma Hn1 : 0 <= ntor + 1. Proof. lia. Qed.
  Let Fold := facts mpol ntor ns_old lf_old T_old r_old Hold.
  Let Fnew := facts mpol ntor ns_new lf_new T_new r_new Hnew.

  Lemma idx_inj r j m n j' m' n' : 0 <= m < mpol -> 0 <= m' < mpol -> 0 <= n <= ntor -> 0 <= n' <= ntor ->
    idx r j m n = idx r j' m' n' -> j = j' /\ m = m' /\ n = n'.
  Proof.
    intros Hm Hm' Hn Hn' E. unfold idx_fc in E.
    apply flat_inj in E; [|lia|lia]. destruct E as [E ->].
    apply flat_inj in E; [|lia|lia]. lia.
  Qed.

  (** The cells of the odd-m axis loops. *)
  Definition odd_cells : list (Z * Z * Z) :=
    flat_map (fun m => if Z.odd m then
        flat_map (fun n => map (fun q => (m, n, q)) sets) (zrange 0 (ntor + 1)) else [])
      (zrange 0 mpol).

  Lemma odd_cells_In m n q : In (m, n, q) odd_cells <->
    0 <= m < mpol /\ Z.odd m = true /\ 0 <= n <= ntor /\ In q sets.
  Proof.
    unfold odd_cells. rewrite in_flat_map. split.
    - intros (m' & Hm' & H). apply zrange_In in Hm'.
      destruct (Z.odd m') eqn:O; [|destruct H].
      apply in_flat_map in H. destruct H as (n' & Hn' & H). apply zrange_In in Hn'.
      apply in_map_iff in H. destruct H as (q' & E & Hq). injection E as -> -> ->. 
      repeat split; auto; lia.
    - intros (Hm & O & Hn & Hq). exists m. split; [apply zrange_In; exact Hm|]. rewrite O.
      apply in_flat_map. exists n. split; [apply zrange_In; lia|]. apply in_map_iff. exists q. auto.
  Qed.

  Lemma odd_loop {X} (body : Z -> Z -> Z -> X -> X) (x : X) :
    for_up 0 mpol (fun m x => if Z.odd m then
        for_up 0 (ntor + 1) (fun n x => fold_left (fun x q => body m n q x) sets x) x else x) x
    = fold_left (fun x c => body (fst (fst c)) (snd (fst c)) (snd c) x) odd_cells x.
  Proof.
    unfold odd_cells, for_up. rewrite <- fold_flat. apply fold_ext'. intros x1 m Hm.
    destruct (Z.odd m); [|reflexivity].
    rewrite <- fold_flat. apply fold_ext'. intros x2 n Hn.
    rewrite <- fold_map. reflexivity.
  Qed.

  (** [thread_with] is the owner; [source_thread] holds the surface. *)
  Lemma last_spec (P : Z -> bool) T : 0 <= T ->
    let r := for_up 0 T (fun t acc => if P t then t else acc) 0 in
    (exists t, 0 <= t < T /\ P t = true) -> 0 <= r < T /\ P r = true.
  Proof.
    intros HT. cbv zeta.
    assert (G : (exists t, 0 <= t < T /\ P t = true) ->
      0 <= for_up 0 T (fun t acc => if P t then t else acc) 0 < T /\
      P (for_up 0 T (fun t acc => if P t then t else acc) 0) = true); [|exact G].
    apply (for_up_ind (fun m r => (exists t, 0 <= t < m /\ P t = true) -> 0 <= r < m /\ P r = true)); [lia| |].
    - intros (t & Ht & _). lia.
    - intros m acc Hm IH (t & Ht & Pt). destruct (P m) eqn:E; [split; [lia|exact E]|].
      destruct (Z.eq_dec t m) as [-> |]; [congruence|].
      destruct IH as [I1 I2]; [exists t; split; [lia|exact Pt]|]. split; [lia|exact I2].
  Qed.

  Lemma Told : 1 <= T_old.
  Proof. apply Hold. Qed.

  Lemma thread_with_ok j : 0 <= j < ns_old ->
    0 <= thread_with T_old r_old j < T_old /\ owns r_old (thread_with T_old r_old j) j.
  Proof.
    intros Hj. pose proof Told.
    destruct (owner_exists ns_old lf_old T_old r_old Hold j Hj) as (u & Hu & Ho).
    destruct (last_spec (fun t => (nsMinF (r_old t) <=? j) && (j <? nsMaxFIncludingLcfs (r_old t))) T_old)
      as [A B]; [lia| |].
    - exists u. split; [exact Hu|]. apply andb_true_iff. rewrite Z.leb_le, Z.ltb_lt. lia.
    - split; [exact A|]. apply andb_true_iff in B. rewrite Z.leb_le, Z.ltb_lt in B. exact B.
  Qed.

  Lemma source_thread_ok j : 0 <= j < ns_old ->
    let t := source_thread T_old r_old j in
    0 <= t < T_old /\ nsMinF1 (r_old t) <= j < nsMaxF1 (r_old t).
  Proof.
    intros Hj. pose proof Told.
    destruct (owner_exists ns_old lf_old T_old r_old Hold j Hj) as (u & Hu & Ho).
    pose proof (held_owned mpol ntor ns_old lf_old T_old r_old Hold u j Hu Ho) as Hh.
    destruct (last_spec (fun t => (nsMinF1 (r_old t) <=? j) && (j <? nsMaxF1 (r_old t))) T_old)
      as [A B]; [lia| |].
    - exists u. split; [exact Hu|]. apply andb_true_iff. rewrite Z.leb_le, Z.ltb_lt. lia.
    - split; [exact A|]. apply andb_true_iff in B. rewrite Z.leb_le, Z.ltb_lt in B. exact B.
  Qed.

  Lemma axis_thread : thread_with T_old r_old 0 = 0.
  Proof.
    pose proof Told. destruct (thread_with_ok 0 ltac:(lia)) as [Ht Ho].
    apply (owner_unique mpol ntor ns_old lf_old T_old r_old Hold _ 0 0); auto; [lia|].
    pose proof (Fold 0 ltac:(lia)) as F. unfold owns. lia.
  Qed.

  Lemma axis_held t : 0 <= t < T_old -> nsMinF1 (r_old t) <= 0 -> t = 0.
  Proof.
    intros Ht H. pose proof (Fold t Ht) as F. destruct (Z.eqb_spec t 0); lia.
  Qed.
  Lemma axis_held_new t : 0 <= t < T_new -> nsMinF1 (r_new t) <= 0 -> t = 0.
  Proof.
    intros Ht H. pose proof (Fnew t Ht) as F. destruct (Z.eqb_spec t 0); lia.
  Qed.
  Lemma old_min0 : nsMinF1 (r_old 0) = 0.
  Proof. pose proof Told. pose proof (Fold 0 ltac:(lia)) as F. rewrite Z.eqb_refl in F. lia. Qed.
  Lemma Tnew : 1 <= T_new.
  Proof. apply Hnew. Qed.
  Lemma new_min0 : nsMinF1 (r_new 0) = 0.
  Proof. pose proof Tnew. pose proof (Fnew 0 ltac:(lia)) as F. rewrite Z.eqb_refl in F. lia. Qed.

  (** Coarse data with the axis values of odd m replaced. *)
  Definition gax (g : Z -> Z -> Z -> Z -> K) (q j m n : Z) : K :=
    if Z.odd m && (j =? 0) then nsub (nmul (nZ 2) (g q 1 m n)) (g q 2 m n) else g q j m n.

  (** Every stored surface of the coarse grid holds the common value. *)
  Definition holds (T : Z) (r : Z -> rpart) (x : Z -> Z -> Z -> K) (g : Z -> Z -> Z -> Z -> K) : Prop :=
    forall t j q m n, 0 <= t < T -> nsMinF1 (r t) <= j < nsMaxF1 (r t) -> In q sets ->
      0 <= m < mpol -> 0 <= n <= ntor -> x t q (idx (r t) j m n) = g q j m n.

  Lemma extrapolate_ok x g : holds T_old r_old x g ->
    holds T_old r_old (extrapolate_axis mpol ntor sets T_old r_old x) (gax g).
  Proof.
    intros H. unfold extrapolate_axis. rewrite axis_thread.
    set (t1 := thread_with T_old r_old 1). set (t2 := thread_with T_old r_old 2).
    pose proof Told as HT.
    destruct (thread_with_ok 1 ltac:(lia)) as [Ht1 Ho1]. fold t1 in Ht1, Ho1.
    destruct (thread_with_ok 2 ltac:(lia)) as [Ht2 Ho2]. fold t2 in Ht2, Ho2.
    pose proof (held_owned mpol ntor ns_old lf_old T_old r_old Hold t1 1 Ht1 Ho1) as Hh1.
    pose proof (held_owned mpol ntor ns_old lf_old T_old r_old Hold t2 2 Ht2 Ho2) as Hh2.
    set (body := fun (m n q : Z) (x : Z -> Z -> Z -> K) =>
      upd x 0 (upd2 (x 0) q (idx (r_old 0) 0 m n)
              (nsub (nmul (nZ 2) (x t1 q (idx (r_old t1) 1 m n))) (x t2 q (idx (r_old t2) 2 m n))))).
    change (holds T_old r_old (for_up 0 mpol (fun m x => if Z.odd m then
        for_up 0 (ntor + 1) (fun n x => fold_left (fun x q => body m n q x) sets x) x else x) x) (gax g)).
    rewrite odd_loop.
    set (get := fun (x : Z -> Z -> Z -> K) (k : Z * Z * Z) => x (fst (fst k)) (snd (fst k)) (snd k)).
    set (key := fun c : Z * Z * Z => (0, snd c, idx (r_old 0) 0 (fst (fst c)) (snd (fst c)))).
    set (val := fun (c : Z * Z * Z) (g : Z * Z * Z -> K) =>
      let '(m, n, q) := c in
      nsub (nmul (nZ 2) (g (t1, q, idx (r_old t1) 1 m n))) (g (t2, q, idx (r_old t2) 2 m n))).
    set (prot := fun k : Z * Z * Z => exists j q m n t, (j = 1 \/ j = 2) /\ 0 <= m < mpol /\ 0 <= n <= ntor /\
       k = (t, q, idx (r_old t) j m n)).
    destruct (cells_fold key_dec get key val (fun c x => body (fst (fst c)) (snd (fst c)) (snd c) x)
      prot odd_cells x) as [C1 C2].
    - intros [[m n] q] y Hc. unfold get, key, val, body. cbn [fst snd].
      rewrite upd_eq. unfold upd2. rewrite !Z.eqb_refl. reflexivity.
    - intros [[m n] q] y [[t q'] i] Hc Hk. unfold get, key, body in *. cbn [fst snd] in *.
      unfold upd. destruct (Z.eqb_spec t 0) as [-> |]; [|reflexivity].
      unfold upd2. destruct (Z.eqb_spec q' q) as [-> |]; [|reflexivity].
      destruct (Z.eqb_spec i (idx (r_old 0) 0 m n)) as [-> |]; [|reflexivity].
      exfalso. apply Hk. reflexivity.
    - intros [[m n] q] Hc (j & q' & m' & n' & t & Hj & Hm & Hn & E). apply odd_cells_In in Hc.
      unfold key in E. cbn [fst snd] in E. injection E as E1 E2 E3. subst t.
      apply idx_inj in E3; try lia.
    - intros [[m n] q] g1 g2 Hc Hp. apply odd_cells_In in Hc. unfold val.
      rewrite (Hp (t1, q, idx (r_old t1) 1 m n)), (Hp (t2, q, idx (r_old t2) 2 m n)); [reflexivity| |].
      + exists 2, q, m, n, t2. intuition.
      + exists 1, q, m, n, t1. intuition.
    - intros t j q m n Ht Hj Hq Hm Hn. unfold gax.
      destruct (Z.odd m && (j =? 0)) eqn:E.
      + apply andb_true_iff in E. destruct E as [O E]. apply Z.eqb_eq in E. subst j.
        assert (t = 0) by (apply axis_held; lia). subst t.
        specialize (C1 (m, n, q)). unfold get, key, val in C1. cbn [fst snd] in C1. rewrite C1.
        * rewrite (H t1 1), (H t2 2) by (try assumption; lia). reflexivity.
        * apply odd_cells_In. auto.
        * intros [[m' n'] q'] Hc' E'. apply odd_cells_In in Hc'. injection E' as E1 E2.
          apply idx_inj in E2; try lia. destruct E2 as (_ & -> & ->). subst q'. reflexivity.
      + rewrite <- (H t j q m n) by assumption.
        specialize (C2 (t, q, idx (r_old t) j m n)). unfold get in C2 at 1 2. cbn [fst snd] in C2. apply C2.
        intros [[m' n'] q'] Hc' E'. apply odd_cells_In in Hc'. unfold key in E'. cbn [fst snd] in E'.
        injection E' as -> E2 E3. subst q'. apply idx_inj in E3; try lia.
        destruct E3 as (-> & -> & ->). destruct Hc' as (_ & O & _). rewrite O in E. discriminate.
  Qed.

  (** Every stencil point is a coarse surface. *)
  Lemma js1_range j : 0 <= j < ns_new -> 0 <= js1 ns_old ns_new j < ns_old /\
    (j < ns_new - 1 -> js1 ns_old ns_new j < ns_old - 1).
  Proof.
    intros Hj. unfold js1.
    assert (Hq : Z.quot (j * (ns_old - 1)) (ns_new - 1) = j * (ns_old - 1) / (ns_new - 1)).
    { apply Z.quot_div_nonneg; nia. }
    rewrite Hq. split; [split|].
    - apply Z.div_pos; nia.
    - enough (j * (ns_old - 1) / (ns_new - 1) <= ns_old - 1) by lia.
      apply Z.div_le_upper_bound; nia.
    - intros. apply Z.div_lt_upper_bound; nia.
  Qed.

  Lemma stencil_range sch j jw : 0 <= j < ns_new -> In jw (stencil (K := K) nsqrt sch ns_old ns_new j) ->
    0 <= fst jw < ns_old.
  Proof.
    intros Hj. pose proof (js1_range j Hj) as J.
    assert (L : forall (a b : K), In jw [(js1 ns_old ns_new j, a); (js2 ns_old ns_new j, b)] -> 0 <= fst jw < ns_old).
    { intros a b [<-|[<-|[]]]; cbn; unfold js2; lia. }
    unfold stencil. destruct sch; [apply L| |]; destruct (Z.ltb_spec ns_old 4); try apply L;
      intros I; apply in_map_iff in I; destruct I as (k & <- & Ik); cbn in Ik |- *;
      intuition lia.
  Qed.

  (** The cells written for one thread. *)
  Definition cells (r : rpart) : list (Z * Z * Z * Z) :=
    flat_map (fun j => flat_map (fun m => flat_map (fun n => map (fun q => (j, m, n, q)) sets)
      (zrange 0 (ntor + 1))) (zrange 0 mpol)) (zrange (nsMinF1 r) (nsMaxF1 r)).

  Lemma cells_In r j m n q : In (j, m, n, q) (cells r) <->
    nsMinF1 r <= j < nsMaxF1 r /\ 0 <= m < mpol /\ 0 <= n <= ntor /\ In q sets.
  Proof.
    unfold cells. rewrite in_flat_map. split.
    - intros (j' & Hj & H). apply zrange_In in Hj. apply in_flat_map in H.
      destruct H as (m' & Hm & H). apply zrange_In in Hm. apply in_flat_map in H.
      destruct H as (n' & Hn & H). apply zrange_In in Hn. apply in_map_iff in H.
      destruct H as (q' & E & Hq). injection E as -> -> -> ->. repeat split; auto; lia.
    - intros (Hj & Hm & Hn & Hq). exists j. split; [apply zrange_In; lia|]. apply in_flat_map.
      exists m. split; [apply zrange_In; lia|]. apply in_flat_map. exists n.
      split; [apply zrange_In; lia|]. apply in_map_iff. exists q. auto.
  Qed.

  (** The interpolated value of one coefficient, from common coarse data. *)
  Definition fine (sch : scheme) (g : Z -> Z -> Z -> Z -> K) (sc : Z -> Z -> K) (q j m n : Z) : K :=
    ndiv (fold_left (fun v jw => nadd v (nmul (snd jw) (g q (fst jw) m n)))
            (stencil nsqrt sch ns_old ns_new j) (nZ 0)) (sc j (m mod 2)).

  Lemma interp_value_ok sch x g scal q j m n : holds T_old r_old x g -> 0 <= j < ns_new ->
    In q sets -> 0 <= m < mpol -> 0 <= n <= ntor ->
    interp_value mpol ntor T_old r_old x (stencil nsqrt sch ns_old ns_new j) scal q m n
    = ndiv (fold_left (fun v jw => nadd v (nmul (snd jw) (g q (fst jw) m n)))
            (stencil nsqrt sch ns_old ns_new j) (nZ 0)) scal.
  Proof.
    intros H Hj Hq Hm Hn. unfold interp_value. f_equal. apply fold_ext'.
    intros v jw Hjw. cbv zeta. pose proof (stencil_range sch j jw Hj Hjw) as Hr.
    pose proof (source_thread_ok (fst jw) Hr) as S. cbv zeta in S.
    rewrite (H (source_thread T_old r_old (fst jw)) (fst jw) q m n) by tauto. reflexivity.
  Qed.

  Lemma interp_local_ok sch xo g r scalxc sc x :
    holds T_old r_old xo g -> 0 <= nsMinF1 r -> nsMaxF1 r <= ns_new ->
    (forall j p, nsMinF1 r <= j < nsMaxF1 r -> 0 <= p < 2 -> scalxc ((j - nsMinF1 r) * 2 + p) = sc j p) ->
    forall j q m n, nsMinF1 r <= j < nsMaxF1 r -> In q sets -> 0 <= m < mpol -> 0 <= n <= ntor ->
    interp_local nsqrt mpol ntor sets sch ns_old ns_new T_old r_old xo r scalxc x q (idx r j m n)
    = fine sch g sc q j m n.
  Proof.
    intros H H0 H1 Hsc j q m n Hj Hq Hm Hn. unfold interp_local.
    set (v := fun j m n q => interp_value mpol ntor T_old r_old xo (stencil nsqrt sch ns_old ns_new j)
                 (scalxc ((j - nsMinF1 r) * 2 + m mod 2)) q m n).
    set (body := fun (c : Z * Z * Z * Z) (x : Z -> Z -> K) =>
      let '(j, m, n, q) := c in upd2 x q (idx r j m n) (v j m n q)).
    match goal with |- ?e q _ = _ => assert (E : e = fold_left (fun x c => body c x) (cells r) x) end.
    { unfold cells, for_up. rewrite <- fold_flat. apply fold_ext'. intros x1 j' Hj'.
      rewrite <- fold_flat. apply fold_ext'. intros x2 m' Hm'.
      rewrite <- fold_flat. apply fold_ext'. intros x3 n' Hn'.
      rewrite <- fold_map. reflexivity. }
    rewrite E. clear E.
    assert (D : forall a b : Z * Z, {a = b} + {a <> b}) by (decide equality; apply Z.eq_dec).
    destruct (cells_fold D (fun (x : Z -> Z -> K) k => x (fst k) (snd k))
      (fun c : Z * Z * Z * Z => let '(j, m, n, q) := c in (q, idx r j m n))
      (fun c _ => let '(j, m, n, q) := c in v j m n q) body (fun _ => False) (cells r) x) as [C1 _].
    - intros [[[j' m'] n'] q'] y _. cbn. unfold upd2. rewrite !Z.eqb_refl. reflexivity.
    - intros [[[j' m'] n'] q'] y [q2 i2] _ Hk. cbn. unfold upd2.
      destruct (Z.eqb_spec q2 q') as [-> |]; [|reflexivity].
      destruct (Z.eqb_spec i2 (idx r j' m' n')) as [-> |]; [congruence|]. reflexivity.
    - intros c _ [].
    - intros [[[j' m'] n'] q'] g1 g2 _ _. reflexivity.
    - specialize (C1 (j, m, n, q)). cbv beta iota in C1. cbn [fst snd] in C1. rewrite C1.
      + unfold v. rewrite (interp_value_ok sch xo g) by (try assumption; lia).
        unfold fine. rewrite Hsc; [reflexivity|lia|apply Z.mod_pos_bound; lia].
      + apply cells_In. auto.
      + intros [[[j' m'] n'] q'] Hc E. apply cells_In in Hc. injection E as -> E.
        apply idx_inj in E; try lia. destruct E as (-> & -> & ->). reflexivity.
  Qed.

  Lemma zero_axis_ok x g : holds T_new r_new x g ->
    holds T_new r_new (zero_axis mpol ntor sets T_old r_old x)
      (fun q j m n => if Z.odd m && (j =? 0) then nZ 0 else g q j m n).
  Proof.
    intros H. unfold zero_axis. rewrite axis_thread.
    set (body := fun (m n q : Z) (x : Z -> Z -> Z -> K) =>
      upd x 0 (upd2 (x 0) q (idx (r_old 0) 0 m n) (nZ 0))).
    change (holds T_new r_new (for_up 0 mpol (fun m x => if Z.odd m then
        for_up 0 (ntor + 1) (fun n x => fold_left (fun x q => body m n q x) sets x) x else x) x)
        (fun q j m n => if Z.odd m && (j =? 0) then nZ 0 else g q j m n)).
    rewrite odd_loop.
    assert (Ei : forall m n, idx (r_old 0) 0 m n = idx (r_new 0) 0 m n).
    { intros. unfold idx_fc. rewrite old_min0, new_min0. reflexivity. }
    set (get := fun (x : Z -> Z -> Z -> K) (k : Z * Z * Z) => x (fst (fst k)) (snd (fst k)) (snd k)).
    set (key := fun c : Z * Z * Z => (0, snd c, idx (r_old 0) 0 (fst (fst c)) (snd (fst c)))).
    destruct (cells_fold key_dec get key (fun _ _ => nZ 0)
      (fun c x => body (fst (fst c)) (snd (fst c)) (snd c) x) (fun _ => False) odd_cells x) as [C1 C2].
    - intros [[m n] q] y Hc. unfold get, key, body. cbn [fst snd].
      rewrite upd_eq. unfold upd2. rewrite !Z.eqb_refl. reflexivity.
    - intros [[m n] q] y [[t q'] i] Hc Hk. unfold get, key, body in *. cbn [fst snd] in *.
      unfold upd. destruct (Z.eqb_spec t 0) as [-> |]; [|reflexivity].
      unfold upd2. destruct (Z.eqb_spec q' q) as [-> |]; [|reflexivity].
      destruct (Z.eqb_spec i (idx (r_old 0) 0 m n)) as [-> |]; [|reflexivity].
      exfalso. apply Hk. reflexivity.
    - intros c _ [].
    - intros c g1 g2 _ _. reflexivity.
    - pose proof Tnew. intros t j q m n Ht Hj Hq Hm Hn.
      destruct (Z.odd m && (j =? 0)) eqn:E.
      + apply andb_true_iff in E. destruct E as [O E]. apply Z.eqb_eq in E. subst j.
        assert (t = 0) by (apply axis_held_new; lia). subst t.
        specialize (C1 (m, n, q)). unfold get, key in C1. cbn [fst snd] in C1. rewrite Ei in C1. apply C1.
        * apply odd_cells_In. auto.
        * intros [[m' n'] q'] Hc' E'. apply odd_cells_In in Hc'. cbn [fst snd] in E'. rewrite <- Ei in E'.
          injection E' as E1 E2.
          apply idx_inj in E2; try lia. destruct E2 as (_ & -> & ->). subst q'. reflexivity.
      + rewrite <- (H t j q m n) by assumption.
        specialize (C2 (t, q, idx (r_new t) j m n)). unfold get in C2 at 1 2. cbn [fst snd] in C2. apply C2.
        intros [[m' n'] q'] Hc' E'. apply odd_cells_In in Hc'. unfold key in E'. cbn [fst snd] in E'.
        injection E' as -> E2 E3. subst q'. rewrite Ei in E3. apply idx_inj in E3; try lia.
        destruct E3 as (-> & -> & ->). destruct Hc' as (_ & O & _). rewrite O in E. discriminate.
  Qed.

  Lemma interpolate_ok sch x_old x_new g scalxc sc :
    holds T_old r_old x_old g ->
    (forall t j p, 0 <= t < T_new -> nsMinF1 (r_new t) <= j < nsMaxF1 (r_new t) -> 0 <= p < 2 ->
       scalxc t ((j - nsMinF1 (r_new t)) * 2 + p) = sc j p) ->
    holds T_new r_new
      (InterpolateToNextMultigridStep nsqrt mpol ntor sets sch ns_new ns_old T_old T_new
         r_old r_new scalxc x_new x_old)
      (fun q j m n => if Z.odd m && (j =? 0) then nZ 0 else fine sch (gax g) sc q j m n).
  Proof.
    intros H Hsc. unfold InterpolateToNextMultigridStep. apply zero_axis_ok.
    pose proof (extrapolate_ok x_old g H) as He.
    set (xo := extrapolate_axis mpol ntor sets T_old r_old x_old) in *. clearbody xo.
    pose proof Tnew as HT. pose proof Fnew as F.
    intros t j q m n Ht Hj Hq Hm Hn.
    set (loc := fun t x => interp_local nsqrt mpol ntor sets sch ns_old ns_new T_old r_old xo (r_new t) (scalxc t) x).
    assert (G : exists y, for_up 0 T_new (fun t x => upd x t (loc t (x t))) x_new t = loc t y).
    { cut (forall u, 0 <= u < T_new -> exists y, for_up 0 T_new (fun t x => upd x t (loc t (x t))) x_new u = loc u y);
        [intros G; exact (G t Ht)|].
      apply (for_up_ind (fun k (x : Z -> Z -> Z -> K) => forall u, 0 <= u < k -> exists y, x u = loc u y)); [lia| |].
      - intros; lia.
      - intros k x Hk IH u Hu. destruct (Z.eq_dec u k) as [-> |].
        + exists (x k). apply upd_eq.
        + rewrite upd_neq by assumption. apply IH. lia. }
    destruct G as [y Ey]. unfold loc in Ey at 1.
    match goal with |- ?l = _ => change l with (for_up 0 T_new (fun t x => upd x t (loc t (x t))) x_new t q (idx (r_new t) j m n)) end.
    unfold loc at 1. rewrite Ey. unfold loc. specialize (F t Ht).
    apply interp_local_ok; auto.
    - destruct (Z.eqb_spec t 0); lia.
    - destruct (Z.eqb_spec t (T_new - 1)); lia.
  Qed.
End P.
