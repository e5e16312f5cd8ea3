From Coq Require Import ZArith List Bool Reals Lra Lia.
From Verif Require Import Base BaseLemmas SumLemmas FourierModel FourierSpec FourierProofs BoundaryModel BoundaryProofs
  PartModel PartSpec PartProofs HotModel HotSpec.
Import ListNotations.
Open Scope R_scope.

Lemma comp_eqb_eq a b : comp_eqb a b = true <-> a = b.
Proof. destruct a, b; cbn; split; congruence. Qed.
Lemma comp_eqb_refl a : comp_eqb a a = true.
Proof. destruct a; reflexivity. Qed.
Lemma gset_at g c i v c' j : gset g c i v c' j = if comp_eqb c' c && (j =? i)%Z then v else g c' j.
Proof. unfold gset, upd. destruct (comp_eqb c' c), (j =? i)%Z; reflexivity. Qed.

(** ** Loops that change one cell of every array *)
Lemma cell_fold {A} (step : geo -> A -> geo) (idx : A -> Z) (val : A -> (comp -> R) -> comp -> R) :
  (forall g a c i, step g a c i = if (i =? idx a)%Z then val a (fun c => g c i) c else g c i) ->
  (forall a f f', (forall c, f c = f' c) -> forall c, val a f c = val a f' c) ->
  forall l g, NoDup (map idx l) ->
  (forall a c, In a l -> fold_left step l g c (idx a) = val a (fun c => g c (idx a)) c) /\
  (forall i c, ~ In i (map idx l) -> fold_left step l g c i = g c i).
Proof.
  intros HS HV. induction l as [|a l IH]; intros g ND; [split; [intros ? ? []|reflexivity]|].
  cbn [map] in ND. inversion ND as [|? ? NI ND']; subst. cbn [fold_left]. destruct (IH (step g a) ND') as (I1 & I2). split.
  - intros a' c [<-|Ha].
    + rewrite I2 by auto. rewrite HS, Z.eqb_refl. reflexivity.
    + rewrite I1 by auto. apply HV. intros c'. rewrite HS. destruct (Z.eqb_spec (idx a') (idx a)) as [E|E]; [|reflexivity].
      exfalso. apply NI. rewrite <- E. apply in_map. auto.
  - intros i c Hi. cbn [map In] in Hi. rewrite I2 by tauto. rewrite HS. destruct (Z.eqb_spec i (idx a)) as [E|E]; [|reflexivity].
    exfalso. apply Hi. left. auto.
Qed.

Lemma cell_loop (step : Z -> Z -> geo -> geo) (idx : Z -> Z -> Z) (val : Z -> Z -> (comp -> R) -> comp -> R) mlo mhi nlo nhi g :
  (forall m n g c i, step m n g c i = if (i =? idx m n)%Z then val m n (fun c => g c i) c else g c i) ->
  (forall m n f f', (forall c, f c = f' c) -> forall c, val m n f c = val m n f' c) ->
  (forall m n m' n', (mlo <= m < mhi)%Z -> (nlo <= n < nhi)%Z -> (mlo <= m' < mhi)%Z -> (nlo <= n' < nhi)%Z ->
     idx m n = idx m' n' -> m = m' /\ n = n') ->
  let r := for_up mlo mhi (fun m g => for_up nlo nhi (fun n g => step m n g) g) g in
  (forall m n c, (mlo <= m < mhi)%Z -> (nlo <= n < nhi)%Z -> r c (idx m n) = val m n (fun c => g c (idx m n)) c) /\
  (forall i c, (forall m n, (mlo <= m < mhi)%Z -> (nlo <= n < nhi)%Z -> i <> idx m n) -> r c i = g c i).
Proof.
  intros HS HV HI r. unfold r. rewrite for_up_pairs.
  destruct (cell_fold (fun g q => step (fst q) (snd q) g) (fun q => idx (fst q) (snd q)) (fun q => val (fst q) (snd q))
     (fun g q c i => HS (fst q) (snd q) g c i) (fun q => HV (fst q) (snd q)) (pairs mlo mhi nlo nhi) g) as (A & B).
  - apply nodup_map_inj; [apply pairs_NoDup|]. intros (m, n) (m', n') H H' E. apply pairs_In in H, H'. cbn [fst snd] in E.
    apply HI in E; try tauto. destruct E; congruence.
  - split.
    + intros m n c Hm Hn. apply (A (m, n)). apply pairs_In. auto.
    + intros i c Hi. apply B. intros I. apply in_map_iff in I. destruct I as ((m, n) & E & I). apply pairs_In in I. cbn in E.
      apply (Hi m n); try tauto. auto.
Qed.

Section Hot.
Variables (lasym lthreed : bool) (mpol ntor ns : Z).
Hypothesis Hm : (2 <= mpol)%Z.
Hypothesis Hn : (0 <= ntor)%Z.
Local Notation has := (has lasym lthreed).
Local Notation ix := (ix mpol ntor).

Lemma ix_inj j n m j' n' m' : (0 <= n <= ntor)%Z -> (0 <= m < mpol)%Z -> (0 <= n' <= ntor)%Z -> (0 <= m' < mpol)%Z ->
  ix j n m = ix j' n' m' -> j = j' /\ n = n' /\ m = m'.
Proof.
  intros A B C D E. unfold HotModel.ix in E. apply (flat_inj mpol) in E; [|lia..]. destruct E as (E & ->).
  apply (flat_inj (ntor + 1)) in E; [|lia..]. tauto.
Qed.
Lemma jx_inj nsMin j n m j' n' m' : (0 <= n <= ntor)%Z -> (0 <= m < mpol)%Z -> (0 <= n' <= ntor)%Z -> (0 <= m' < mpol)%Z ->
  jx mpol ntor nsMin j m n = jx mpol ntor nsMin j' m' n' -> j = j' /\ n = n' /\ m = m'.
Proof.
  intros A B C D E. unfold jx in E. apply (flat_inj (ntor + 1)) in E; [|lia..]. destruct E as (E & ->).
  apply (flat_inj mpol) in E; lia.
Qed.

(** ** Gathering *)
Lemma gather_thread_at r g p X res : (nsMinF1 r <= nsMinF r <= nsMaxFIncludingLcfs r)%Z -> (nsMaxFIncludingLcfs r <= nsMaxF1 r)%Z ->
  holds_local lasym lthreed mpol ntor r g X ->
  let q := gather_thread lasym lthreed mpol ntor (r, (g, p)) res in
  (forall c j m n, (0 <= m < mpol)%Z -> (0 <= n <= ntor)%Z -> has c = true ->
     fst q c (ix j n m) = if ((nsMinF r <=? j) && (j <? nsMaxFIncludingLcfs r))%Z then X c j m n else fst res c (ix j n m)) /\
  (forall j, snd q j = if ((nsMinF r <=? j) && (j <? nsMaxFIncludingLcfs r))%Z then p (j - nsMinF1 r)%Z else snd res j).
Proof.
  intros L1 L2 HL q.
  pose proof (for_up_ind (fun hi (t : geo * (Z -> R)) =>
    (forall c j m n, (0 <= m < mpol)%Z -> (0 <= n <= ntor)%Z -> has c = true ->
     fst t c (ix j n m) = if ((nsMinF r <=? j) && (j <? hi))%Z then X c j m n else fst res c (ix j n m)) /\
    (forall j, snd t j = if ((nsMinF r <=? j) && (j <? hi))%Z then p (j - nsMinF1 r)%Z else snd res j))
    (fun jF res =>
    (for_up 0 (ntor + 1) (fun n res => for_up 0 mpol (fun m res =>
       gather_cell lasym lthreed g (((jF - nsMinF1 r) * mpol + m) * (ntor + 1) + n)%Z
                     ((jF * (ntor + 1) + n) * mpol + m)%Z res) res) (fst res),
     upd (snd res) jF (p (jF - nsMinF1 r)%Z))) (nsMinF r) (nsMaxFIncludingLcfs r) res ltac:(lia)) as G.
  apply G; clear G.
  - split; intros; destruct (Z.leb_spec (nsMinF r) j), (Z.ltb_spec j (nsMinF r)); cbn [andb]; try lia; reflexivity.
  - intros j0 (t1, t2) Hj (I1 & I2). cbn [fst snd] in *. split.
    + intros c j m n M N HC.
      destruct (cell_loop (fun n m res => gather_cell lasym lthreed g (((j0 - nsMinF1 r) * mpol + m) * (ntor + 1) + n)%Z ((j0 * (ntor + 1) + n) * mpol + m)%Z res)
        (fun n m => ix j0 n m) (fun n m f c => if has c then g c (((j0 - nsMinF1 r) * mpol + m) * (ntor + 1) + n)%Z else f c) 0 (ntor + 1) 0 mpol t1) as (A & B).
      * intros m1 n1 g' c1 i1. unfold gather_cell, HotModel.ix. destruct (has c1), (i1 =? (j0 * (ntor + 1) + m1) * mpol + n1)%Z; reflexivity.
      * intros m1 n1 f f' E c1. destruct (has c1); auto.
      * intros m1 n1 m' n' M1 N1 M' N' E. apply ix_inj in E; lia.
      * cbv zeta in A, B. destruct (Z.eq_dec j j0) as [->|Ne].
        -- etransitivity; [apply (A n m c); lia|]. rewrite HC. rewrite HL by (auto; lia).
           destruct (Z.leb_spec (nsMinF r) j0), (Z.ltb_spec j0 (j0 + 1)); cbn [andb]; try lia; reflexivity.
        -- etransitivity; [apply (B (ix j n m) c)|].
           { intros n1 m1 N1 M1 E. apply ix_inj in E; lia. }
           rewrite I1 by auto. destruct (Z.ltb_spec j j0), (Z.ltb_spec j (j0 + 1)); try lia; reflexivity.
    + intros j. unfold upd. destruct (Z.eqb_spec j j0) as [->|Ne].
      * destruct (Z.leb_spec (nsMinF r) j0), (Z.ltb_spec j0 (j0 + 1)); cbn [andb]; try lia; reflexivity.
      * rewrite I2. destruct (Z.ltb_spec j j0), (Z.ltb_spec j (j0 + 1)); try lia; reflexivity.
Qed.

(** Facts about one partition, and coverage. *)
Lemma part_facts T t lfreeb r : (1 <= T <= ns / 2)%Z -> (0 <= t < T)%Z -> adjustRadialPartitioning T t ns lfreeb = Some r ->
  (0 <= nsMinF1 r)%Z /\ (nsMinF1 r <= nsMinF r <= nsMaxFIncludingLcfs r)%Z /\ (nsMaxFIncludingLcfs r <= nsMaxF1 r <= ns)%Z /\ (nsMinF1 r < nsMaxF1 r)%Z.
Proof.
  intros HT Ht E. rewrite adjust_closed in E by auto. injection E as <-. unfold rp_closed. cbn.
  assert (N2 : (2 * T <= ns)%Z) by (pose proof (Z_div_mod_eq_full ns 2); pose proof (Z.mod_pos_bound ns 2); lia).
  set (n := num_surfaces_to_distribute ns lfreeb).
  assert (Hn1 : (ns - 1 <= n <= ns)%Z) by (unfold n, num_surfaces_to_distribute; destruct lfreeb; lia).
  destruct (blk_two n T t ltac:(lia) ltac:(lia) ltac:(lia)) as (B1 & _).
  pose proof (blk_mono n T 0 t ltac:(lia) ltac:(lia) ltac:(lia)). rewrite blk_0 in * by lia.
  pose proof (blk_mono n T (t + 1) T ltac:(lia) ltac:(lia) ltac:(lia)). rewrite blk_T in * by lia.
  destruct (Z.eqb_spec (Z.min ns (blk n T (t + 1) + 1)) ns); lia.
Qed.
Lemma part_cover T lfreeb j : (1 <= T <= ns / 2)%Z -> (0 <= j < ns)%Z ->
  exists t, (0 <= t < T)%Z /\ forall r, adjustRadialPartitioning T t ns lfreeb = Some r -> (nsMinF r <= j < nsMaxFIncludingLcfs r)%Z.
Proof.
  intros HT Hj.
  assert (N2 : (2 * T <= ns)%Z) by (pose proof (Z_div_mod_eq_full ns 2); pose proof (Z.mod_pos_bound ns 2); lia).
  set (n := num_surfaces_to_distribute ns lfreeb).
  assert (Hn1 : (ns - 1 <= n <= ns)%Z) by (unfold n, num_surfaces_to_distribute; destruct lfreeb; lia).
  destruct (Z.lt_ge_cases j n) as [L|L].
  - destruct (blk_find n T j ltac:(lia) ltac:(lia) ltac:(lia)) as (t & Ht & B).
    exists t. split; [lia|]. intros r E. rewrite adjust_closed in E by (auto; lia). injection E as <-. unfold rp_closed. cbn. fold n.
    destruct (Z.eqb_spec (Z.min ns (blk n T (t + 1) + 1)) ns); lia.
  - exists (T - 1)%Z. split; [lia|]. intros r E. rewrite adjust_closed in E by (auto; lia). injection E as <-. unfold rp_closed. cbn. fold n.
    replace (T - 1 + 1)%Z with T by lia. rewrite blk_T by lia.
    pose proof (blk_mono n T (T - 1) T ltac:(lia) ltac:(lia) ltac:(lia)) as MM. rewrite blk_T in MM by lia.
    destruct (Z.eqb_spec (Z.min ns (n + 1)) ns); lia.
Qed.

Lemma gather_at lfreeb X phip ths : team lasym lthreed mpol ntor ns lfreeb X phip ths ->
  let q := gather lasym lthreed mpol ntor ths in
  (forall c j m n, (0 <= j < ns)%Z -> (0 <= m < mpol)%Z -> (0 <= n <= ntor)%Z -> has c = true -> fst q c (ix j n m) = X c j m n) /\
  (forall j, (0 <= j < ns)%Z -> snd q j = phip j).
Proof.
  intros (HT & HX) q. set (T := Z.of_nat (length ths)) in *.
  assert (KEY : forall j, (0 <= j < ns)%Z -> forall l res,
     (forall th, In th l -> exists t, nth_error ths t = Some th) ->
     ((exists r g p, In (r, (g, p)) l /\ (nsMinF r <= j < nsMaxFIncludingLcfs r)%Z) \/
      ((forall c m n, (0 <= m < mpol)%Z -> (0 <= n <= ntor)%Z -> has c = true -> fst res c (ix j n m) = X c j m n) /\ snd res j = phip j)) ->
     let q := fold_left (fun res th => gather_thread lasym lthreed mpol ntor th res) l res in
     (forall c m n, (0 <= m < mpol)%Z -> (0 <= n <= ntor)%Z -> has c = true -> fst q c (ix j n m) = X c j m n) /\ snd q j = phip j).
  { intros j Hj. induction l as [|(r, (g, p)) l IH]; intros res HI HC.
    - destruct HC as [(r & g & p & [] & _)|HC]. exact HC.
    - cbn [fold_left]. apply IH; [intros; apply HI; right; auto|].
      destruct (HI (r, (g, p)) (or_introl eq_refl)) as (t & Et). destruct (HX t r g p Et) as (E1 & E2 & E3).
      assert (Hl : (t < length ths)%nat) by (apply nth_error_Some; congruence).
      destruct (part_facts T (Z.of_nat t) lfreeb r HT ltac:(lia) E1) as (F0 & F1 & F2 & F3).
      destruct (gather_thread_at r g p X res F1 ltac:(lia) E2) as (G1 & G2).
      destruct (Z.leb_spec (nsMinF r) j) as [C1|C1], (Z.ltb_spec j (nsMaxFIncludingLcfs r)) as [C2|C2].
      1:{ right. split.
          - intros c m n M N C. rewrite G1 by auto.
            replace ((nsMinF r <=? j) && (j <? nsMaxFIncludingLcfs r))%Z with true by (symmetry; apply andb_true_iff; split; [apply Z.leb_le|apply Z.ltb_lt]; lia). reflexivity.
          - rewrite G2. replace ((nsMinF r <=? j) && (j <? nsMaxFIncludingLcfs r))%Z with true by (symmetry; apply andb_true_iff; split; [apply Z.leb_le|apply Z.ltb_lt]; lia). apply E3. lia. }
      all: assert (BF : ((nsMinF r <=? j) && (j <? nsMaxFIncludingLcfs r))%Z = false) by (apply andb_false_iff; rewrite Z.leb_gt, Z.ltb_ge; lia).
      all: destruct HC as [(r' & g' & p' & [EQ|IN] & CV)|(C3 & C4)];
        [ injection EQ as -> -> ->; lia | left; exists r', g', p'; auto | right; split; [intros c m n M N C; rewrite G1 by auto; rewrite BF; auto | rewrite G2, BF; auto] ]. }
  assert (COV : forall j, (0 <= j < ns)%Z -> exists r g p, In (r, (g, p)) ths /\ (nsMinF r <= j < nsMaxFIncludingLcfs r)%Z).
  { intros j Hj. destruct (part_cover T lfreeb j HT Hj) as (t & Ht & CV).
    destruct (nth_error ths (Z.to_nat t)) as [(r, (g, p))|] eqn:E.
    - exists r, g, p. split; [eapply nth_error_In; eauto|]. destruct (HX _ _ _ _ E) as (E1 & _). rewrite Z2Nat.id in E1 by lia. auto.
    - apply nth_error_None in E. lia. }
  assert (ALL : forall th, In th ths -> exists t, nth_error ths t = Some th) by (intros th Hth; apply In_nth_error; auto).
  split.
  - intros c j m n Hj M N C. destruct (KEY j Hj ths (fun _ _ => 0, fun _ => 0) ALL (or_introl (COV j Hj))) as (K & _). apply K; auto.
  - intros j Hj. destruct (KEY j Hj ths (fun _ _ => 0, fun _ => 0) ALL (or_introl (COV j Hj))) as (_ & K). exact K.
Qed.

(** ** The m = 1 coefficients *)
Lemma undo_m1_at a b g : a <> b ->
  let q := undo_m1 mpol ntor ns a b g in
  forall c j m n, (0 <= j < ns)%Z -> (0 <= m < mpol)%Z -> (0 <= n <= ntor)%Z ->
  q c (ix j n m) = if (m =? 1)%Z then
     (if comp_eqb c a then g a (ix j n m) + g b (ix j n m)
      else if comp_eqb c b then g a (ix j n m) - g b (ix j n m) else g c (ix j n m)) else g c (ix j n m).
Proof.
  intros Hab q c j m n Hj M N.
  destruct (cell_loop (fun j n g => let i := ix j n 1 in let old := g a i in let g := gset g a i (old + g b i) in gset g b i (old - g b i))
    (fun j n => ix j n 1) (fun _ _ f c => if comp_eqb c a then f a + f b else if comp_eqb c b then f a - f b else f c) 0 ns 0 (ntor + 1) g) as (A & B).
  - intros j1 n1 g1 c1 i1. cbv zeta. rewrite !gset_at, Z.eqb_refl.
    assert (BA : comp_eqb b a = false) by (destruct (comp_eqb b a) eqn:E; [apply comp_eqb_eq in E; congruence|reflexivity]).
    rewrite BA. cbn [andb].
    destruct (Z.eqb_spec i1 (ix j1 n1 1)) as [->|Ne].
    + rewrite !andb_true_r. destruct (comp_eqb c1 b) eqn:E1.
      * apply comp_eqb_eq in E1. subst. rewrite BA. reflexivity.
      * destruct (comp_eqb c1 a) eqn:E2; reflexivity.
    + rewrite !andb_false_r. reflexivity.
  - intros _ _ f f' E c1. rewrite !E. reflexivity.
  - intros j1 n1 j2 n2 A1 A2 A3 A4 E. apply ix_inj in E; lia.
  - cbv zeta in A, B. destruct (Z.eqb_spec m 1) as [->|Ne].
    + apply (A j n c); lia.
    + apply (B (ix j n m) c). intros j1 n1 A1 A2 E. apply ix_inj in E; lia.
Qed.

(** ** Filling the columns *)
Lemma col_first {T} (z : T) (v : Z -> T -> T) :
  let s := for_up 0 (ntor + 1) (fun n (s : Z * (Z -> T)) => let mn := (fst s + 1)%Z in (mn, upd (snd s) mn (v n (snd s mn)))) ((-1)%Z, fun _ => z) in
  fst s = ntor /\ forall j, snd s j = if ((0 <=? j) && (j <=? ntor))%Z then v j z else z.
Proof.
  intros s.
  pose proof (for_up_ind (fun k (s : Z * (Z -> T)) => fst s = (k - 1)%Z /\ forall j, snd s j = if ((0 <=? j) && (j <? k))%Z then v j z else z)
    (fun n (s : Z * (Z -> T)) => let mn := (fst s + 1)%Z in (mn, upd (snd s) mn (v n (snd s mn)))) 0 (ntor + 1) ((-1)%Z, fun _ => z) ltac:(lia)) as G.
  destruct G as (G1 & G2).
  - split; [reflexivity|]. intros j. cbn [snd]. destruct (Z.leb_spec 0 j), (Z.ltb_spec j 0); cbn [andb]; try lia; reflexivity.
  - intros k (mn, a) Hk (E & I). cbn [fst snd] in *. subst mn. replace (k - 1 + 1)%Z with k by lia. split; [lia|].
    intros j. unfold upd. rewrite !I. destruct (Z.eqb_spec j k) as [->|Ne].
    + destruct (Z.leb_spec 0 k), (Z.ltb_spec k k), (Z.ltb_spec k (k + 1)); cbn [andb]; try lia; reflexivity.
    + destruct (Z.leb_spec 0 j), (Z.ltb_spec j k), (Z.ltb_spec j (k + 1)); cbn [andb]; try lia; reflexivity.
  - split; [change (fst s = (ntor + 1 - 1)%Z) in G1; lia|]. intros j. change (snd s j) with (snd s j). etransitivity; [apply G2|].
    destruct (Z.leb_spec 0 j), (Z.ltb_spec j (ntor + 1)), (Z.leb_spec j ntor); cbn [andb]; try lia; reflexivity.
Qed.

Lemma col_second {T} (z : T) (f : Z -> Z -> Z -> (Z -> T) -> Z -> T) (v : Z -> Z -> T) (s0 : Z * (Z -> T)) :
  (forall m n k a, a k = z -> f m n k a k = v m n) ->
  (forall m n k a j, j <> k -> f m n k a j = a j) ->
  fst s0 = ntor -> (forall j, (ntor < j)%Z -> snd s0 j = z) ->
  let s := for_up 1 mpol (fun m s => for_up (- ntor) (ntor + 1) (fun n (s : Z * (Z -> T)) => let mn := (fst s + 1)%Z in (mn, f m n mn (snd s))) s) s0 in
  fst s = (n_modes mpol ntor - 1)%Z /\
  (forall m n, (1 <= m < mpol)%Z -> (- ntor <= n <= ntor)%Z -> snd s (mode_pos ntor m n) = v m n) /\
  (forall j, (j <= ntor)%Z -> snd s j = snd s0 j).
Proof.
  intros F1 F2 E0 Z0 s.
  set (start := fun m => (pos_ ntor m (- ntor))%Z).
  pose proof (for_up_ind (fun m (s : Z * (Z -> T)) => fst s = (start m - 1)%Z /\ (forall j, (start m <= j)%Z -> snd s j = z) /\
      (forall m' n', (1 <= m' < m)%Z -> (- ntor <= n' <= ntor)%Z -> snd s (pos_ ntor m' n') = v m' n') /\
      (forall j, (j <= ntor)%Z -> snd s j = snd s0 j))
    (fun m s => for_up (- ntor) (ntor + 1) (fun n (s : Z * (Z -> T)) => let mn := (fst s + 1)%Z in (mn, f m n mn (snd s))) s)
    1 mpol s0 ltac:(lia)) as G.
  destruct G as (G1 & G2 & G3 & G4).
  - unfold start, pos_. split; [lia|]. split; [|split; [intros; lia|reflexivity]]. intros j Hj. apply Z0. lia.
  - intros m t Hm1 (I1 & I2 & I3 & I4).
    pose proof (for_up_ind (fun n (s : Z * (Z -> T)) => fst s = (pos_ ntor m n - 1)%Z /\ (forall j, (pos_ ntor m n <= j)%Z -> snd s j = z) /\
      (forall m' n', (1 <= m' <= m)%Z -> (- ntor <= n' <= ntor)%Z -> (m' < m \/ n' < n)%Z -> snd s (pos_ ntor m' n') = v m' n') /\
      (forall j, (j <= ntor)%Z -> snd s j = snd s0 j))
      (fun n (s : Z * (Z -> T)) => let mn := (fst s + 1)%Z in (mn, f m n mn (snd s))) (- ntor)%Z (ntor + 1)%Z t ltac:(lia)) as K.
    destruct K as (K1 & K2 & K3 & K4).
    + split; [exact I1|]. split; [exact I2|]. split; [|exact I4]. intros m' n' A B C. apply I3; lia.
    + intros n (mn, a) Hn1 (J1 & J2 & J3 & J4). cbn [fst snd] in *. subst mn. replace (pos_ ntor m n - 1 + 1)%Z with (pos_ ntor m n) by lia.
      split; [unfold pos_; lia|]. split; [|split].
      * intros j Hj. rewrite F2 by (unfold pos_ in *; lia). apply J2. unfold pos_ in *. lia.
      * intros m' n' A B C. destruct (Z.eq_dec m' m) as [->|Nm]; [destruct (Z.eq_dec n' n) as [->|Nn]|].
        -- apply F1. apply J2. lia.
        -- rewrite F2 by (unfold pos_; lia). apply J3; lia.
        -- rewrite F2 by (unfold pos_; nia). apply J3; lia.
      * intros j Hj. rewrite F2 by (unfold pos_; nia). apply J4. auto.
    + split; [rewrite K1; unfold start, pos_; lia|]. split; [|split].
      * intros j Hj. apply K2. unfold start, pos_ in *. lia.
      * intros m' n' A B. apply K3; lia.
      * exact K4.
  - split; [|split].
    + change (fst s = (start mpol - 1)%Z) in G1. rewrite G1. unfold start, pos_, n_modes. nia.
    + intros m n A B. rewrite <- pos_mpos by lia. apply G3; lia.
    + exact G4.
Qed.

(** Values of one exported column. *)
Definition sym_val (g : geo) (jF m n : Z) : triple :=
  let i := ix jF (Z.abs n) m in
  let t1 := s2 m * s2 (Z.abs n) in
  if (m =? 0)%Z then (t1 * g Rcc i, (if lthreed then - t1 * g Zcs i else 0),
     if lthreed then (if (jF =? 0)%Z then - t1 * (2 * g Lcs (ix 1 n 0) - g Lcs (ix 2 n 0)) else - t1 * g Lcs i) else 0)
  else if (n =? 0)%Z then (t1 * g Rcc i, t1 * g Zsc i, t1 * g Lsc i)
  else if (0 <? jF)%Z then
    (t1 * (g Rcc i + (if lthreed then IZR (Z.sgn n) * g Rss i else 0)) / 2,
     t1 * (g Zsc i - (if lthreed then IZR (Z.sgn n) * g Zcs i else 0)) / 2,
     t1 * (g Lsc i - (if lthreed then IZR (Z.sgn n) * g Lcs i else 0)) / 2)
  else (0, 0, 0).
Definition asym_val (g : geo) (jF m n : Z) : triple :=
  let i := ix jF (Z.abs n) m in
  let t1 := s2 m * s2 (Z.abs n) in
  if (m =? 0)%Z then ((if lthreed then - t1 * g Rcs i else 0), t1 * g Zcc i, t1 * g Lcc i)
  else if (n =? 0)%Z then (t1 * g Rsc i, t1 * g Zcc i, t1 * g Lcc i)
  else if (0 <? jF)%Z then
    (t1 * (g Rsc i - (if lthreed then IZR (Z.sgn n) * g Rcs i else 0)) / 2,
     t1 * (g Zcc i + (if lthreed then IZR (Z.sgn n) * g Zss i else 0)) / 2,
     t1 * (g Lcc i + (if lthreed then IZR (Z.sgn n) * g Lss i else 0)) / 2)
  else (0, 0, 0).

Ltac triple := repeat match goal with |- (_, _) = (_, _) => f_equal end; try reflexivity.

Lemma sym_column_at g jF : fst (sym_column lthreed mpol ntor g jF) = (n_modes mpol ntor - 1)%Z /\
  forall m n, valid_mode mpol ntor m n -> snd (sym_column lthreed mpol ntor g jF) (mode_pos ntor m n) = sym_val g jF m n.
Proof.
  unfold sym_column.
  destruct (col_first ((0, 0, 0) : triple) (fun n old => (mscale 0 * nscale n * g Rcc (ix jF n 0),
        if lthreed then - (mscale 0 * nscale n) * g Zcs (ix jF n 0) else snd (fst old),
        if lthreed then - (mscale 0 * nscale n) * g Lcs (ix jF n 0) else snd old))) as (A1 & A2).
  cbv zeta in A1, A2 |- *.
  match goal with |- context [if lthreed && (jF =? 0)%Z then (fst ?s, _) else _] => set (s1 := s) in * end.
  match goal with |- context [if lthreed && (jF =? 0)%Z then ?a else ?b] => set (s2' := if lthreed && (jF =? 0)%Z then a else b) end.
  assert (S2 : fst s2' = ntor /\ forall j, snd s2' j = if ((0 <=? j) && (j <=? ntor))%Z then sym_val g jF 0 j else (0, 0, 0)).
  { unfold s2'. destruct (lthreed && (jF =? 0)%Z) eqn:LT.
    - apply andb_true_iff in LT. destruct LT as (LT & JF). cbn [fst snd]. split; [exact A1|]. intros j.
      pose proof (for_up_ind (fun k (q : Z * (Z -> triple)) => fst q = (k - 1)%Z /\ forall j, snd q j =
          if ((0 <=? j) && (j <? k))%Z then sym_val g jF 0 j else snd s1 j)
        (fun n q => let mn := (fst q + 1)%Z in let t1 := mscale 0 * nscale n in
           (mn, upd (snd q) mn (set3 (snd q mn) (- t1 * (2 * g Lcs (ix 1 n 0) - g Lcs (ix 2 n 0))))))
        0%Z (ntor + 1)%Z ((-1)%Z, snd s1) ltac:(lia)) as G.
      destruct G as (G1 & G2).
      + split; [reflexivity|]. intros k. cbn [snd]. destruct (Z.leb_spec 0 k), (Z.ltb_spec k 0); cbn [andb]; try lia; reflexivity.
      + intros k (mn, a) Hk (E & I). cbn [fst snd] in *. subst mn. replace (k - 1 + 1)%Z with k by lia. split; [lia|].
        intros i. unfold upd. destruct (Z.eqb_spec i k) as [->|Ne].
        * rewrite I. destruct (Z.leb_spec 0 k), (Z.ltb_spec k k), (Z.ltb_spec k (k + 1)); cbn [andb]; try lia.
          rewrite A2. destruct (Z.leb_spec 0 k), (Z.leb_spec k ntor); cbn [andb]; try lia.
          unfold set3, sym_val. rewrite LT, JF. cbn [Z.eqb fst snd]. rewrite Z.abs_eq by lia. reflexivity.
        * rewrite I. destruct (Z.leb_spec 0 i), (Z.ltb_spec i k), (Z.ltb_spec i (k + 1)); cbn [andb]; try lia; reflexivity.
      + etransitivity; [apply G2|]. rewrite A2.
        destruct (Z.leb_spec 0 j), (Z.ltb_spec j (ntor + 1)), (Z.leb_spec j ntor); cbn [andb]; try lia; reflexivity.
    - split; [exact A1|]. intros j. rewrite A2. destruct (Z.leb_spec 0 j), (Z.leb_spec j ntor); cbn [andb]; try reflexivity.
      unfold sym_val. cbn [Z.eqb]. rewrite Z.abs_eq by lia. cbn [fst snd].
      destruct lthreed; [|reflexivity]. cbn [andb] in LT. rewrite LT. reflexivity. }
  destruct S2 as (S21 & S22).
  destruct (col_second ((0, 0, 0) : triple)
     (fun m n mn a => if (n =? 0)%Z then upd a mn (mscale m * nscale (Z.abs n) * g Rcc (ix jF (Z.abs n) m), mscale m * nscale (Z.abs n) * g Zsc (ix jF (Z.abs n) m), mscale m * nscale (Z.abs n) * g Lsc (ix jF (Z.abs n) m))
       else if (0 <? jF)%Z then upd a mn
         (if lthreed
          then (mscale m * nscale (Z.abs n) * g Rcc (ix jF (Z.abs n) m) / 2 + mscale m * nscale (Z.abs n) * IZR (signum n) * g Rss (ix jF (Z.abs n) m) / 2,
                mscale m * nscale (Z.abs n) * g Zsc (ix jF (Z.abs n) m) / 2 - mscale m * nscale (Z.abs n) * IZR (signum n) * g Zcs (ix jF (Z.abs n) m) / 2,
                mscale m * nscale (Z.abs n) * g Lsc (ix jF (Z.abs n) m) / 2 - mscale m * nscale (Z.abs n) * IZR (signum n) * g Lcs (ix jF (Z.abs n) m) / 2)
          else (mscale m * nscale (Z.abs n) * g Rcc (ix jF (Z.abs n) m) / 2, mscale m * nscale (Z.abs n) * g Zsc (ix jF (Z.abs n) m) / 2, mscale m * nscale (Z.abs n) * g Lsc (ix jF (Z.abs n) m) / 2))
       else a)
     (fun m n => if (n =? 0)%Z then (mscale m * nscale (Z.abs n) * g Rcc (ix jF (Z.abs n) m), mscale m * nscale (Z.abs n) * g Zsc (ix jF (Z.abs n) m), mscale m * nscale (Z.abs n) * g Lsc (ix jF (Z.abs n) m))
       else if (0 <? jF)%Z then
         (mscale m * nscale (Z.abs n) * (g Rcc (ix jF (Z.abs n) m) + (if lthreed then IZR (Z.sgn n) * g Rss (ix jF (Z.abs n) m) else 0)) / 2,
          mscale m * nscale (Z.abs n) * (g Zsc (ix jF (Z.abs n) m) - (if lthreed then IZR (Z.sgn n) * g Zcs (ix jF (Z.abs n) m) else 0)) / 2,
          mscale m * nscale (Z.abs n) * (g Lsc (ix jF (Z.abs n) m) - (if lthreed then IZR (Z.sgn n) * g Lcs (ix jF (Z.abs n) m) else 0)) / 2)
       else (0, 0, 0)) s2') as (B1 & B2 & B3).
  - intros m n k a E. destruct (n =? 0)%Z; [unfold upd; rewrite Z.eqb_refl; reflexivity|]. destruct (0 <? jF)%Z; [|exact E].
    unfold upd. rewrite Z.eqb_refl, signum_sgn. destruct lthreed; triple; field.
  - intros m n k a j Ne. apply Z.eqb_neq in Ne. unfold upd. destruct (n =? 0)%Z; [rewrite Ne; reflexivity|]. destruct (0 <? jF)%Z; [rewrite Ne|]; reflexivity.
  - exact S21.
  - intros j Hj. rewrite S22. destruct (Z.leb_spec 0 j), (Z.leb_spec j ntor); cbn [andb]; try lia; reflexivity.
  - split; [exact B1|]. intros m n (V1 & V2 & V3). destruct (Z.eq_dec m 0) as [->|Nm].
    + specialize (V3 eq_refl). unfold mode_pos. cbn [Z.eqb]. etransitivity; [apply B3; lia|]. rewrite S22.
      destruct (Z.leb_spec 0 n), (Z.leb_spec n ntor); cbn [andb]; try lia; reflexivity.
    + etransitivity; [apply B2; lia|]. unfold sym_val. destruct (Z.eqb_spec m 0); [lia|]. reflexivity.
Qed.

Lemma asym_column_at g jF : fst (asym_column lthreed mpol ntor g jF) = (n_modes mpol ntor - 1)%Z /\
  forall m n, valid_mode mpol ntor m n -> snd (asym_column lthreed mpol ntor g jF) (mode_pos ntor m n) = asym_val g jF m n.
Proof.
  unfold asym_column.
  destruct (col_first ((0, 0, 0) : triple) (fun n old => (
        if lthreed then - (mscale 0 * nscale n) * g Rcs (ix jF n 0) else fst (fst old),
        mscale 0 * nscale n * g Zcc (ix jF n 0), mscale 0 * nscale n * g Lcc (ix jF n 0)))) as (A1 & A2).
  cbv zeta in A1, A2 |- *.
  match type of A1 with fst ?s = _ => set (s1 := s) in * end.
  destruct (col_second ((0, 0, 0) : triple)
     (fun m n mn a => if (n =? 0)%Z then upd a mn (mscale m * nscale (Z.abs n) * g Rsc (ix jF (Z.abs n) m), mscale m * nscale (Z.abs n) * g Zcc (ix jF (Z.abs n) m), mscale m * nscale (Z.abs n) * g Lcc (ix jF (Z.abs n) m))
       else if (0 <? jF)%Z then upd a mn
         (if lthreed
          then (mscale m * nscale (Z.abs n) * g Rsc (ix jF (Z.abs n) m) / 2 - mscale m * nscale (Z.abs n) * IZR (signum n) * g Rcs (ix jF (Z.abs n) m) / 2,
                mscale m * nscale (Z.abs n) * g Zcc (ix jF (Z.abs n) m) / 2 + mscale m * nscale (Z.abs n) * IZR (signum n) * g Zss (ix jF (Z.abs n) m) / 2,
                mscale m * nscale (Z.abs n) * g Lcc (ix jF (Z.abs n) m) / 2 + mscale m * nscale (Z.abs n) * IZR (signum n) * g Lss (ix jF (Z.abs n) m) / 2)
          else (mscale m * nscale (Z.abs n) * g Rsc (ix jF (Z.abs n) m) / 2, mscale m * nscale (Z.abs n) * g Zcc (ix jF (Z.abs n) m) / 2, mscale m * nscale (Z.abs n) * g Lcc (ix jF (Z.abs n) m) / 2))
       else a)
     (fun m n => if (n =? 0)%Z then (mscale m * nscale (Z.abs n) * g Rsc (ix jF (Z.abs n) m), mscale m * nscale (Z.abs n) * g Zcc (ix jF (Z.abs n) m), mscale m * nscale (Z.abs n) * g Lcc (ix jF (Z.abs n) m))
       else if (0 <? jF)%Z then
         (mscale m * nscale (Z.abs n) * (g Rsc (ix jF (Z.abs n) m) - (if lthreed then IZR (Z.sgn n) * g Rcs (ix jF (Z.abs n) m) else 0)) / 2,
          mscale m * nscale (Z.abs n) * (g Zcc (ix jF (Z.abs n) m) + (if lthreed then IZR (Z.sgn n) * g Zss (ix jF (Z.abs n) m) else 0)) / 2,
          mscale m * nscale (Z.abs n) * (g Lcc (ix jF (Z.abs n) m) + (if lthreed then IZR (Z.sgn n) * g Lss (ix jF (Z.abs n) m) else 0)) / 2)
       else (0, 0, 0)) s1) as (B1 & B2 & B3).
  - intros m n k a E. destruct (n =? 0)%Z; [unfold upd; rewrite Z.eqb_refl; reflexivity|]. destruct (0 <? jF)%Z; [|exact E].
    unfold upd. rewrite Z.eqb_refl, signum_sgn. destruct lthreed; triple; field.
  - intros m n k a j Ne. apply Z.eqb_neq in Ne. unfold upd. destruct (n =? 0)%Z; [rewrite Ne; reflexivity|]. destruct (0 <? jF)%Z; [rewrite Ne|]; reflexivity.
  - exact A1.
  - intros j Hj. rewrite A2. destruct (Z.leb_spec 0 j), (Z.leb_spec j ntor); cbn [andb]; try lia; reflexivity.
  - split; [exact B1|]. intros m n (V1 & V2 & V3). destruct (Z.eq_dec m 0) as [->|Nm].
    + specialize (V3 eq_refl). unfold mode_pos. cbn [Z.eqb]. etransitivity; [apply B3; lia|]. rewrite A2.
      destruct (Z.leb_spec 0 n), (Z.leb_spec n ntor); cbn [andb]; try lia. unfold asym_val. cbn [Z.eqb fst snd]. rewrite Z.abs_eq by lia. reflexivity.
    + etransitivity; [apply B2; lia|]. unfold asym_val. destruct (Z.eqb_spec m 0); [lia|]. reflexivity.
Qed.

Lemma store_at lam ph col k j : (0 <= k < n_modes mpol ntor)%Z -> (0 <= j < ns)%Z ->
  let w := store_columns mpol ntor ns lam ph col in
  w1 w k j = fst (fst (col j k)) /\ w2 w k j = snd (fst (col j k)) /\ w3 w k j = snd (col j k) / ph j * lam.
Proof.
  intros Hk Hj w.
  pose proof (for_up_ind (fun hi w => forall j k, (0 <= j < hi)%Z -> (0 <= k < n_modes mpol ntor)%Z ->
       w1 w k j = fst (fst (col j k)) /\ w2 w k j = snd (fst (col j k)) /\ w3 w k j = snd (col j k) / ph j * lam)
    (fun jF w => for_up 0 (mnMax mpol ntor) (fun mn w =>
    let '(a, b, c) := col jF mn in
    mkW (upd2 (w1 w) mn jF a) (upd2 (w2 w) mn jF b) (upd2 (w3 w) mn jF (c / ph jF * lam))) w)
    0%Z ns (mkW (fun _ _ => 0) (fun _ _ => 0) (fun _ _ => 0)) ltac:(lia)) as G.
  apply G; auto; [intros; lia|]. clear k j Hk Hj w G.
  intros J w HJ IH.
  change (mnMax mpol ntor) with (n_modes mpol ntor).
  pose proof (for_up_ind (fun hi w => (forall j k, (0 <= j < J)%Z -> (0 <= k < n_modes mpol ntor)%Z ->
       w1 w k j = fst (fst (col j k)) /\ w2 w k j = snd (fst (col j k)) /\ w3 w k j = snd (col j k) / ph j * lam) /\
       (forall k, (0 <= k < hi)%Z -> w1 w k J = fst (fst (col J k)) /\ w2 w k J = snd (fst (col J k)) /\ w3 w k J = snd (col J k) / ph J * lam))
    (fun mn w =>
    let '(a, b, c) := col J mn in
    mkW (upd2 (w1 w) mn J a) (upd2 (w2 w) mn J b) (upd2 (w3 w) mn J (c / ph J * lam))) 0%Z (n_modes mpol ntor) w) as G.
  destruct G as (G1 & G2).
  - unfold n_modes. nia.
  - split; [exact IH|intros; lia].
  - intros mn t Hmn (I1 & I2). destruct (col J mn) as ((a, b), c) eqn:EC. cbn [w1 w2 w3]. unfold upd2. split.
    + intros j k A B. destruct (Z.eqb_spec j J); [lia|]. rewrite andb_false_r. apply I1; auto.
    + intros k A. rewrite Z.eqb_refl, andb_true_r. destruct (Z.eqb_spec k mn) as [->|Ne].
      * rewrite EC. auto.
      * apply I2. lia.
  - intros j k A B. destruct (Z.eq_dec j J) as [->|Ne]; [apply G2; auto|apply G1; lia].
Qed.
End Hot.
