From Coq Require Import ZArith List Bool Reals Lia Lra.
From Verif Require Import Base BaseLemmas SumLemmas PartModel SizesModel FourierModel FourierSpec FourierProofs DftModel DftSpec DftTables LapMain WoutModel.
Import ListNotations.
Open Scope R_scope.

Lemma for_up_touch {S T} (pr : S -> T) (f : T -> T) (body : Z -> S -> S) lo hi x0 :
  (lo <= x0 < hi)%Z -> (forall s, pr (body x0 s) = f (pr s)) ->
  (forall x s, (lo <= x < hi)%Z -> x <> x0 -> pr (body x s) = pr s) ->
  forall s, pr (for_up lo hi body s) = f (pr s).
Proof.
  intros Hx H1 H2 s0. rewrite (for_up_split lo x0 hi) by lia. rewrite (for_up_cons x0) by lia.
  rewrite (for_up_keep pr) by (intros; apply H2; lia). rewrite H1. f_equal.
  apply for_up_keep. intros. apply H2; lia.
Qed.
Lemma upd2_eq {A} (f : Z -> Z -> A) i j v : upd2 f i j v i j = v.
Proof. unfold upd2. rewrite !Z.eqb_refl. reflexivity. Qed.
Lemma upd2_neq {A} (f : Z -> Z -> A) i j v i' j' : i' <> i \/ j' <> j -> upd2 f i j v i' j' = f i' j'.
Proof. intros H. unfold upd2. destruct (Z.eqb_spec i' i); destruct (Z.eqb_spec j' j); cbn [andb]; try reflexivity; lia. Qed.

(** The value of a coefficient after the m = 1 conversion. *)
Definition m1val (s : sizes) (c : comp) (b : bk) (m : Z) (v : comp -> bk -> R) : R :=
  if (m =? 1)%Z then
    match c, b with
    | cR, b_ss => if sz_lthreed s then v cR b_ss + v cZ b_cs else v c b
    | cZ, b_cs => if sz_lthreed s then v cR b_ss - v cZ b_cs else v c b
    | cR, b_sc => if sz_lasym s then v cR b_sc + v cZ b_cc else v c b
    | cZ, b_cc => if sz_lasym s then v cR b_sc - v cZ b_cc else v c b
    | _, _ => v c b end
  else v c b.

Section P.
Variables (s : sizes) (p : rpart) (ns : Z).
Hypothesis OK : sz_ok s.
Hypothesis M2 : (2 <= sz_mpol s)%Z.
Local Notation mpol := (sz_mpol s).
Local Notation ntor := (sz_ntor s).
Lemma local_inj j m n j' m' n' : (0 <= m < mpol)%Z -> (0 <= m' < mpol)%Z -> (0 <= n <= ntor)%Z -> (0 <= n' <= ntor)%Z ->
  ((j * mpol + m) * (ntor + 1) + n = (j' * mpol + m') * (ntor + 1) + n')%Z -> j = j' /\ m = m' /\ n = n'.
Proof. intros. apply flat_inj in H3; [|lia|lia]. destruct H3 as [E ->]. apply flat_inj in E; [|lia|lia]. tauto. Qed.
Lemma gidx_inj j m n j' m' n' : (0 <= m < mpol)%Z -> (0 <= m' < mpol)%Z -> (0 <= n <= ntor)%Z -> (0 <= n' <= ntor)%Z ->
  gidx s j m n = gidx s j' m' n' -> j = j' /\ m = m' /\ n = n'.
Proof. unfold gidx. intros. apply flat_inj in H3; [|lia|lia]. destruct H3 as [E ->]. apply flat_inj in E; [|lia|lia]. tauto. Qed.

Lemma dec_at scalxc x m_x c b j m n : has s c b = true -> (nsMinF1 p <= j < nsMaxF1 p)%Z -> (0 <= m < mpol)%Z -> (0 <= n <= ntor)%Z ->
  decomposeInto s p ns scalxc x m_x c b (at_mn s (j - nsMinF1 p) m n) =
  x c b (at_mn s (j - nsMinF1 p) m n) * scalxc ((j - nsMinF1 p) * 2 + Z.rem m 2)%Z.
Proof.
  intros HB Hj Hm Hn. unfold decomposeInto, at_mn. cbv zeta.
  replace (if (nsMaxF1 p =? ns)%Z then ns else nsMaxF1 p) with (nsMaxF1 p) by (destruct (Z.eqb_spec (nsMaxF1 p) ns); lia).
  pose (pr := fun y : coefs => y c b (((j - nsMinF1 p) * mpol + m) * (ntor + 1) + n)%Z).
  apply (for_up_set pr _ (nsMinF1 p) (nsMaxF1 p) j); [lia| |].
  - intros y1. apply (for_up_set pr _ 0 mpol m); [lia| |].
    + intros y2. apply (for_up_set pr _ 0 (ntor + 1) n); [lia| |].
      * intros y3. unfold pr. rewrite HB. apply upd_eq.
      * intros n' y3 Hn' NE. unfold pr. rewrite HB. apply upd_neq. intros E. apply local_inj in E; lia.
    + intros m' y2 Hm' NE. apply (for_up_keep pr). intros n' y3 Hn'. unfold pr. rewrite HB. apply upd_neq. intros E. apply local_inj in E; lia.
  - intros j' y1 Hj' NE. apply (for_up_keep pr). intros m' y2 Hm'. apply (for_up_keep pr). intros n' y3 Hn'. unfold pr. rewrite HB. apply upd_neq.
    intros E. apply local_inj in E; lia.
Qed.

Let quad (i : Z) (x : coefs) : R * R * R * R := (x cR b_ss i, x cZ b_cs i, x cR b_sc i, x cZ b_cc i).
Let rest (c : comp) (b : bk) : bool := match c, b with cR, b_ss | cZ, b_cs | cR, b_sc | cZ, b_cc => false | _, _ => true end.
Let fq_ (q : R * R * R * R) : R * R * R * R :=
  let '(a, b, c, d) := q in
  ((if sz_lthreed s then a + b else a), (if sz_lthreed s then a - b else b), (if sz_lasym s then c + d else c), (if sz_lasym s then c - d else d)).
Let um (i : Z) (x : coefs) : coefs :=
  let x := if sz_lthreed s then set_ss_cs (m1_pair i (x cR b_ss, x cZ b_cs)) x else x in
  if sz_lasym s then set_sc_cc (m1_pair i (x cR b_sc, x cZ b_cc)) x else x.
Lemma um_rest i x c b : rest c b = true -> um i x c b = x c b.
Proof. unfold um. cbv zeta. destruct (sz_lthreed s), (sz_lasym s), c, b; intros H; try discriminate H; reflexivity. Qed.
Lemma um_quad i x : quad i (um i x) = fq_ (quad i x).
Proof.
  unfold quad, um, fq_, m1_pair. cbv zeta.
  destruct (sz_lthreed s), (sz_lasym s); cbn [set_ss_cs set_sc_cc fst snd]; rewrite ?upd_eq, ?Rmult_1_r; reflexivity.
Qed.
Lemma um_other i i' x : i <> i' -> quad i (um i' x) = quad i x.
Proof.
  intros N0. unfold quad, um, m1_pair. cbv zeta.
  destruct (sz_lthreed s), (sz_lasym s); cbn [set_ss_cs set_sc_cc fst snd]; rewrite ?upd_neq by exact N0; reflexivity.
Qed.
Lemma undo_rest x c b : rest c b = true -> undo_m1 s p x c b = x c b.
Proof.
  intros H. unfold undo_m1. apply (for_up_keep (fun x : coefs => x c b)). intros j y Hj. apply (for_up_keep (fun x : coefs => x c b)). intros n z Hn.
  apply um_rest. exact H.
Qed.
Lemma undo_quad x j n : (nsMinF1 p <= j < nsMaxF1 p)%Z -> (0 <= n <= ntor)%Z ->
  quad (at_mn s (j - nsMinF1 p) 1 n) (undo_m1 s p x) = fq_ (quad (at_mn s (j - nsMinF1 p) 1 n) x).
Proof.
  intros Hj Hn. unfold undo_m1. apply (for_up_touch (quad (at_mn s (j - nsMinF1 p) 1 n)) fq_ _ (nsMinF1 p) (nsMaxF1 p) j); [lia| |].
  - intros y. apply (for_up_touch (quad (at_mn s (j - nsMinF1 p) 1 n)) fq_ _ 0 (ntor + 1) n); [lia| |].
    + intros z. apply um_quad.
    + intros n' z Hn' NE. apply um_other. unfold at_mn. intros E. apply local_inj in E; lia.
  - intros j' y Hj' NE. apply for_up_keep. intros n' z Hn'. apply um_other. unfold at_mn. intros E. apply local_inj in E; lia.
Qed.
Lemma undo_other x j m n : m <> 1%Z -> (nsMinF1 p <= j < nsMaxF1 p)%Z -> (0 <= m < mpol)%Z -> (0 <= n <= ntor)%Z ->
  quad (at_mn s (j - nsMinF1 p) m n) (undo_m1 s p x) = quad (at_mn s (j - nsMinF1 p) m n) x.
Proof.
  intros M1 Hj Hm Hn. unfold undo_m1. apply for_up_keep. intros j' y Hj'. apply for_up_keep. intros n' z Hn'.
  apply um_other. unfold at_mn. intros E. apply local_inj in E; lia.
Qed.
Lemma undo_at x c b j m n : (nsMinF1 p <= j < nsMaxF1 p)%Z -> (0 <= m < mpol)%Z -> (0 <= n <= ntor)%Z ->
  undo_m1 s p x c b (at_mn s (j - nsMinF1 p) m n) = m1val s c b m (fun c b => x c b (at_mn s (j - nsMinF1 p) m n)).
Proof.
  intros Hj Hm Hn. unfold m1val. destruct (Z.eqb_spec m 1) as [-> | N0].
  - assert (Q := undo_quad x j n Hj Hn). unfold quad, fq_ in Q.
    apply pair_equal_spec in Q. destruct Q as [Q Q4]. apply pair_equal_spec in Q. destruct Q as [Q Q3]. apply pair_equal_spec in Q. destruct Q as [Q1 Q2].
    destruct c, b; try (rewrite undo_rest by reflexivity; reflexivity); assumption.
  - assert (Q := undo_other x j m n N0 Hj Hm Hn). unfold quad in Q.
    apply pair_equal_spec in Q. destruct Q as [Q Q4]. apply pair_equal_spec in Q. destruct Q as [Q Q3]. apply pair_equal_spec in Q. destruct Q as [Q1 Q2].
    destruct c, b; try (rewrite undo_rest by reflexivity; reflexivity); assumption.
Qed.
Lemma extra_keep x c b j m n : (0 <= nsMinF1 p)%Z -> (nsMinF1 p <= j)%Z -> (1 <= j \/ m <> 1 /\ c <> cL)%Z -> (0 <= m < mpol)%Z -> (0 <= n <= ntor)%Z ->
  extrapolateTowardsAxis s p x c b (at_mn s (j - nsMinF1 p) m n) = x c b (at_mn s (j - nsMinF1 p) m n).
Proof.
  intros H0 Hj HC Hm Hn. unfold extrapolateTowardsAxis. destruct (Z.gtb_spec (nsMinF1 p) 0); [reflexivity|].
  assert (J : nsMinF1 p = 0%Z) by lia.
  pose (pr := fun y : coefs => y c b (at_mn s (j - nsMinF1 p) m n)). apply (for_up_keep pr). intros n' y Hn'. unfold pr. cbv zeta.
  assert (A1 : at_mn s (j - nsMinF1 p) m n <> ((0 * mpol + 1) * (ntor + 1) + n')%Z) by (unfold at_mn; intros E; apply local_inj in E; lia).
  destruct (has s c b); [|reflexivity].
  assert (U1 : upd (y c b) ((0 * mpol + 1) * (ntor + 1) + n')%Z (y c b ((1 * mpol + 1) * (ntor + 1) + n')%Z) (at_mn s (j - nsMinF1 p) m n) = y c b (at_mn s (j - nsMinF1 p) m n)) by (apply upd_neq; exact A1).
  assert (A0 : c = cL -> at_mn s (j - nsMinF1 p) m n <> ((0 * mpol + 0) * (ntor + 1) + n')%Z).
  { intros HL. destruct HC as [HC|[_ HC]]; [|congruence]. unfold at_mn. intros E. apply local_inj in E; lia. }
  destruct c, b; try exact U1; rewrite upd_neq by (apply A0; reflexivity); exact U1.
Qed.
(** Coefficients with which the geometry is evaluated, away from the axis. *)
Lemma prepare_at scalxc x m_x c b j m n : has s c b = true -> (0 <= nsMinF1 p)%Z -> (nsMinF1 p <= j < nsMaxF1 p)%Z -> (1 <= j \/ m <> 1 /\ c <> cL)%Z ->
  (0 <= m < mpol)%Z -> (0 <= n <= ntor)%Z ->
  prepare s p ns scalxc x m_x c b (at_mn s (j - nsMinF1 p) m n) =
  m1val s c b m (fun c b => x c b (at_mn s (j - nsMinF1 p) m n)) * scalxc ((j - nsMinF1 p) * 2 + Z.rem m 2)%Z.
Proof.
  intros HB H0 Hj HC Hm Hn. unfold prepare. rewrite extra_keep by (assumption || lia). rewrite undo_at by assumption.
  unfold m1val. destruct (Z.eqb_spec m 1) as [E | N0].
  - destruct c, b; cbn [has] in HB; rewrite ?HB; try (apply dec_at; assumption || (cbn [has]; assumption));
      rewrite !dec_at by (assumption || (cbn [has]; assumption) || reflexivity); ring.
  - apply dec_at; assumption.
Qed.

(** The collected coefficients after the conversion. *)
Lemma m1_phys_at rz j m n : (0 <= j < ns)%Z -> (0 <= m < mpol)%Z -> (0 <= n <= ntor)%Z ->
  (fst (m1_physical s ns rz) (gidx s j m n), snd (m1_physical s ns rz) (gidx s j m n)) =
  (if (m =? 1)%Z then (fst rz (gidx s j m n) + snd rz (gidx s j m n), fst rz (gidx s j m n) - snd rz (gidx s j m n))
   else (fst rz (gidx s j m n), snd rz (gidx s j m n))).
Proof.
  intros Hj Hm Hn. unfold m1_physical.
  pose (pr := fun q : (Z -> R) * (Z -> R) => (fst q (gidx s j m n), snd q (gidx s j m n))).
  pose (f := fun q : R * R => (fst q + snd q, fst q - snd q)).
  destruct (Z.eqb_spec m 1) as [-> | N0].
  - change (pr (for_up 0 ns (fun jF rz => for_up 0 (ntor + 1) (fun n rz => let idx_fc := gidx s jF 1 n in let old := fst rz idx_fc in
      let r := upd (fst rz) idx_fc (old + snd rz idx_fc) in (r, upd (snd rz) idx_fc (old - snd rz idx_fc))) rz) rz) = f (pr rz)).
    apply (for_up_touch pr f _ 0 ns j); [lia| |].
    + intros y. apply (for_up_touch pr f _ 0 (ntor + 1) n); [lia| |].
      * intros z. unfold pr, f. cbn [fst snd]. rewrite !upd_eq. reflexivity.
      * intros n' z Hn' NE. unfold pr. cbn [fst snd]. rewrite !upd_neq; [reflexivity| |]; intros E; apply gidx_inj in E; lia.
    + intros j' y Hj' NE. apply for_up_keep. intros n' z Hn'. unfold pr. cbn [fst snd]. rewrite !upd_neq; [reflexivity| |]; intros E; apply gidx_inj in E; lia.
  - apply (for_up_keep pr). intros j' y Hj'. apply (for_up_keep pr). intros n' z Hn'. unfold pr. cbn [fst snd].
    rewrite !upd_neq; [reflexivity| |]; intros E; apply gidx_inj in E; lia.
Qed.
Lemma physical_at X c b j m n : (0 <= j < ns)%Z -> (0 <= m < mpol)%Z -> (0 <= n <= ntor)%Z ->
  physical s ns X c b (gidx s j m n) = m1val s c b m (fun c b => X c b (gidx s j m n)).
Proof.
  intros Hj Hm Hn. unfold physical, m1val. cbv zeta.
  assert (A := fun rz => m1_phys_at rz j m n Hj Hm Hn).
  assert (A1 := A (X cR b_ss, X cZ b_cs)). assert (A2 := A (X cR b_sc, X cZ b_cc)). cbn [fst snd] in A1, A2.
  destruct (m =? 1)%Z; apply pair_equal_spec in A1; apply pair_equal_spec in A2; destruct A1, A2;
    destruct (sz_lthreed s), (sz_lasym s), c, b; cbn [set_ss_cs set_sc_cc]; try reflexivity; assumption.
Qed.
End P.
