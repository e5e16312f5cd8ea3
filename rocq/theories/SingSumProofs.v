From Coq Require Import ZArith List Bool Reals Lia Lra.
From Verif Require Import Base BaseLemmas SumLemmas SizesModel FourierModel DftSpec DftTables VacTables
  SingSumModel SingSumSpec.
Import ListNotations.
Open Scope R_scope.

Lemma for_up_delta {A} (g : A -> R) (body : Z -> A -> A) (delta : Z -> R) lo hi :
  (forall x s, (lo <= x < hi)%Z -> g (body x s) = g s + delta x) ->
  forall s, g (for_up lo hi body s) = g s + zsum lo hi delta.
Proof.
  intros H. unfold zsum, for_up.
  assert (K : forall l, (forall j, In j l -> (lo <= j < hi)%Z) -> forall s,
     g (fold_left (fun s j => body j s) l s) = g s + rsum l delta).
  { induction l as [|j l IH]; intros Hl b; [cbn; lra|]. cbn [fold_left rsum].
    rewrite IH by (intros; apply Hl; right; auto). rewrite H by (apply Hl; left; auto). lra. }
  intros s. apply K. intros j. apply zrange_In.
Qed.
Lemma add_at_get a i v j : add_at a i v j = a j + (if (i =? j)%Z then v else 0).
Proof. unfold add_at, upd. rewrite Z.eqb_sym. destruct (Z.eqb_spec i j); subst; lra. Qed.
Lemma zsum4 n f : (0 <= n)%Z ->
  zsum 0 n (fun p => f (4 * p + 0)%Z + f (4 * p + 1)%Z + f (4 * p + 2)%Z + f (4 * p + 3)%Z) = zsum 0 (4 * n) f.
Proof.
  intros Hn. rewrite <- (Z2Nat.id n) by lia. induction (Z.to_nat n) as [|k IH]; [reflexivity|].
  replace (Z.of_nat (S k)) with (Z.of_nat k + 1)%Z by lia.
  rewrite zsum_snoc by lia. rewrite IH.
  replace (4 * (Z.of_nat k + 1))%Z with (4 * Z.of_nat k + 1 + 1 + 1 + 1)%Z by lia.
  rewrite !zsum_snoc by lia.
  replace (4 * Z.of_nat k + 1 + 1)%Z with (4 * Z.of_nat k + 2)%Z by lia.
  replace (4 * Z.of_nat k + 2 + 1)%Z with (4 * Z.of_nat k + 3)%Z by lia.
  rewrite Z.add_0_r. lra.
Qed.

Section S.
Variables mf nf nZeta nThetaReduced nThetaEven mnyq2 ztMin ztMax : Z.
Variables lasym fullUpdate : bool.
Variable fb : basis_tables.
Variables wInt cmns : Z -> R.
Variables Tlp Tlm Slp Slm : Z -> Z -> R.
Variable bDotN : Z -> R.
Hypothesis HZ : (1 <= nZeta)%Z.
Hypothesis Hlo : (0 <= ztMin)%Z.
Hypothesis Hhi : (ztMin <= ztMax)%Z.

Local Notation posn := (i_posn mf nf).
Local Notation negn := (i_negn mf nf).
Local Notation nl := (numLocal ztMin ztMax).

Definition snm (n m kl : Z) : R := sgnmu nThetaReduced (kl / nZeta) * bt_sinmu fb (i_lm nThetaReduced nThetaEven mnyq2 (kl / nZeta) m).
Definition csm (n m kl : Z) : R := bt_cosmu fb (i_lm nThetaReduced nThetaEven mnyq2 (kl / nZeta) m).
Definition cnv (n kl : Z) : R := bt_cosnv fb (i_nk nZeta n (kl mod nZeta)).
Definition snv (n kl : Z) : R := bt_sinnv fb (i_nk nZeta n (kl mod nZeta)).
Definition cf fl n m := cfac mf nf cmns fl n m.
Definition SP fl n m kl := (snm n m kl * cnv n kl - csm n m kl * snv n kl) * cf fl n m.
Definition SM fl n m kl := (snm n m kl * cnv n kl + csm n m kl * snv n kl) * cf fl n m.
Definition CP fl n m kl := (csm n m kl * cnv n kl + snm n m kl * snv n kl) * cf fl n m.
Definition CM fl n m kl := (csm n m kl * cnv n kl - snm n m kl * snv n kl) * cf fl n m.
Definition bw kl := bDotN (kl - ztMin)%Z * wInt (kl / nZeta)%Z.
Definition at_ (i j : Z) (v : R) : R := if (i =? j)%Z then v else 0.

Definition ind (i j : Z) : R := if (i =? j)%Z then 1 else 0.
Lemma at_ind i j v : at_ i j v = ind i j * v.
Proof. unfold at_, ind. destruct (i =? j)%Z; lra. Qed.
Lemma add_at_ind a i v j : add_at a i v j = a j + ind i j * v.
Proof. rewrite add_at_get. unfold ind. destruct (i =? j)%Z; lra. Qed.
(** Amounts added by one grid point. *)
Definition dbs fl n m j kl := at_ (posn n m) j (Tlp fl (kl - ztMin)%Z * bw kl * SP fl n m kl)
  + at_ (negn n m) j (Tlm fl (kl - ztMin)%Z * bw kl * SM fl n m kl).
Definition dgs fl n m j kl := at_ (posn n m * nl + (kl - ztMin))%Z j (Slp fl (kl - ztMin)%Z * SP fl n m kl)
  + at_ (negn n m * nl + (kl - ztMin))%Z j (Slm fl (kl - ztMin)%Z * SM fl n m kl).
Definition dbc fl n m j kl := at_ (posn n m) j (Tlp fl (kl - ztMin)%Z * bw kl * CP fl n m kl)
  + at_ (negn n m) j (Tlm fl (kl - ztMin)%Z * bw kl * CM fl n m kl).
Definition dgc fl n m j kl := at_ (posn n m * nl + (kl - ztMin))%Z j (Slp fl (kl - ztMin)%Z * CP fl n m kl)
  + at_ (negn n m * nl + (kl - ztMin))%Z j (Slm fl (kl - ztMin)%Z * CM fl n m kl).
Definition gate (b : bool) (x : R) : R := if b then x else 0.

Lemma at_plus i j x y : at_ i j (x + y) = at_ i j x + at_ i j y.
Proof. unfold at_. destruct (i =? j)%Z; lra. Qed.

Lemma in_row kl i : (0 <= i < nZeta - kl mod nZeta)%Z ->
  ((kl + i) / nZeta = kl / nZeta)%Z /\ ((kl + i) mod nZeta = kl mod nZeta + i)%Z.
Proof.
  intros Hi. pose proof (Z.mod_pos_bound kl nZeta ltac:(lia)). pose proof (Z.div_mod kl nZeta ltac:(lia)) as D.
  assert (E : (kl + i = nZeta * (kl / nZeta) + (kl mod nZeta + i))%Z) by lia.
  split; symmetry.
  - apply Z.div_unique_pos with (kl mod nZeta + i)%Z; lia.
  - apply Z.mod_unique_pos with (kl / nZeta)%Z; lia.
Qed.

Lemma unrolled_spec fl n m kl passes gs j :
  (0 <= passes)%Z -> (4 * passes <= nZeta - kl mod nZeta)%Z ->
  let '(((p0, p1, p2, p3), (q0, q1, q2, q3)), gs') :=
    unrolled mf nf nZeta ztMin ztMax fullUpdate fb wInt Tlp Tlm Slp Slm bDotN fl n m (kl / nZeta) (kl mod nZeta) kl passes
      (sgnmu nThetaReduced (kl / nZeta) * bt_sinmu fb (i_lm nThetaReduced nThetaEven mnyq2 (kl / nZeta) m) * cf fl n m)
      (bt_cosmu fb (i_lm nThetaReduced nThetaEven mnyq2 (kl / nZeta) m) * cf fl n m) gs in
  p0 + p1 + p2 + p3 = zsum 0 (4 * passes) (fun i => Tlp fl (kl + i - ztMin)%Z * bw (kl + i) * SP fl n m (kl + i)) /\
  q0 + q1 + q2 + q3 = zsum 0 (4 * passes) (fun i => Tlm fl (kl + i - ztMin)%Z * bw (kl + i) * SM fl n m (kl + i)) /\
  gs' j = gs j + zsum 0 (4 * passes) (fun i => gate fullUpdate (dgs fl n m j (kl + i))).
Proof.
  intros Hp Hr.
  assert (RW : forall p i, (0 <= p < passes)%Z -> (0 <= i < 4)%Z ->
     ((kl + (4 * p + i)) / nZeta = kl / nZeta /\ (kl + (4 * p + i)) mod nZeta = kl mod nZeta + (4 * p + i))%Z).
  { intros. apply in_row. lia. }
  unfold unrolled.
  match goal with |- context [for_up 0 passes ?B ?S0] => set (bd := B); set (s0 := S0) end.
  pose (g1 := fun s : ((R * R * R * R) * (R * R * R * R)) * (Z -> R) => let '(((p0, p1, p2, p3), _), _) := s in p0 + p1 + p2 + p3).
  pose (g2 := fun s : ((R * R * R * R) * (R * R * R * R)) * (Z -> R) => let '((_, (p0, p1, p2, p3)), _) := s in p0 + p1 + p2 + p3).
  pose (g3 := fun s : ((R * R * R * R) * (R * R * R * R)) * (Z -> R) => snd s j).
  pose (f1 := fun i => Tlp fl (kl + i - ztMin)%Z * bw (kl + i) * SP fl n m (kl + i)).
  pose (f2 := fun i => Tlm fl (kl + i - ztMin)%Z * bw (kl + i) * SM fl n m (kl + i)).
  pose (f3 := fun i => gate fullUpdate (dgs fl n m j (kl + i))).
  assert (E : forall p i, (0 <= p < passes)%Z -> (0 <= i < 4)%Z ->
     (kl + 4 * p - ztMin + i = kl + (4 * p + i) - ztMin /\ kl mod nZeta + 4 * p + i = (kl + (4 * p + i)) mod nZeta)%Z).
  { intros p i Hpi Hi. destruct (RW p i Hpi Hi) as [_ ->]. lia. }
  assert (D : forall p s, (0 <= p < passes)%Z ->
     g1 (bd p s) = g1 s + (f1 (4 * p + 0)%Z + f1 (4 * p + 1)%Z + f1 (4 * p + 2)%Z + f1 (4 * p + 3)%Z) /\
     g2 (bd p s) = g2 s + (f2 (4 * p + 0)%Z + f2 (4 * p + 1)%Z + f2 (4 * p + 2)%Z + f2 (4 * p + 3)%Z) /\
     g3 (bd p s) = g3 s + (f3 (4 * p + 0)%Z + f3 (4 * p + 1)%Z + f3 (4 * p + 2)%Z + f3 (4 * p + 3)%Z)).
  { intros p [[[[[p0 p1] p2] p3] [[[q0 q1] q2] q3]] gs1] Hpp.
    destruct (RW p 0%Z Hpp ltac:(lia)) as [A0 _]. destruct (RW p 1%Z Hpp ltac:(lia)) as [A1 _].
    destruct (RW p 2%Z Hpp ltac:(lia)) as [A2 _]. destruct (RW p 3%Z Hpp ltac:(lia)) as [A3 _].
    destruct (E p 0%Z Hpp ltac:(lia)) as [B0 C0]. destruct (E p 1%Z Hpp ltac:(lia)) as [B1 C1].
    destruct (E p 2%Z Hpp ltac:(lia)) as [B2 C2]. destruct (E p 3%Z Hpp ltac:(lia)) as [B3 C3].
    unfold bd, g1, g2, g3, f1, f2, f3. cbv beta iota zeta. cbn [snd].
    unfold lane_sinp, lane_sinm. rewrite C0, C1, C2, C3, B0, B1, B2, B3.
    unfold bw, SP, SM, dgs, snm, csm, cnv, snv. rewrite A0, A1, A2, A3.
    split; [ring|]. split; [ring|].
    destruct fullUpdate; unfold gate; [|lra].
    assert (G : forall a i, (a * nl + (kl + 4 * p - ztMin) + i = a * nl + (kl + (4 * p + i) - ztMin))%Z) by (intros; lia).
    rewrite !add_at_ind, !at_ind. rewrite !G.
    unfold SP, SM, snm, csm, cnv, snv. rewrite A0, A1, A2, A3. ring. }
  pose proof (for_up_delta g1 bd _ 0 passes (fun p s H => proj1 (D p s H)) s0) as R1.
  pose proof (for_up_delta g2 bd _ 0 passes (fun p s H => proj1 (proj2 (D p s H))) s0) as R2.
  pose proof (for_up_delta g3 bd _ 0 passes (fun p s H => proj2 (proj2 (D p s H))) s0) as R3.
  rewrite zsum4 in R1, R2, R3 by assumption.
  destruct (for_up 0 passes bd s0) as [[[[[p0 p1] p2] p3] [[[q0 q1] q2] q3]] gs1].
  unfold g1, g2, g3, s0 in R1, R2, R3. cbn [snd] in R3. fold f1 f2 f3. split; [|split]; lra.
Qed.

Lemma leftover_spec fl n m kl from remaining bs gs j :
  (0 <= from <= remaining)%Z -> (remaining <= nZeta - kl mod nZeta)%Z ->
  let r := leftover mf nf nZeta nThetaReduced nThetaEven mnyq2 ztMin ztMax fullUpdate fb wInt cmns Tlp Tlm Slp Slm bDotN
    fl n m (kl / nZeta) (kl mod nZeta) kl from remaining (bs, gs) in
  fst r j = bs j + zsum from remaining (fun i => dbs fl n m j (kl + i)) /\
  snd r j = gs j + zsum from remaining (fun i => gate fullUpdate (dgs fl n m j (kl + i))).
Proof.
  intros Hf Hr. cbv zeta. unfold leftover.
  match goal with |- context [for_up from remaining ?B ?S0] => set (bd := B); set (s0 := S0) end.
  assert (D : forall i s, (from <= i < remaining)%Z ->
     fst (bd i s) j = fst s j + dbs fl n m j (kl + i) /\
     snd (bd i s) j = snd s j + gate fullUpdate (dgs fl n m j (kl + i))).
  { intros i [b g] Hi. destruct (in_row kl i ltac:(lia)) as [A B].
    unfold bd. cbv beta iota zeta. cbn [fst snd]. rewrite <- B.
    unfold dbs, dgs, bw, SP, SM, snm, csm, cnv, snv. rewrite A. fold (cf fl n m). split.
    - rewrite !add_at_ind, !at_ind. ring.
    - destruct fullUpdate; unfold gate; [|lra]. rewrite !add_at_ind, !at_ind.
      unfold SP, SM, snm, csm, cnv, snv. rewrite ?A. ring. }
  split.
  - apply (for_up_delta (fun s => fst s j) bd _ from remaining (fun i s H => proj1 (D i s H)) s0).
  - apply (for_up_delta (fun s => snd s j) bd _ from remaining (fun i s H => proj2 (D i s H)) s0).
Qed.

Lemma row_spec fl n m kl bs gs j :
  (0 <= kl < ztMax)%Z ->
  let r := row mf nf nZeta nThetaReduced nThetaEven mnyq2 ztMin ztMax fullUpdate fb wInt cmns Tlp Tlm Slp Slm bDotN
    fl n m kl (bs, gs) in
  (kl < fst r <= ztMax)%Z /\
  fst (snd r) j = bs j + zsum kl (fst r) (dbs fl n m j) /\
  snd (snd r) j = gs j + zsum kl (fst r) (fun kl => gate fullUpdate (dgs fl n m j kl)).
Proof.
  intros Hk. pose proof (Z.mod_pos_bound kl nZeta ltac:(lia)) as MB.
  unfold row. set (rem := Z.min (nZeta - kl mod nZeta) (ztMax - kl)).
  assert (Hrem : (1 <= rem)%Z) by (unfold rem; lia).
  assert (Hrem2 : (rem <= nZeta - kl mod nZeta /\ rem <= ztMax - kl)%Z) by (unfold rem; lia). clearbody rem.
  pose proof (Z.div_mod rem 4 ltac:(lia)) as D4. pose proof (Z.mod_pos_bound rem 4 ltac:(lia)).
  set (ps := (rem / 4)%Z) in *. cbv zeta.
  pose proof (unrolled_spec fl n m kl ps gs j ltac:(lia) ltac:(lia)) as U.
  unfold cf in U.
  match goal with |- context [unrolled ?a ?b ?c ?d ?e ?f ?g ?h ?i ?k ?l ?m0 ?n0 ?o ?p ?q ?r ?s ?t ?u ?v ?w ?x] =>
    destruct (unrolled a b c d e f g h i k l m0 n0 o p q r s t u v w x) as [[[[[p0 p1] p2] p3] [[[q0 q1] q2] q3]] gs1] eqn:EU end.
  destruct U as (U1 & U2 & U3).
  match goal with |- context [leftover _ _ _ _ _ _ _ _ _ _ _ _ _ _ _ _ _ _ _ _ _ _ _ _ _ (?b, _)] => set (bs1 := b) end.
  pose proof (leftover_spec fl n m kl (4 * ps) rem bs1 gs1 j ltac:(lia) ltac:(lia)) as [L1 L2].
  cbn [fst snd]. rewrite L1, L2, U3. split; [lia|].
  assert (SH : forall f, zsum kl (kl + rem) f = zsum 0 (4 * ps) (fun i => f (kl + i)%Z) + zsum (4 * ps) rem (fun i => f (kl + i)%Z)).
  { intros f. rewrite <- zsum_split by lia.
    replace (zsum kl (kl + rem) f) with (zsum (0 + kl) (rem + kl) f) by (f_equal; lia).
    rewrite zsum_shift. apply zsum_ext. intros. f_equal. lia. }
  rewrite !SH. split; [|lra].
  unfold bs1. rewrite !add_at_ind, U1, U2.
  transitivity (bs j + (zsum 0 (4 * ps) (fun i => dbs fl n m j (kl + i)) +
     zsum (4 * ps) rem (fun i => dbs fl n m j (kl + i)))); [|reflexivity].
  enough (zsum 0 (4 * ps) (fun i => dbs fl n m j (kl + i)) =
     ind (posn n m) j * zsum 0 (4 * ps) (fun i => Tlp fl (kl + i - ztMin)%Z * bw (kl + i) * SP fl n m (kl + i))
     + ind (negn n m) j * zsum 0 (4 * ps) (fun i => Tlm fl (kl + i - ztMin)%Z * bw (kl + i) * SM fl n m (kl + i))) by lra.
  rewrite <- !zsum_scale, <- zsum_plus. apply zsum_ext. intros i Hi. unfold dbs. rewrite !at_ind. ring.
Qed.

Lemma rows_spec fl n m j : forall fuel kl bs gs,
  (0 <= kl <= ztMax)%Z -> (ztMax - kl <= Z.of_nat fuel)%Z ->
  let r := rows mf nf nZeta nThetaReduced nThetaEven mnyq2 ztMin ztMax fullUpdate fb wInt cmns Tlp Tlm Slp Slm bDotN
    fuel fl n m kl (bs, gs) in
  fst r j = bs j + zsum kl ztMax (dbs fl n m j) /\
  snd r j = gs j + zsum kl ztMax (fun kl => gate fullUpdate (dgs fl n m j kl)).
Proof.
  induction fuel as [|fuel IH]; intros kl bs gs Hk Hf; cbn [rows].
  - cbv zeta. cbn [fst snd]. rewrite !zsum_empty by lia. lra.
  - destruct (Z.ltb_spec kl ztMax) as [Hl|Hl].
    + pose proof (row_spec fl n m kl bs gs j ltac:(lia)) as R. cbv zeta in R.
      destruct (row _ _ _ _ _ _ _ _ _ _ _ _ _ _ _ _ _ _ _ _ _ _) as [kl' [bs' gs']]. cbn [fst snd] in R.
      destruct R as (R1 & R2 & R3).
      pose proof (IH kl' bs' gs' ltac:(lia) ltac:(lia)) as [I1 I2]. cbv zeta. cbv zeta in I1, I2.
      rewrite I1, I2, R2, R3.
      rewrite (zsum_split kl kl' ztMax (dbs fl n m j)), (zsum_split kl kl' ztMax (fun kl => gate fullUpdate (dgs fl n m j kl))) by lia.
      lra.
    + cbv zeta. cbn [fst snd]. rewrite !zsum_empty by lia. lra.
Qed.
End S.
