(** Proofs about the tridiagonal solver. *)
From Coq Require Import ZArith List Bool Lia Reals Lra.
From Verif Require Import Base BaseLemmas Num PartModel ThomasModel.
Import ListNotations.
Open Scope Z_scope.

Section A.
Context {K : num}.

Lemma fold_upd_fill {A} (stride j : Z) (v : A) nRHS (c : Z -> A) i :
  0 <= nRHS -> 0 <= j < stride ->
  for_up 0 nRHS (fun k c => upd c (k * stride + j) v) c i =
  (if (0 <=? i) && (i <? nRHS * stride) && (i mod stride =? j) then v else c i).
Proof.
  intros HN HJ.
  destruct (for_up_fill (fun k => k * stride + j) (fun _ => v) 0 nRHS c) as (F1 & F2).
  { intros a b _ _ E. nia. }
  destruct ((0 <=? i) && (i <? nRHS * stride) && (i mod stride =? j)) eqn:E.
  - apply andb_true_iff in E. destruct E as (E & E3). apply andb_true_iff in E.
    destruct E as (E1 & E2).
    apply Z.leb_le in E1. apply Z.ltb_lt in E2. apply Z.eqb_eq in E3.
    pose proof (Z.div_mod i stride ltac:(lia)) as D.
    replace i with ((i / stride) * stride + j) by lia.
    apply F1. split; [apply Z.div_pos; lia|]. apply Z.div_lt_upper_bound; lia.
  - apply F2. intros k Hk ->. 
    assert ((0 <=? k * stride + j) && (k * stride + j <? nRHS * stride) &&
            ((k * stride + j) mod stride =? j) = true) as X; [|congruence].
    rewrite !andb_true_iff. repeat split; [apply Z.leb_le; nia|apply Z.ltb_lt; nia|].
    apply Z.eqb_eq. rewrite Z.add_comm, Z.mod_add by lia. apply Z.mod_small. lia.
Qed.

Lemma pad_spec stride jMin nRHS (q : @tri K) :
  0 <= jMin <= stride -> 0 <= nRHS ->
  let r := tri_pad stride jMin nRHS q in
  (forall j, jMin <= j -> ta r j = ta q j /\ td r j = td q j /\ tb r j = tb q j) /\
  (forall k j, 0 <= k < nRHS -> 0 <= j < stride ->
     tc r (k * stride + j) = if j <? jMin then nZ 0 else tc q (k * stride + j)) /\
  (forall i, ~ (0 <= i < nRHS * stride) -> tc r i = tc q i).
Proof.
  intros HJ HN. cbv zeta. unfold tri_pad.
  apply (for_up_ind (fun m r =>
    (forall j, m <= j -> ta r j = ta q j /\ td r j = td q j /\ tb r j = tb q j) /\
    (forall k j, 0 <= k < nRHS -> 0 <= j < stride ->
       tc r (k * stride + j) = if j <? m then nZ 0 else tc q (k * stride + j)) /\
    (forall i, ~ (0 <= i < nRHS * stride) -> tc r i = tc q i))); [lia| |].
  - split; [auto|]. split; [|auto]. intros k j Hk Hj.
    destruct (Z.ltb_spec j 0); [lia|reflexivity].
  - intros m r Hm (I1 & I2 & I3). cbn [ta td tb tc]. split; [|split].
    + intros j Hj. rewrite !upd_neq by lia. apply I1. lia.
    + intros k j Hk Hj. rewrite fold_upd_fill by lia.
      destruct (Z.leb_spec 0 (k * stride + j)); [|nia].
      destruct (Z.ltb_spec (k * stride + j) (nRHS * stride)); [|nia].
      cbn [andb].
      assert (E : (k * stride + j) mod stride = j)
        by (rewrite Z.add_comm, Z.mod_add by lia; apply Z.mod_small; lia).
      rewrite E. destruct (Z.eqb_spec j m) as [-> | N].
      * destruct (Z.ltb_spec m (m + 1)); [reflexivity|lia].
      * rewrite I2 by auto. destruct (Z.ltb_spec j m); destruct (Z.ltb_spec j (m + 1)); auto; lia.
    + intros i Hi. rewrite fold_upd_fill by lia.
      destruct (Z.leb_spec 0 i); [|cbn [andb]; auto].
      destruct (Z.ltb_spec i (nRHS * stride)); [lia|cbn [andb]; auto].
Qed.

Definition elim_ok (jMin jMax : Z) (a d b a' : Z -> K) : Prop :=
  a' jMin = ndiv (a jMin) (d jMin) /\
  forall j, jMin < j < jMax - 1 ->
    a' j = ndiv (a j) (nsub (d j) (nmul (a' (j - 1)) (b j))).

Lemma elim_spec jMin jMax (a d b : Z -> K) :
  elim_ok jMin jMax a d b (tri_elim jMin jMax a d b).
Proof.
  unfold tri_elim. cbv zeta.
  destruct (for_up_rec (fun j x y => ndiv y (nsub (d j) (nmul x (b j)))) 0 (jMin + 1) (jMax - 1)
     (upd a jMin (ndiv (a jMin) (d jMin)))) as (R1 & R2).
  cbn [Z.add] in R1, R2. split.
  - rewrite R2 by lia. apply upd_eq.
  - intros j Hj. rewrite R1 by lia. rewrite (upd_neq _ _ j) by lia. reflexivity.
Qed.

Definition subst_ok (jMin jMax : Z) (a' d b c g x : Z -> K) : Prop :=
  g jMin = ndiv (c jMin) (d jMin) /\
  (forall j, jMin < j < jMax ->
    g j = ndiv (nsub (c j) (nmul (g (j - 1)) (b j))) (nsub (d j) (nmul (a' (j - 1)) (b j)))) /\
  x (jMax - 1) = g (jMax - 1) /\
  (forall j, jMin <= j < jMax - 1 -> x j = nsub (g j) (nmul (a' j) (x (j + 1)))).

Lemma subst_spec stride jMin jMax k (a' d b c : Z -> K) :
  jMin < jMax ->
  let o := k * stride in
  let r := tri_subst stride jMin jMax k a' d b c in
  (exists g, subst_ok jMin jMax a' d b (fun j => c (o + j)) g (fun j => r (o + j))) /\
  (forall i, ~ (o + jMin <= i < o + jMax) -> r i = c i).
Proof.
  intros HJ. cbv zeta. unfold tri_subst. cbv zeta. set (o := k * stride).
  set (c1 := upd c (o + jMin) _).
  pose proof (for_up_rec (fun j x y => ndiv (nsub y (nmul x (b j))) (nsub (d j) (nmul (a' (j - 1)) (b j))))
     o (jMin + 1) jMax c1) as R.
  cbv zeta beta in R.
  set (c2 := for_up (jMin + 1) jMax _ c1) in *. destruct R as (R1 & R2).
  pose proof (for_down_rec (fun j x y => nsub y (nmul (a' j) x)) o (jMax - 2) jMin c2) as Q.
  cbv zeta beta in Q.
  set (c3 := for_down (jMax - 2) jMin _ c2) in *. destruct Q as (Q1 & Q2).
  assert (C1 : c1 (o + jMin) = ndiv (c (o + jMin)) (d jMin)) by (subst c1; apply upd_eq).
  assert (C2 : forall i, i <> o + jMin -> c1 i = c i) by (intros; subst c1; apply upd_neq; auto).
  split.
  - exists (fun j => c2 (o + j)). unfold subst_ok. cbv beta. repeat split.
    + rewrite R2 by lia. exact C1.
    + intros j Hj. rewrite R1 by lia. rewrite C2 by lia.
      replace (o + j - 1) with (o + (j - 1)) by lia. reflexivity.
    + apply Q2. lia.
    + intros j Hj. rewrite Q1 by lia. rewrite Z.add_assoc. reflexivity.
  - intros i Hi. rewrite Q2 by lia. rewrite R2 by lia. apply C2. lia.
Qed.

(** Everything the solver computes, in terms of its inputs. *)
Definition solved_by (jMin jMax nRHS stride : Z) (q : @tri K) (r : Z -> K) : Prop :=
  exists a', elim_ok jMin jMax (ta q) (td q) (tb q) a' /\
  (forall k, 0 <= k < nRHS -> exists g,
     subst_ok jMin jMax a' (td q) (tb q) (fun j => tc q (k * stride + j)) g
       (fun j => r (k * stride + j))) /\
  (forall k j, 0 <= k < nRHS -> 0 <= j < jMin -> r (k * stride + j) = nZ 0) /\
  (forall k j, 0 <= k < nRHS -> jMax <= j < stride ->
     r (k * stride + j) = tc q (k * stride + j)) /\
  (forall i, ~ (0 <= i < nRHS * stride) -> r i = tc q i).

Lemma solve_spec stride jMin jMax nRHS (q : @tri K) :
  0 <= jMin < jMax -> jMax <= stride -> 0 <= nRHS ->
  solved_by jMin jMax nRHS stride q (tc (tridiagonal_solve stride jMin jMax nRHS q)).
Proof.
  intros HJ HS HN. unfold tridiagonal_solve.
  destruct (pad_spec stride jMin nRHS q ltac:(lia) HN) as (P1 & P2 & P3).
  set (q1 := tri_pad stride jMin nRHS q) in *. clearbody q1. cbv zeta. cbn [tc].
  pose proof (elim_spec jMin jMax (ta q1) (td q1) (tb q1)) as HE.
  set (a' := tri_elim _ _ _ _ _) in *. clearbody a'.
  assert (HE' : elim_ok jMin jMax (ta q) (td q) (tb q) a').
  { destruct HE as (E1 & E2). split.
    - rewrite E1. destruct (P1 jMin ltac:(lia)) as (-> & -> & _). reflexivity.
    - intros j Hj. rewrite E2 by lia. destruct (P1 j ltac:(lia)) as (-> & -> & ->). reflexivity. }
  exists a'. split; [exact HE'|]. clear HE.
  assert (L : forall c0, let r := for_up 0 nRHS
      (fun k c => tri_subst stride jMin jMax k a' (td q1) (tb q1) c) c0 in
    (forall k, 0 <= k < nRHS -> exists g,
       subst_ok jMin jMax a' (td q1) (tb q1) (fun j => c0 (k * stride + j)) g
         (fun j => r (k * stride + j))) /\
    (forall k j, 0 <= k < nRHS -> 0 <= j < stride -> ~ (jMin <= j < jMax) ->
       r (k * stride + j) = c0 (k * stride + j)) /\
    (forall i, ~ (0 <= i < nRHS * stride) -> r i = c0 i)).
  { intros c0. cbv zeta.
    apply (for_up_ind (fun m r =>
      (forall k, 0 <= k < m -> exists g,
         subst_ok jMin jMax a' (td q1) (tb q1) (fun j => c0 (k * stride + j)) g
           (fun j => r (k * stride + j))) /\
      (forall k j, 0 <= k < m -> 0 <= j < stride -> ~ (jMin <= j < jMax) ->
         r (k * stride + j) = c0 (k * stride + j)) /\
      (forall i, ~ (0 <= i < m * stride) -> r i = c0 i))); [lia| |].
    - repeat split; auto; intros; lia.
    - intros m r Hm (I1 & I2 & I3).
      destruct (subst_spec stride jMin jMax m a' (td q1) (tb q1) r ltac:(lia)) as (S1 & S2).
      set (r2 := tri_subst stride jMin jMax m a' (td q1) (tb q1) r) in *. clearbody r2.
      split; [|split].
      + intros k Hk. destruct (Z.eq_dec k m) as [-> | N].
        * destruct S1 as (g & G1 & G2 & G3 & G4). exists g.
          repeat split; auto.
          -- rewrite G1. rewrite I3 by nia. reflexivity.
          -- intros j Hj. rewrite G2 by lia. rewrite I3 by nia. reflexivity.
        * destruct (I1 k ltac:(lia)) as (g & G1 & G2 & G3 & G4). exists g.
          repeat split; auto.
          -- rewrite S2 by nia. exact G3.
          -- intros j Hj. rewrite !S2 by nia. apply G4. lia.
      + intros k j Hk Hj Hn. destruct (Z.eq_dec k m) as [-> | N].
        * rewrite S2 by lia. apply I3. nia.
        * rewrite S2 by nia. apply I2; lia.
      + intros i Hi. rewrite S2 by nia. apply I3. nia. }
  destruct (L (tc q1)) as (L1 & L2 & L3). clear L.
  set (r := for_up 0 nRHS _ (tc q1)) in *. clearbody r.
  split; [|split; [|split]].
  - intros k Hk. destruct (L1 k Hk) as (g & G1 & G2 & G3 & G4). exists g.
    repeat split; auto.
    + rewrite G1. rewrite P2 by lia. destruct (Z.ltb_spec jMin jMin); [lia|].
      destruct (P1 jMin ltac:(lia)) as (_ & -> & _). reflexivity.
    + intros j Hj. rewrite G2 by lia. rewrite P2 by lia.
      destruct (Z.ltb_spec j jMin); [lia|].
      destruct (P1 j ltac:(lia)) as (_ & -> & ->). reflexivity.
  - intros k j Hk Hj. rewrite L2 by lia. rewrite P2 by lia.
    destruct (Z.ltb_spec j jMin); [reflexivity|lia].
  - intros k j Hk Hj. rewrite L2 by lia. rewrite P2 by lia.
    destruct (Z.ltb_spec j jMin); [lia|reflexivity].
  - intros i Hi. rewrite L3 by lia. apply P3. lia.
Qed.

(** The result is determined by rows jMin..jMax-1. *)
Lemma elim_det jMin jMax (a d b a' a2 d2 b2 a2' : Z -> K) :
  (forall j, jMin <= j < jMax -> a j = a2 j /\ d j = d2 j /\ b j = b2 j) ->
  jMin < jMax ->
  elim_ok jMin jMax a d b a' -> elim_ok jMin jMax a2 d2 b2 a2' ->
  forall j, jMin <= j < jMax - 1 -> a' j = a2' j.
Proof.
  intros HA HJ (E1 & E2) (F1 & F2).
  assert (G : forall n : nat, jMin + Z.of_nat n < jMax - 1 ->
            a' (jMin + Z.of_nat n) = a2' (jMin + Z.of_nat n)).
  { induction n as [|n IH]; intros Hn.
    - replace (jMin + Z.of_nat 0) with jMin by lia. rewrite E1, F1.
      destruct (HA jMin ltac:(lia)) as (-> & -> & _). reflexivity.
    - set (j := jMin + Z.of_nat (S n)) in *. rewrite E2, F2 by lia.
      replace (j - 1) with (jMin + Z.of_nat n) by lia. rewrite IH by lia.
      destruct (HA j ltac:(lia)) as (-> & -> & ->). reflexivity. }
  intros j Hj. specialize (G (Z.to_nat (j - jMin))).
  replace (jMin + Z.of_nat (Z.to_nat (j - jMin))) with j in G by lia. apply G. lia.
Qed.

Lemma subst_det jMin jMax (a' d b c g x a2' d2 b2 c2 g2 x2 : Z -> K) :
  (forall j, jMin <= j < jMax -> d j = d2 j /\ b j = b2 j /\ c j = c2 j) ->
  (forall j, jMin <= j < jMax - 1 -> a' j = a2' j) ->
  jMin < jMax ->
  subst_ok jMin jMax a' d b c g x -> subst_ok jMin jMax a2' d2 b2 c2 g2 x2 ->
  forall j, jMin <= j < jMax -> x j = x2 j.
Proof.
  intros HA HB HJ (E1 & E2 & E3 & E4) (F1 & F2 & F3 & F4).
  assert (G : forall n : nat, jMin + Z.of_nat n < jMax ->
            g (jMin + Z.of_nat n) = g2 (jMin + Z.of_nat n)).
  { induction n as [|n IH]; intros Hn.
    - replace (jMin + Z.of_nat 0) with jMin by lia. rewrite E1, F1.
      destruct (HA jMin ltac:(lia)) as (-> & _ & ->). reflexivity.
    - set (j := jMin + Z.of_nat (S n)) in *. rewrite E2, F2 by lia.
      rewrite (HB (j - 1)) by lia.
      replace (j - 1) with (jMin + Z.of_nat n) by lia. rewrite IH by lia.
      destruct (HA j ltac:(lia)) as (-> & -> & ->). reflexivity. }
  assert (G' : forall j, jMin <= j < jMax -> g j = g2 j).
  { intros j Hj. specialize (G (Z.to_nat (j - jMin))).
    replace (jMin + Z.of_nat (Z.to_nat (j - jMin))) with j in G by lia. apply G. lia. }
  assert (H : forall n : nat, jMin <= jMax - 1 - Z.of_nat n ->
            x (jMax - 1 - Z.of_nat n) = x2 (jMax - 1 - Z.of_nat n)).
  { induction n as [|n IH]; intros Hn.
    - replace (jMax - 1 - Z.of_nat 0) with (jMax - 1) by lia. rewrite E3, F3. apply G'. lia.
    - set (j := jMax - 1 - Z.of_nat (S n)) in *. rewrite E4, F4 by lia.
      replace (j + 1) with (jMax - 1 - Z.of_nat n) by lia. rewrite IH by lia.
      rewrite G', HB by lia. reflexivity. }
  intros j Hj. specialize (H (Z.to_nat (jMax - 1 - j))).
  replace (jMax - 1 - Z.of_nat (Z.to_nat (jMax - 1 - j))) with j in H by lia. apply H. lia.
Qed.

Lemma solved_det jMin jMax nRHS stride (q q2 : @tri K) r r2 :
  0 <= jMin < jMax ->
  (forall j, jMin <= j < jMax -> ta q j = ta q2 j /\ td q j = td q2 j /\ tb q j = tb q2 j) ->
  (forall k j, 0 <= k < nRHS -> jMin <= j < jMax ->
     tc q (k * stride + j) = tc q2 (k * stride + j)) ->
  solved_by jMin jMax nRHS stride q r -> solved_by jMin jMax nRHS stride q2 r2 ->
  forall k j, 0 <= k < nRHS -> 0 <= j < jMax -> r (k * stride + j) = r2 (k * stride + j).
Proof.
  intros HJ HA HC (a' & A1 & A2 & A3 & _) (b' & B1 & B2 & B3 & _) k j Hk Hj.
  destruct (Z_lt_le_dec j jMin) as [L|L]; [rewrite A3, B3 by lia; reflexivity|].
  destruct (A2 k Hk) as (g & G). destruct (B2 k Hk) as (g2 & G2).
  apply (subst_det jMin jMax a' (td q) (tb q) (fun j => tc q (k * stride + j)) g
     (fun j => r (k * stride + j)) b' (td q2) (tb q2) (fun j => tc q2 (k * stride + j)) g2
     (fun j => r2 (k * stride + j))); auto; try lia.
  - intros i Hi. destruct (HA i Hi) as (_ & X & Y). rewrite HC by auto. auto.
  - apply (elim_det jMin jMax (ta q) (td q) (tb q) a' (ta q2) (td q2) (tb q2) b'); auto; lia.
Qed.

End A.

(** ** Exact arithmetic: the equations are satisfied. *)
Section R.
Open Scope R_scope.

Lemma tri_equations (jMin jMax : Z) (a d b a' c g x p : Z -> R) :
  (jMin < jMax)%Z ->
  p jMin = d jMin ->
  (forall j, (jMin < j < jMax)%Z -> p j = d j - a (j - 1)%Z * b j / p (j - 1)%Z) ->
  (forall j, (jMin <= j < jMax)%Z -> p j <> 0) ->
  @elim_ok num_R jMin jMax a d b a' ->
  @subst_ok num_R jMin jMax a' d b c g x ->
  forall j, (jMin <= j < jMax)%Z ->
    (if (j =? jMin)%Z then 0 else b j * x (j - 1)%Z) + d j * x j +
    (if (j =? jMax - 1)%Z then 0 else a j * x (j + 1)%Z) = c j.
Proof.
  intros HJ P1 P2 PN (E1 & E2) (G1 & G2 & G3 & G4).
  cbn [ndiv nsub nmul num_R N] in *.
  (* a' j = a j / p j *)
  assert (AP : forall n : nat, (jMin + Z.of_nat n < jMax - 1)%Z ->
            a' (jMin + Z.of_nat n)%Z = a (jMin + Z.of_nat n)%Z / p (jMin + Z.of_nat n)%Z).
  { induction n as [|n IH]; intros Hn.
    - replace (jMin + Z.of_nat 0)%Z with jMin by lia. rewrite E1, P1. reflexivity.
    - set (j := (jMin + Z.of_nat (S n))%Z) in *. rewrite E2 by lia.
      replace (j - 1)%Z with (jMin + Z.of_nat n)%Z by lia. rewrite IH by lia.
      rewrite (P2 j) by lia. replace (j - 1)%Z with (jMin + Z.of_nat n)%Z by lia.
      unfold Rdiv. f_equal. f_equal. ring. }
  assert (AP' : forall j, (jMin <= j < jMax - 1)%Z -> a' j = a j / p j).
  { intros j Hj. specialize (AP (Z.to_nat (j - jMin))).
    replace (jMin + Z.of_nat (Z.to_nat (j - jMin)))%Z with j in AP by lia. apply AP. lia. }
  assert (DP : forall j, (jMin < j < jMax)%Z -> d j - a' (j - 1)%Z * b j = p j).
  { intros j Hj. rewrite AP' by lia. rewrite (P2 j) by lia. unfold Rdiv. ring. }
  assert (GP : forall j, (jMin <= j < jMax)%Z ->
            p j * g j = c j - (if (j =? jMin)%Z then 0 else g (j - 1)%Z * b j)).
  { intros j Hj. destruct (Z.eqb_spec j jMin) as [-> | N].
    - rewrite G1, <- P1. field. apply PN. lia.
    - rewrite G2 by lia. rewrite DP by lia. field. apply PN. lia. }
  intros j Hj.
  assert (XP : (if (j =? jMax - 1)%Z then x j else x j + a' j * x (j + 1)%Z) = g j).
  { destruct (Z.eqb_spec j (jMax - 1)) as [-> | N]; [exact G3|]. rewrite G4 by lia. ring. }
  assert (AX : (if (j =? jMax - 1)%Z then 0 else a j * x (j + 1)%Z) = p j * (g j - x j)).
  { rewrite <- XP. destruct (Z.eqb_spec j (jMax - 1)); [ring|].
    rewrite AP' by lia. field. apply PN. lia. }
  rewrite AX. specialize (GP j Hj).
  clear XP AX. destruct (Z.eqb_spec j jMin) as [E0 | N].
  - subst j. rewrite <- P1. rewrite Rmult_minus_distr_l, GP. ring.
  - assert (XB : x (j - 1)%Z = g (j - 1)%Z - a' (j - 1)%Z * x j).
    { rewrite (G4 (j - 1)%Z) by lia. replace (j - 1 + 1)%Z with j by lia. reflexivity. }
    rewrite XB. replace (p j * (g j - x j)) with (p j * g j - p j * x j) by ring.
    rewrite GP. rewrite <- (DP j) by lia. ring.
Qed.

(** Diagonal dominance gives non-zero pivots. *)
Lemma dominant_pivots (jMin jMax : Z) (a d b : Z -> R) :
  (jMin < jMax)%Z ->
  (forall j, (jMin <= j < jMax)%Z ->
     (if (j =? jMin)%Z then 0 else Rabs (b j)) +
     (if (j =? jMax - 1)%Z then 0 else Rabs (a j)) < Rabs (d j)) ->
  exists p, p jMin = d jMin /\
  (forall j, (jMin < j < jMax)%Z -> p j = d j - a (j - 1)%Z * b j / p (j - 1)%Z) /\
  (forall j, (jMin <= j < jMax)%Z -> p j <> 0).
Proof.
  intros HJ HD.
  set (pn := fix pn (n : nat) : R :=
     match n with O => d jMin
     | S m => d (jMin + Z.of_nat (S m))%Z -
              a (jMin + Z.of_nat m)%Z * b (jMin + Z.of_nat (S m))%Z / pn m end).
  exists (fun j => pn (Z.to_nat (j - jMin))). repeat split.
  - replace (jMin - jMin)%Z with 0%Z by lia. reflexivity.
  - intros j Hj. replace (Z.to_nat (j - jMin)) with (S (Z.to_nat (j - 1 - jMin))) by lia.
    cbn [pn]. replace (jMin + Z.of_nat (S (Z.to_nat (j - 1 - jMin))))%Z with j by lia.
    replace (jMin + Z.of_nat (Z.to_nat (j - 1 - jMin)))%Z with (j - 1)%Z by lia. reflexivity.
  - assert (G : forall n : nat, (jMin + Z.of_nat n < jMax)%Z ->
       pn n <> 0 /\ ((jMin + Z.of_nat n < jMax - 1)%Z ->
                     Rabs (a (jMin + Z.of_nat n)%Z) < Rabs (pn n))).
    { induction n as [|n IH]; intros Hn.
      - cbn [pn]. specialize (HD jMin ltac:(lia)). rewrite Z.eqb_refl in HD.
        replace (jMin + Z.of_nat 0)%Z with jMin in * by lia.
        assert (0 <= (if (jMin =? jMax - 1)%Z then 0 else Rabs (a jMin)))
          by (destruct (_ =? _)%Z; [lra|apply Rabs_pos]).
        split; [intros Z0; rewrite Z0, Rabs_R0 in HD; lra|]. intros HL.
        destruct (Z.eqb_spec jMin (jMax - 1)); [lia|]. lra.
      - destruct (IH ltac:(lia)) as (I1 & I2). specialize (I2 ltac:(lia)).
        set (j := (jMin + Z.of_nat (S n))%Z) in *.
        specialize (HD j ltac:(lia)). destruct (Z.eqb_spec j jMin); [lia|].
        assert (Q : Rabs (a (jMin + Z.of_nat n)%Z * b j / pn n) <= Rabs (b j)).
        { unfold Rdiv. rewrite !Rabs_mult, Rabs_inv.
          assert (0 < Rabs (pn n)) by (apply Rabs_pos_lt; auto).
          rewrite (Rmult_comm (Rabs (a _))), Rmult_assoc.
          rewrite <- (Rmult_1_r (Rabs (b j))) at 2.
          apply Rmult_le_compat_l; [apply Rabs_pos|].
          apply (Rmult_le_reg_r (Rabs (pn n))); auto.
          rewrite Rmult_assoc, Rinv_l by lra. lra. }
        assert (W : Rabs (d j) - Rabs (b j) <= Rabs (pn (S n))).
        { cbn [pn]. fold j. pose proof (Rabs_triang_inv (d j) (a (jMin + Z.of_nat n)%Z * b j / pn n)).
          lra. }
        assert (0 <= (if (j =? jMax - 1)%Z then 0 else Rabs (a j)))
          by (destruct (_ =? _)%Z; [lra|apply Rabs_pos]).
        split.
        + intros Z0. rewrite Z0, Rabs_R0 in W. lra.
        + intros HL. destruct (Z.eqb_spec j (jMax - 1)); [lia|]. lra. }
    intros j Hj. apply G. lia.
Qed.
End R.
