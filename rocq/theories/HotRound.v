From Coq Require Import ZArith List Bool Reals Lra Lia.
From Verif Require Import Base BaseLemmas SumLemmas FourierModel FourierSpec FourierProofs BoundaryModel BoundaryProofs
  PartModel PartProofs HotModel HotSpec HotProofs HotSeries HotExport HotRead.
Import ListNotations.
Open Scope R_scope.


Section Round.
Variables (lasym lthreed : bool) (mpol ntor ns : Z).
Hypothesis Hm : (2 <= mpol)%Z.
Hypothesis Hn : (0 <= ntor)%Z.
Hypothesis Hs : (3 <= ns)%Z.
Variables (lfreeb : bool) (X : field) (phip : Z -> R) (ths : list (rpart * (geo * (Z -> R)))) (lam : R).
Hypothesis HT : team lasym lthreed mpol ntor ns lfreeb X phip ths.
Hypothesis Hlam : lam <> 0.
Hypothesis Hphip : forall j, (0 <= j < ns)%Z -> phip j <> 0.
Variables (lfreeb' : bool) (T t : Z) (r : rpart) (p : Z -> R) (b : option bdy).
Hypothesis HTT : (1 <= T <= ns / 2)%Z.
Hypothesis Htt : (0 <= t < T)%Z.
Hypothesis Hr : adjustRadialPartitioning T t ns lfreeb' = Some r.
Hypothesis Hp : forall j, (nsMinF1 r <= j < nsMaxF1 r)%Z -> p (j - nsMinF1 r)%Z = phip j.
Local Notation W := (w lasym lthreed mpol ntor ns ths lam).
Definition restarted : geo :=
  init_from_state lasym lthreed mpol ntor ns (nsMinF1 r) (nsMaxF1 r) (nsMinF1 r) lam p (w1 (fst W)) (w2 (fst W)) (w3 (fst W))
    b (nsMaxF1 r =? ns)%Z (fun _ _ => 0).
Local Notation at_ c j m n := (restarted c (((j - nsMinF1 r) * mpol + m) * (ntor + 1) + n)%Z).

Lemma pf : (0 <= nsMinF1 r)%Z /\ (nsMaxF1 r <= ns)%Z.
Proof. destruct (part_facts ns T t lfreeb' r HTT Htt Hr) as (A & B & C & D). lia. Qed.

Lemma restarted_at c j m n : (nsMinF1 r <= j < nsMaxF1 r)%Z -> (0 <= m < mpol)%Z -> (0 <= n <= ntor)%Z ->
  let C m n := kept lasym lthreed X j Rcc j m n in
  let SS m n := if negb (m =? 0)%Z && negb (n =? 0)%Z then only lthreed (kept lasym lthreed X j) Rss j m n else 0 in
  let S m n := if negb (m =? 0)%Z then kept lasym lthreed X j Zsc j m n else 0 in
  let CS m n := if negb (n =? 0)%Z then only lthreed (kept lasym lthreed X j) Zcs j m n else 0 in
  let k := (m * (ntor + 1) + n)%Z in
  at_ c j m n =
  match c with
  | Lsc => if ((j =? 0) && (m =? 0))%Z then 0 else if negb (m =? 0)%Z then keptL X j Lsc j m n else 0
  | Lcs => if ((j =? 0) && (m =? 0))%Z then 0 else if lthreed then (if negb (n =? 0)%Z then keptL X j Lcs j m n else 0) else 0
  | Lcc | Lss => 0
  | _ =>
    let inner := (if (m =? 1)%Z then m1_val lasym lthreed else fun f => f) (rz_val lthreed (C m n) (S m n) (SS m n) (CS m n) (fun _ => 0)) c in
    match b with
    | Some bd => if (j =? ns - 1)%Z then let f := 1 / (mscale m * nscale n) in
          rz_val lthreed (rbcc bd k * f) (zbsc bd k * f) (rbss bd k * f) (zbcs bd k * f) (fun _ => 0) c
        else inner
    | None => inner
    end
  end.
Proof.
  intros J M N C SS S CS k.
  destruct pf as (P1 & P2).
  pose proof (init_at lasym lthreed mpol ntor ns Hm Hn (nsMinF1 r) (nsMaxF1 r) (nsMinF1 r) lam p (w1 (fst W)) (w2 (fst W)) (w3 (fst W))
    b (nsMaxF1 r =? ns)%Z c j m n J M N (Z.eqb_eq _ _) P1 P2 ltac:(lia)) as I. cbv zeta in I.
  etransitivity; [exact I|]. clear I.
  assert (J' : (0 <= j < ns)%Z) by lia.
  destruct (sym_cols lasym lthreed mpol ntor ns Hm Hn Hs lfreeb X phip ths lam HT j J') as (Q1 & Q2 & Q3).
  destruct (cos_col_back mpol ntor Hm Hn _ _ _ (fun _ => 0) (fun _ => 0) Q1 m n M N) as (R1 & R2).
  destruct (sin_col_back mpol ntor Hm Hn _ _ _ (fun _ => 0) (fun _ => 0) Q2 m n M N) as (R3 & R4).
  destruct (sin_col_back mpol ntor Hm Hn _ _ _ (fun _ => 0) (fun _ => 0) Q3 m n M N) as (R5 & R6).
  rewrite R1, R2, R3, R4, R5, R6. rewrite Hp by auto. fold k.
  pose proof (Hphip j J') as PH. unfold l_val.
  destruct c; try reflexivity;
    try (destruct ((j =? 0) && (m =? 0))%Z; [reflexivity|]);
    repeat match goal with |- context [if ?x then _ else _] => destruct x end; unfold only; try reflexivity; try (field; auto).
Qed.

Ltac dropb := match goal with HI : _ \/ b = None \/ (?j < ns - 1)%Z |- match b with Some _ => _ | None => ?a end = _ => transitivity a;
   [destruct b; [destruct (Z.eqb_spec j (ns - 1)); [destruct HI as [H|[H|H]]; [discriminate|discriminate|lia]|reflexivity]|reflexivity]|] | _ => idtac end.

Lemma restart_inner c j m n : (nsMinF1 r <= j < nsMaxF1 r)%Z -> (1 <= j)%Z -> (0 <= m < mpol)%Z -> (0 <= n <= ntor)%Z ->
  is_sym c = true -> has lasym lthreed c = true -> (is_lambda c = true \/ b = None \/ (j < ns - 1)%Z) ->
  at_ c j m n = if contributes c m n then X c j m n else 0.
Proof.
  intros J J1 M N SY HC HI.
  rewrite restarted_at by auto. unfold kept, keptL.
  destruct (Z.eqb_spec j 0) as [|J0]; [lia|]. cbn [andb].
  destruct c; try discriminate SY; cbv zeta; cbn [contributes];
    dropb;
    cbn [has] in HC; unfold only, rz_val, m1_val, physical; rewrite ?HC;
    destruct (Z.eqb_spec m 1) as [M1|M1]; destruct (Z.eqb_spec m 0) as [M0|M0]; try lia; destruct (Z.eqb_spec n 0) as [N0|N0]; cbn [negb andb]; try reflexivity; try lra.
Qed.

Lemma restart_axis c m n : nsMinF1 r = 0%Z -> (0 <= m < mpol)%Z -> (0 <= n <= ntor)%Z ->
  is_sym c = true -> has lasym lthreed c = true ->
  at_ c 0%Z m n = if contributes c m n && ((m =? 0) || (n =? 0))%Z && negb (is_lambda c && (m =? 0)%Z) then X c 0%Z m n else 0.
Proof.
  intros J M N SY HC.
  assert (J' : (nsMinF1 r <= 0 < nsMaxF1 r)%Z).
  { destruct (part_facts ns T t lfreeb' r HTT Htt Hr) as (A & B & C & D). lia. }
  rewrite restarted_at by auto. unfold kept, keptL. change (0 =? 0)%Z with true. cbn [andb]. cbv iota.
  destruct c; try discriminate SY; cbv zeta; cbn [contributes is_lambda];
    match goal with |- match b with Some _ => _ | None => _ end = _ => assert (N1 : (0 =? ns - 1)%Z = false) by (apply Z.eqb_neq; lia); rewrite N1; cbv iota;
       match goal with |- match b with Some _ => _ | None => ?a end = _ => transitivity a; [destruct b; reflexivity|] end | _ => idtac end;
    cbn [has] in HC; unfold only, rz_val, m1_val, axis_lambda, axis_part, physical; rewrite ?HC;
    destruct (Z.eqb_spec m 1) as [M1|M1]; destruct (Z.eqb_spec m 0) as [M0|M0]; try lia; destruct (Z.eqb_spec n 0) as [N0|N0]; cbn [negb andb orb]; try reflexivity; try lra.
Qed.

Lemma restart_boundary bd c m n : b = Some bd -> nsMaxF1 r = ns -> (0 <= m < mpol)%Z -> (0 <= n <= ntor)%Z ->
  has lasym lthreed c = true ->
  let v f := f bd (m * (ntor + 1) + n)%Z / (s2 m * s2 n) in
  match c with
  | Rcc => at_ c (ns - 1) m n = v rbcc
  | Zsc => at_ c (ns - 1) m n = v zbsc
  | Rss => at_ c (ns - 1) m n = v rbss
  | Zcs => at_ c (ns - 1) m n = v zbcs
  | _ => True
  end.
Proof.
  intros EB RM M N HC v.
  assert (J' : (nsMinF1 r <= ns - 1 < nsMaxF1 r)%Z).
  { destruct (part_facts ns T t lfreeb' r HTT Htt Hr) as (A & B & C & D). lia. }
  assert (NZ : s2 m * s2 n <> 0) by (pose proof (s2_pos m); pose proof (s2_pos n); apply Rmult_integral_contrapositive; split; lra).
  destruct c; try exact I; rewrite restarted_at by auto; rewrite EB, Z.eqb_refl; cbv zeta; unfold rz_val, v; cbn [has] in HC; rewrite ?HC;
    change (mscale m) with (s2 m); change (nscale n) with (s2 n); field; split; pose proof (s2_pos m); pose proof (s2_pos n); lra.
Qed.

Lemma restart_asym c j m n : (nsMinF1 r <= j < nsMaxF1 r)%Z -> (0 <= m < mpol)%Z -> (0 <= n <= ntor)%Z ->
  is_sym c = false -> at_ c j m n = 0.
Proof.
  intros J M N SY. rewrite restarted_at by auto.
  destruct c; try discriminate SY; cbv zeta; try reflexivity; unfold rz_val, m1_val; destruct b; repeat match goal with |- context [if ?x then _ else _] => destruct x end; lra.
Qed.
End Round.

(** Every field can be held by a team. *)
Definition local_of (mpol ntor : Z) (X : field) (r : rpart) : geo := fun c i =>
  X c (nsMinF1 r + i / (ntor + 1) / mpol)%Z ((i / (ntor + 1)) mod mpol)%Z (i mod (ntor + 1))%Z.
Lemma team_exists lasym lthreed mpol ntor ns lfreeb X phip T : (1 <= mpol)%Z -> (0 <= ntor)%Z -> (1 <= Z.of_nat T <= ns / 2)%Z ->
  exists ths, length ths = T /\ team lasym lthreed mpol ntor ns lfreeb X phip ths.
Proof.
  intros Hm Hn HT.
  set (rp := fun t => rp_closed (Z.of_nat T) (Z.of_nat t) ns lfreeb).
  exists (map (fun t => (rp t, (local_of mpol ntor X (rp t), fun i => phip (nsMinF1 (rp t) + i)%Z))) (seq 0 T)).
  split; [rewrite map_length, seq_length; reflexivity|].
  unfold team. rewrite map_length, seq_length. split; [exact HT|].
  intros t r g p E.
  assert (Ht : (t < T)%nat).
  { assert (t < length (map (fun t => (rp t, (local_of mpol ntor X (rp t), fun i => phip (nsMinF1 (rp t) + i)%Z))) (seq 0 T)))%nat by (apply nth_error_Some; congruence).
    rewrite map_length, seq_length in H. exact H. }
  rewrite nth_error_map in E. rewrite (nth_error_nth' _ 0%nat) in E by (rewrite seq_length; exact Ht). rewrite seq_nth in E by exact Ht.
  cbn [option_map Nat.add] in E. apply (f_equal (fun o => match o with Some a => a | None => (r, (g, p)) end)) in E. cbv beta iota in E.
  pose proof (f_equal fst E) as ER. pose proof (f_equal (fun a => fst (snd a)) E) as EG. pose proof (f_equal (fun a => snd (snd a)) E) as EP.
  cbn [fst snd] in ER, EG, EP. rewrite <- ER, <- EG, <- EP. clear E ER EG EP.
  split; [apply adjust_closed; lia|]. split.
  - intros c j m n J M N _. unfold local_of.
    assert (E1 : ((((j - nsMinF1 (rp t)) * mpol + m) * (ntor + 1) + n) / (ntor + 1) = (j - nsMinF1 (rp t)) * mpol + m)%Z) by (rewrite Z.div_add_l, Z.div_small by lia; lia).
    rewrite E1. f_equal.
    + rewrite Z.div_add_l, Z.div_small by lia. lia.
    + rewrite Z.add_comm, Z.mod_add, Z.mod_small by lia. reflexivity.
    + rewrite Z.add_comm, Z.mod_add, Z.mod_small by lia. reflexivity.
  - intros j J. cbv beta. replace (nsMinF1 (rp t) + (j - nsMinF1 (rp t)))%Z with j by ring. reflexivity.
Qed.
