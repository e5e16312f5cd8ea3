From Coq Require Import ZArith List Bool Reals Lia Lra.
From Verif Require Import Base BaseLemmas SumLemmas SizesModel FourierModel FourierSpec TrigSums DftSpec DftTables VacTables
  SurfModel SingSumModel SingSumProofs SurfProofs.
Import ListNotations.
Open Scope R_scope.

Lemma bas_neg c o w x N : (o = 0 \/ o = 1 \/ o = 2)%Z -> (0 <= N)%Z ->
  bas c o w (- x + 2 * IZR N * PI) = (if c then 1 else -1) * (if (o =? 1)%Z then -1 else 1) * bas c o w x.
Proof.
  intros Ho HN. rewrite <- (Z2Nat.id N) by lia. rewrite <- INR_IZR_INZ. unfold bas.
  destruct Ho as [->|[->| ->]]; destruct c; cbn [Z.eqb Pos.eqb]; rewrite ?sin_period, ?cos_period, ?sin_neg, ?cos_neg; ring.
Qed.

Definition eps (c : comp) : R := if even_mirror c then 1 else -1.
Lemma clos_reflect s X asym c t z z' : (0 <= sz_ntor s)%Z ->
  (forall n, (0 <= n)%Z -> exists N, (0 <= N)%Z /\ IZR n * z' = - (IZR n * z) + 2 * IZR N * PI) ->
  clos s X asym c (2 * PI - t) z' = (if asym then -1 else 1) * eps c * clos s X asym c t z.
Proof.
  intros Hn Hz. unfold clos. rewrite <- zsum_scale. apply zsum_ext. intros n Hn'. rewrite <- zsum_scale.
  apply zsum_ext. intros m Hm. destruct (Hz n ltac:(lia)) as (N & HN & E). rewrite E.
  replace (IZR m * (2 * PI - t)) with (- (IZR m * t) + 2 * IZR m * PI) by ring.
  rewrite !bas_neg; try apply ou_range; try apply ov_range; try lia.
  unfold eps. destruct asym, c; cbn [first_coef second_coef cos_like is_r ou ov even_mirror Z.eqb Pos.eqb]; ring.
Qed.

Section M.
Variable s : sizes.
Hypothesis OK : sz_ok s.
Hypothesis MQ : (sz_mpol s + 1 <= sz_mnyq2 s)%Z.
Variable b0 : basis_tables.
Variables ztMin ztMax : Z.
Hypothesis Hz : (0 <= ztMin <= ztMax)%Z.
Hypothesis Hz2 : (ztMax <= sz_nZnT s)%Z.
Variable fullUpdate : bool.
Local Notation nT := (sz_nThetaEven s).
Local Notation nTR := (sz_nThetaReduced s).
Local Notation nz := (sz_nZeta s).
Local Notation fb := (vtab s b0).

Definition lrev (l : Z) : Z := ((nT - l) mod nT)%Z.
Definition krev (k : Z) : Z := ((nz - k) mod nz)%Z.
Lemma lrev_val l : (1 <= l < nT)%Z -> lrev l = (nT - l)%Z.
Proof. intros. unfold lrev. apply Z.mod_small. lia. Qed.
Lemma krev_val k : (0 <= k < nz)%Z -> krev k = if (k =? 0)%Z then 0%Z else (nz - k)%Z.
Proof.
  intros. unfold krev. destruct (Z.eqb_spec k 0) as [->|]; [rewrite Z.sub_0_r; apply Z.mod_same; lia|].
  apply Z.mod_small. lia.
Qed.
Lemma krev_range k : (0 <= k < nz)%Z -> (0 <= krev k < nz)%Z.
Proof. intros. rewrite krev_val by assumption. destruct (Z.eqb_spec k 0); lia. Qed.
Lemma krev_krev k : (0 <= k < nz)%Z -> krev (krev k) = k.
Proof.
  intros. rewrite (krev_val (krev k)) by (apply krev_range; lia). rewrite krev_val by assumption.
  destruct (Z.eqb_spec k 0) as [->|]; [reflexivity|]. destruct (Z.eqb_spec (nz - k) 0); lia.
Qed.

Lemma ang_lrev l : (1 <= l < nT)%Z -> ang nT (lrev l) = 2 * PI - ang nT l.
Proof. intros. rewrite lrev_val by assumption. unfold ang. rewrite minus_IZR. field. apply not_0_IZR. lia. Qed.
Lemma ang_krev k n : (0 <= k < nz)%Z -> (0 <= n)%Z ->
  exists N, (0 <= N)%Z /\ IZR n * ang nz (krev k) = - (IZR n * ang nz k) + 2 * IZR N * PI.
Proof.
  intros Hk Hn. rewrite krev_val by assumption. destruct (Z.eqb_spec k 0) as [->|].
  - exists 0%Z. split; [lia|]. unfold ang. field. apply not_0_IZR. lia.
  - exists n. split; [lia|]. unfold ang. rewrite minus_IZR. field. apply not_0_IZR. lia.
Qed.

Local Notation L := (pairs 1 (nTR - 1) 0 nz).
Local Notation dst := (fun q : Z * Z => (lrev (fst q) * nz + krev (snd q))%Z).
Local Notation src := (fun q : Z * Z => (fst q * nz + snd q)%Z).

Lemma dst_range l k : (1 <= l < nTR - 1)%Z -> (0 <= k < nz)%Z -> (nTR * nz <= lrev l * nz + krev k < nT * nz)%Z.
Proof.
  intros Hl Hk. pose proof (so_nT s OK). rewrite lrev_val by lia. pose proof (krev_range k Hk). nia.
Qed.
Lemma copy_ok : NoDup L /\ (forall p q, In p L -> In q L -> dst p = dst q -> p = q) /\
  (forall p q, In p L -> In q L -> src p <> dst q).
Proof.
  pose proof (so_nT s OK) as HT. split; [apply pairs_NoDup|]. split.
  - intros [l k] [l' k'] I I' E. apply pairs_In in I, I'. cbn [fst snd] in E.
    pose proof (krev_range k ltac:(lia)). pose proof (krev_range k' ltac:(lia)).
    apply flat_inj in E; try lia. destruct E as [E1 E2]. rewrite !lrev_val in E1 by lia.
    assert (k = k') by (rewrite <- (krev_krev k), <- (krev_krev k') by lia; rewrite E2; reflexivity).
    f_equal; lia.
  - intros [l k] [l' k'] I I' E. apply pairs_In in I, I'. cbn [fst snd] in E.
    pose proof (dst_range l' k' ltac:(lia) ltac:(lia)). nia.
Qed.

Lemma mirror_val b a c : (negb (is_second c) || fullUpdate)%bool = true ->
  (forall l k, (1 <= l < nTR - 1)%Z -> (0 <= k < nz)%Z ->
     mirror s fullUpdate b a c (lrev l * nz + krev k)%Z =
     if even_mirror c then a c (l * nz + k)%Z - b c (l * nz + k)%Z else - a c (l * nz + k)%Z + b c (l * nz + k)%Z) /\
  (forall j, (j < nTR * nz)%Z -> mirror s fullUpdate b a c j = a c j).
Proof.
  intros Hc. unfold mirror. cbv zeta. fold (lrev). 
  match goal with |- context [for_up 1 (nTR - 1) ?B a] =>
    replace (for_up 1 (nTR - 1) B a) with
     (fold_left (fun a (q : Z * Z) => (fun c => if (negb (is_second c) || fullUpdate)%bool
               then upd (a c) (dst q) (if even_mirror c then a c (src q) - b c (src q) else - a c (src q) + b c (src q))
               else a c) : fam) L a) end.
  2:{ symmetry. apply (for_up_pairs (fun l k (a : fam) => (fun c => if (negb (is_second c) || fullUpdate)%bool
               then upd (a c) (lrev l * nz + krev k)%Z (if even_mirror c then a c (l * nz + k)%Z - b c (l * nz + k)%Z else - a c (l * nz + k)%Z + b c (l * nz + k)%Z)
               else a c) : fam)). }
  match goal with |- context [fold_left ?F L a] => set (stp := F) end.
  assert (E : fold_left stp L a c = fold_left (fun a q => upd a (dst q) ((fun q v => if even_mirror c then v - b c (src q) else - v + b c (src q)) q (a (src q)))) L (a c)).
  { apply (fold_project (fun a : fam => a c)). intros f q _. unfold stp. rewrite Hc. reflexivity. }
  rewrite E. destruct copy_ok as (C1 & C2 & C3).
  destruct (copy_loop L dst src (fun q v => if even_mirror c then v - b c (src q) else - v + b c (src q)) (a c) C1 C2 C3) as [R1' R2'].
  split.
  - intros l k Hl Hk. exact (R1' (l, k) ltac:(apply pairs_In; lia)).
  - intros j Hj. apply R2'. intros [l k] I. apply pairs_In in I. cbn [fst snd].
    pose proof (dst_range l k ltac:(lia) ltac:(lia)). lia.
Qed.

Lemma add_halves_val b a c : (negb (is_second c) || fullUpdate)%bool = true ->
  (forall l k, (0 <= l < nTR)%Z -> (0 <= k < nz)%Z ->
     add_halves s fullUpdate b a c (l * nz + k)%Z = a c (l * nz + k)%Z + b c (l * nz + k)%Z) /\
  (forall j, (nTR * nz <= j)%Z -> add_halves s fullUpdate b a c j = a c j).
Proof.
  intros Hc.
  assert (G : forall j, add_halves s fullUpdate b a c j = a c j +
     zsum 0 nTR (fun l => zsum 0 nz (fun k => ind (l * nz + k) j * b c (l * nz + k)%Z))).
  { intros j. unfold add_halves.
    apply (for_up_delta (fun a : fam => a c j)). intros l f _. apply (for_up_delta (fun a : fam => a c j)). intros k f' _.
    cbv zeta. rewrite Hc. change (upd ?x ?i (?x ?i + ?v)) with (add_at x i v). apply add_at_ind. }
  split.
  - intros l k Hl Hk. rewrite G. f_equal. rewrite (zsum_single 0 nTR l); [|lia|].
    + rewrite (zsum_single 0 nz k); [|lia|].
      * unfold ind. rewrite Z.eqb_refl. lra.
      * intros k' Hk' Ne. unfold ind. rewrite (proj2 (Z.eqb_neq _ _)) by lia. lra.
    + intros l' Hl' Ne. apply zsum_zero. intros k' Hk'. unfold ind. rewrite (proj2 (Z.eqb_neq _ _)); [lra|].
      intros E. apply flat_inj in E; lia.
  - intros j Hj. rewrite G. rewrite zsum_zero; [lra|]. intros l Hl. apply zsum_zero. intros k Hk.
    unfold ind. rewrite (proj2 (Z.eqb_neq _ _)); [lra|]. nia.
Qed.

Definition total (X : coef -> Z -> R) c t z : R := clos s X false c t z + (if sz_lasym s then clos s X true c t z else 0).

Lemma inverse_val X a b c l k :
  (0 <= k < nz)%Z -> (0 <= l)%Z -> (l < if sz_lasym s then nT else nTR)%Z ->
  writes s ztMin ztMax fullUpdate c (l * nz + k) = true ->
  fst (inverseDFT s ztMin ztMax fullUpdate fb X (a, b)) c (l * nz + k - off s ztMin c)%Z = total X c (ang nT l) (ang nz k).
Proof.
  intros Hk Hl0 Hl1 Hw. unfold inverseDFT, total.
  pose proof (so_nT s OK) as HT. pose proof (so_nTR s OK) as HTR.
  assert (Hc : (negb (is_second c) || fullUpdate)%bool = true).
  { unfold writes in Hw. destruct (is_pos c) eqn:Ep; [destruct c; try discriminate Ep; reflexivity|].
    cbn [orb] in Hw. apply andb_prop in Hw. tauto. }
  assert (Z0 : forall (f : fam) j, zeroed fullUpdate f c j = 0) by (intros f j; unfold zeroed; rewrite Hc; reflexivity).
  destruct (sz_lasym s) eqn:EL.
  - assert (W : forall i, writes s ztMin ztMax fullUpdate c i = true).
    { intros i. unfold writes. rewrite EL, Hc. cbn [orb andb]. apply orb_true_r. }
    assert (OFF : off s ztMin c = 0%Z) by (unfold off, derivOffset; rewrite EL; destruct (is_pos c); reflexivity).
    assert (TV : forall l k, (0 <= l < nTR)%Z -> (0 <= k < nz)%Z ->
      fst (transform s ztMin ztMax fullUpdate fb X (zeroed fullUpdate a, zeroed fullUpdate b)) c (l * nz + k)%Z = clos s X false c (ang nT l) (ang nz k) /\
      snd (transform s ztMin ztMax fullUpdate fb X (zeroed fullUpdate a, zeroed fullUpdate b)) c (l * nz + k)%Z = clos s X true c (ang nT l) (ang nz k)).
    { intros l' k' Hl' Hk'.
      destruct (transform_val s OK MQ b0 ztMin ztMax fullUpdate X (zeroed fullUpdate a) (zeroed fullUpdate b) c l' k' Hl' Hk' (W _)) as [T1 T2].
      rewrite OFF, !Z.sub_0_r, Z0 in T1. rewrite OFF, !Z.sub_0_r, Z0 in T2.
      split; [rewrite T1; lra|rewrite T2 by assumption; lra]. }
    destruct (transform s ztMin ztMax fullUpdate fb X (zeroed fullUpdate a, zeroed fullUpdate b)) as [ta tb]. cbn [fst snd] in TV |- *.
    rewrite OFF, Z.sub_0_r.
    destruct (add_halves_val tb (mirror s fullUpdate tb ta) c Hc) as [A1 A2].
    destruct (mirror_val tb ta c Hc) as [M1 M2].
    destruct (Z.lt_ge_cases l nTR) as [Hl|Hl].
    + rewrite A1 by lia. rewrite M2 by nia. destruct (TV l k ltac:(lia) Hk) as [-> ->]. reflexivity.
    + rewrite A2 by nia.
      assert (El : lrev (nT - l) = l) by (rewrite lrev_val by lia; lia).
      pose proof (krev_range k Hk) as Hkr. pose proof (krev_krev k Hk) as Ekk.
      rewrite <- El at 1. rewrite <- Ekk at 1.
      rewrite M1 by lia. destruct (TV (nT - l)%Z (krev k) ltac:(lia) Hkr) as [-> ->].
      assert (EA : ang nT (nT - l) = 2 * PI - ang nT l).
      { rewrite <- (lrev_val l) by lia. apply ang_lrev. lia. }
      rewrite EA.
      rewrite !(clos_reflect s X _ c (ang nT l) (ang nz k)); try (pose proof (so_ntor s OK); lia);
        try (intros n Hn; apply ang_krev; assumption).
      unfold eps. destruct (even_mirror c); lra.
  - pose proof (transform_val s OK MQ b0 ztMin ztMax fullUpdate X (zeroed fullUpdate a) b c l k ltac:(lia) Hk Hw) as [T1 _].
    destruct (transform s ztMin ztMax fullUpdate fb X (zeroed fullUpdate a, b)) as [ta tb]. cbn [fst] in T1 |- *.
    rewrite T1, Z0. lra.
Qed.

(** The symmetric mirror of derivedSurfaceQuantities. *)
Lemma mirror_sym_val a r :
  let res := mirror_sym s (a, r) in
  (forall l k, (1 <= l < nTR - 1)%Z -> (0 <= k < nz)%Z ->
     fst res R1 (lrev l * nz + krev k)%Z = a R1 (l * nz + k)%Z /\
     fst res Z1 (lrev l * nz + krev k)%Z = - a Z1 (l * nz + k)%Z /\
     snd res (lrev l * nz + krev k)%Z = r (l * nz + k)%Z) /\
  (forall j, (j < nTR * nz)%Z -> fst res R1 j = a R1 j /\ fst res Z1 j = a Z1 j /\ snd res j = r j) /\
  (forall c, is_pos c = false -> fst res c = a c).
Proof.
  cbv zeta. unfold mirror_sym. cbv zeta.
  match goal with |- context [for_up 1 (nTR - 1) ?B (a, r)] =>
    replace (for_up 1 (nTR - 1) B (a, r)) with
     (fold_left (fun (ar : fam * (Z -> R)) (q : Z * Z) => let '(a, r) := ar in
      ((fun c => match c with R1 => upd (a R1) (dst q) (a R1 (src q)) | Z1 => upd (a Z1) (dst q) (- a Z1 (src q)) | _ => a c end) : fam,
       upd r (dst q) (r (src q)))) L (a, r)) end.
  2:{ symmetry. apply (for_up_pairs (fun l k (ar : fam * (Z -> R)) => let '(a, r) := ar in
      ((fun c => match c with R1 => upd (a R1) (lrev l * nz + krev k)%Z (a R1 (l * nz + k)%Z) | Z1 => upd (a Z1) (lrev l * nz + krev k)%Z (- a Z1 (l * nz + k)%Z) | _ => a c end) : fam,
       upd r (lrev l * nz + krev k)%Z (r (l * nz + k)%Z)))). }
  match goal with |- context [fold_left ?F L (a, r)] => set (stp := F) end.
  assert (E1 : fst (fold_left stp L (a, r)) R1 = fold_left (fun a q => upd a (dst q) ((fun _ v => v) q (a (src q)))) L (a R1)).
  { apply (fold_project (fun ar : fam * (Z -> R) => fst ar R1) stp). intros [f g] q _. reflexivity. }
  assert (E2 : fst (fold_left stp L (a, r)) Z1 = fold_left (fun a q => upd a (dst q) ((fun _ v => - v) q (a (src q)))) L (a Z1)).
  { apply (fold_project (fun ar : fam * (Z -> R) => fst ar Z1) stp). intros [f g] q _. reflexivity. }
  assert (E3 : snd (fold_left stp L (a, r)) = fold_left (fun a q => upd a (dst q) ((fun _ v => v) q (a (src q)))) L r).
  { apply (fold_project (fun ar : fam * (Z -> R) => snd ar) stp). intros [f g] q _. reflexivity. }
  destruct copy_ok as (C1 & C2 & C3).
  destruct (copy_loop L dst src (fun _ v => v) (a R1) C1 C2 C3) as [P1 Q1].
  destruct (copy_loop L dst src (fun _ v => - v) (a Z1) C1 C2 C3) as [P2 Q2].
  destruct (copy_loop L dst src (fun _ v => v) r C1 C2 C3) as [P3 Q3].
  split; [|split].
  - intros l k Hl Hk. rewrite E1, E2, E3. assert (I : In (l, k) L) by (apply pairs_In; lia).
    split; [exact (P1 _ I)|split; [exact (P2 _ I)|exact (P3 _ I)]].
  - intros j Hj. rewrite E1, E2, E3.
    assert (N : forall q, In q L -> dst q <> j).
    { intros [l k] I. apply pairs_In in I. cbn [fst snd]. pose proof (dst_range l k ltac:(lia) ltac:(lia)). lia. }
    rewrite Q1, Q2, Q3 by assumption. auto.
  - intros c Hc. apply (fold_same (fun ar : fam * (Z -> R) => fst ar c) stp). intros [f g] q.
    destruct c; try discriminate Hc; reflexivity.
Qed.
End M.
