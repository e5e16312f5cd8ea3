From Coq Require Import ZArith List Bool Reals Lra Lia.
From Verif Require Import Base BaseLemmas SumLemmas FourierModel FourierSpec FourierProofs PartModel HotModel HotSpec HotProofs HotSeries.
Import ListNotations.
Open Scope R_scope.

Section Exp.
Variables (lasym lthreed : bool) (mpol ntor ns : Z).
Hypothesis Hm : (2 <= mpol)%Z.
Hypothesis Hn : (0 <= ntor)%Z.
Hypothesis Hs : (3 <= ns)%Z.
Variables (lfreeb : bool) (X : field) (phip : Z -> R) (ths : list (rpart * (geo * (Z -> R)))) (lam : R).
Hypothesis HT : team lasym lthreed mpol ntor ns lfreeb X phip ths.

Ltac d3 LT := destruct (Bool.bool_dec lthreed true) as [LT|LT]; [|apply not_true_is_false in LT]; try rewrite LT; cbv iota.
Definition kept (j : Z) : field := if (j =? 0)%Z then axis_part (physical lasym lthreed X) else physical lasym lthreed X.
Definition keptL (j : Z) : field := if (j =? 0)%Z then axis_lambda X else X.
Definition only (Y : field) (c : comp) (j m n : Z) : R := if lthreed then Y c j m n else 0.
Definition w := export lasym lthreed mpol ntor ns lam (gather lasym lthreed mpol ntor ths).

Local Notation ix := (ix mpol ntor).
Lemma sgn_pos_range n : (- ntor <= n <= ntor)%Z -> (0 <= Z.abs n <= ntor)%Z.
Proof. lia. Qed.

Definition g0 := fst (gather lasym lthreed mpol ntor ths).
Definition ph0 := snd (gather lasym lthreed mpol ntor ths).
Definition g1 := if lthreed then undo_m1 mpol ntor ns Rss Zcs g0 else g0.
Definition g2 := undo_m1 mpol ntor ns Rsc Zcc g1.

Lemma g0_at c j m n : (0 <= j < ns)%Z -> (0 <= m < mpol)%Z -> (0 <= n <= ntor)%Z -> has lasym lthreed c = true -> g0 c (ix j n m) = X c j m n.
Proof. intros. destruct (gather_at lasym lthreed mpol ntor ns lfreeb X phip ths HT) as (GA & GB); auto. Qed.
Lemma ph0_at j : (0 <= j < ns)%Z -> ph0 j = phip j.
Proof. intros. destruct (gather_at lasym lthreed mpol ntor ns lfreeb X phip ths HT) as (GA & GB); auto. Qed.
Lemma g1_at c j m n : (0 <= j < ns)%Z -> (0 <= m < mpol)%Z -> (0 <= n <= ntor)%Z -> has lasym lthreed c = true -> c <> Rsc -> c <> Zcc ->
  g1 c (ix j n m) = physical lasym lthreed X c j m n.
Proof.
  intros J M N HC C1 C2. unfold g1, physical. d3 LT.
  - rewrite undo_m1_at by (auto; discriminate). destruct (Z.eqb_spec m 1) as [->|]; [|rewrite g0_at by (auto; rewrite ?LT; auto); destruct c; reflexivity].
    destruct c; cbn [comp_eqb]; try congruence; rewrite ?g0_at by (auto; rewrite ?LT; auto); reflexivity.
  - rewrite g0_at by (auto; rewrite ?LT; auto). destruct c; try congruence; destruct (m =? 1)%Z; reflexivity.
Qed.
Lemma g2_at c j m n : lasym = true -> (0 <= j < ns)%Z -> (0 <= m < mpol)%Z -> (0 <= n <= ntor)%Z -> has lasym lthreed c = true ->
  g2 c (ix j n m) = physical lasym lthreed X c j m n.
Proof.
  intros LA J M N HC. unfold g2. rewrite undo_m1_at by (auto; discriminate).
  assert (G : forall c, (c = Rsc \/ c = Zcc) -> g1 c (ix j n m) = X c j m n).
  { intros c' Hc'. unfold g1. d3 LT.
    - rewrite undo_m1_at by (auto; discriminate). destruct Hc' as [-> | ->]; cbn [comp_eqb]; rewrite g0_at by (auto; rewrite ?LT; auto); destruct (m =? 1)%Z; reflexivity.
    - apply g0_at; auto. rewrite ?LT. destruct Hc' as [-> | ->]; exact LA. }
  unfold physical. rewrite LA.
  destruct (Z.eqb_spec m 1) as [->|Ne].
  - destruct c; cbn [comp_eqb]; rewrite ?G by auto; try reflexivity; rewrite g1_at by (auto; discriminate); unfold physical; rewrite Z.eqb_refl; reflexivity.
  - destruct c; rewrite ?G by auto; try reflexivity; rewrite g1_at by (auto; discriminate); unfold physical; apply Z.eqb_neq in Ne; rewrite Ne; reflexivity.
Qed.

Lemma w_eq : w = (store_columns mpol ntor ns lam ph0 (fun jF => snd (sym_column lthreed mpol ntor g1 jF)),
   if lasym then Some (store_columns mpol ntor ns lam ph0 (fun jF => snd (asym_column lthreed mpol ntor g2 jF))) else None).
Proof.
  unfold w, export, g2, g1, g0, ph0. destruct (gather lasym lthreed mpol ntor ths) as (g, p). cbn [fst snd]. destruct lasym; reflexivity.
Qed.

Lemma mode_range_ m n : valid_mode mpol ntor m n -> (0 <= mode_pos ntor m n < n_modes mpol ntor)%Z.
Proof.
  intros (A & B & C). unfold mode_pos, n_modes. destruct (Z.eqb_spec m 0); [specialize (C e); nia|nia].
Qed.

Lemma phys_L c j m n : c = Lsc \/ c = Lcs \/ c = Lcc \/ c = Lss -> physical lasym lthreed X c j m n = X c j m n.
Proof. intros [->|[->|[->| ->]]]; unfold physical; destruct (m =? 1)%Z; reflexivity. Qed.

Lemma sym_cols j : (0 <= j < ns)%Z ->
  cos_col mpol ntor (kept j Rcc j) (only (kept j) Rss j) (fun k => w1 (fst w) k j) /\
  sin_col mpol ntor (kept j Zsc j) (only (kept j) Zcs j) (fun k => w2 (fst w) k j) /\
  sin_col mpol ntor (fun m n => keptL j Lsc j m n / phip j * lam) (fun m n => only (keptL j) Lcs j m n / phip j * lam) (fun k => w3 (fst w) k j).
Proof.
  intros J. rewrite w_eq. cbn [fst].
  assert (V : forall m n, valid_mode mpol ntor m n ->
     let W := store_columns mpol ntor ns lam ph0 (fun jF => snd (sym_column lthreed mpol ntor g1 jF)) in
     w1 W (mode_pos ntor m n) j = fst (fst (sym_val lthreed mpol ntor g1 j m n)) /\
     w2 W (mode_pos ntor m n) j = snd (fst (sym_val lthreed mpol ntor g1 j m n)) /\
     w3 W (mode_pos ntor m n) j = snd (sym_val lthreed mpol ntor g1 j m n) / phip j * lam).
  { intros m n VM W. destruct (store_at mpol ntor ns Hm Hn lam ph0 (fun jF => snd (sym_column lthreed mpol ntor g1 jF)) (mode_pos ntor m n) j (mode_range_ m n VM) J) as (S1 & S2 & S3).
    destruct (sym_column_at lthreed mpol ntor Hm Hn g1 j) as (_ & SC). cbv beta in S1, S2, S3. rewrite (SC m n VM) in S1, S2, S3.
    rewrite ph0_at in S3 by auto. auto. }
  cbv zeta in V.
  assert (HR : has lasym lthreed Rcc = true) by reflexivity.
  assert (HZ : has lasym lthreed Zsc = true) by reflexivity.
  assert (HL : has lasym lthreed Lsc = true) by reflexivity.
  assert (H3 : lthreed = true -> forall c, c = Rss \/ c = Zcs \/ c = Lcs -> has lasym lthreed c = true) by (intros LT c [->|[->| ->]]; exact LT).
  unfold cos_col, sin_col. split; [|split].
  - intros m n VM. destruct (V m n VM) as (E & _ & _). rewrite E. destruct VM as (A & B & C).
    unfold sym_val, kept, only. destruct (Z.eqb_spec m 0) as [->|Nm]; cbn [orb].
    + cbn [fst]. rewrite g1_at by (auto; try discriminate; lia). destruct (j =? 0)%Z; [unfold axis_part; cbn [Z.eqb negb andb]|]; ring.
    + destruct (Z.eqb_spec n 0) as [->|Nn].
      * cbn [fst]. rewrite g1_at by (auto; try discriminate; lia). destruct (j =? 0)%Z; [unfold axis_part; change (Z.abs 0) with 0%Z; cbn [Z.eqb negb andb]; rewrite andb_false_r|]; reflexivity.
      * destruct (Z.ltb_spec 0 j), (Z.eqb_spec j 0); try lia; cbn [fst].
        -- rewrite g1_at by (auto; try discriminate; lia). d3 LT; [rewrite g1_at by (auto; rewrite ?LT; auto; try discriminate; try lia; apply H3; auto)|]; rewrite ?LT; field.
        -- unfold axis_part. destruct (Z.eqb_spec m 0), (Z.eqb_spec (Z.abs n) 0); try lia. cbn [negb andb]. d3 LT; field.
  - intros m n VM N0. destruct (V m n VM) as (_ & E & _). rewrite E. destruct VM as (A & B & C).
    unfold sym_val, kept, only. destruct (Z.eqb_spec m 0) as [->|Nm].
    + cbn [fst snd]. d3 LT; [|ring]. rewrite g1_at by (auto; rewrite ?LT; auto; try discriminate; lia). rewrite LT. destruct (j =? 0)%Z; [unfold axis_part; cbn [Z.eqb negb andb]|]; ring.
    + destruct (Z.eqb_spec n 0) as [->|Nn].
      * cbn [fst snd]. rewrite g1_at by (auto; try discriminate; lia). destruct (j =? 0)%Z; [unfold axis_part; change (Z.abs 0) with 0%Z; cbn [Z.eqb negb andb]; rewrite andb_false_r|]; reflexivity.
      * destruct (Z.ltb_spec 0 j), (Z.eqb_spec j 0); try lia; cbn [fst snd].
        -- rewrite g1_at by (auto; try discriminate; lia). d3 LT; [rewrite g1_at by (auto; rewrite ?LT; auto; try discriminate; try lia; apply H3; auto)|]; rewrite ?LT; field.
        -- unfold axis_part. destruct (Z.eqb_spec m 0), (Z.eqb_spec (Z.abs n) 0); try lia. cbn [negb andb]. d3 LT; field.
  - intros m n VM N0. destruct (V m n VM) as (_ & _ & E). rewrite E. destruct VM as (A & B & C).
    unfold Rdiv. unfold sym_val, keptL, only. destruct (Z.eqb_spec m 0) as [->|Nm].
    + cbn [snd]. d3 LT; [|ring]. destruct (Z.eqb_spec j 0) as [Ej|Ej].
      * rewrite !g1_at by (auto; rewrite ?LT; auto; try discriminate; lia). rewrite !(phys_L Lcs) by auto. unfold axis_lambda. cbn [Z.eqb].
        rewrite (Z.abs_eq n) by lia. ring.
      * rewrite !g1_at by (auto; rewrite ?LT; auto; try discriminate; lia). rewrite !(phys_L Lcs) by auto. ring.
    + destruct (Z.eqb_spec n 0) as [->|Nn].
      * cbn [snd]. rewrite g1_at by (auto; try discriminate; lia). rewrite phys_L by auto. destruct (j =? 0)%Z; [unfold axis_lambda, axis_part; change (Z.abs 0) with 0%Z; cbn [Z.eqb negb andb]; rewrite andb_false_r|]; ring.
      * destruct (Z.ltb_spec 0 j), (Z.eqb_spec j 0); try lia; cbn [snd].
        -- rewrite g1_at by (auto; try discriminate; lia). rewrite phys_L by auto. d3 LT; [rewrite g1_at by (auto; rewrite ?LT; auto; try discriminate; try lia; apply H3; auto); rewrite phys_L by auto|]; unfold Rdiv; ring.
        -- unfold axis_lambda, axis_part. destruct (Z.eqb_spec m 0), (Z.eqb_spec (Z.abs n) 0); try lia. cbn [negb andb]. d3 LT; unfold Rdiv; ring.
Qed.

Lemma asym_cols j : (0 <= j < ns)%Z -> lasym = true -> exists a, snd w = Some a /\
  sin_col mpol ntor (kept j Rsc j) (only (kept j) Rcs j) (fun k => w1 a k j) /\
  cos_col mpol ntor (kept j Zcc j) (only (kept j) Zss j) (fun k => w2 a k j) /\
  cos_col mpol ntor (fun m n => keptL j Lcc j m n / phip j * lam) (fun m n => only (keptL j) Lss j m n / phip j * lam) (fun k => w3 a k j).
Proof.
  intros J LA. rewrite w_eq. cbn [snd]. set (W := store_columns mpol ntor ns lam ph0 (fun jF => snd (asym_column lthreed mpol ntor g2 jF))).
  exists W. split; [rewrite LA; reflexivity|].
  assert (V : forall m n, valid_mode mpol ntor m n ->
     w1 W (mode_pos ntor m n) j = fst (fst (asym_val lthreed mpol ntor g2 j m n)) /\
     w2 W (mode_pos ntor m n) j = snd (fst (asym_val lthreed mpol ntor g2 j m n)) /\
     w3 W (mode_pos ntor m n) j = snd (asym_val lthreed mpol ntor g2 j m n) / phip j * lam).
  { intros m n VM. destruct (store_at mpol ntor ns Hm Hn lam ph0 (fun jF => snd (asym_column lthreed mpol ntor g2 jF)) (mode_pos ntor m n) j (mode_range_ m n VM) J) as (S1 & S2 & S3).
    destruct (asym_column_at lthreed mpol ntor Hm Hn g2 j) as (_ & SC). cbv beta in S1, S2, S3. rewrite (SC m n VM) in S1, S2, S3.
    rewrite ph0_at in S3 by auto. auto. }
  assert (HA : forall c, c = Rsc \/ c = Zcc \/ c = Lcc -> has lasym lthreed c = true) by (intros c [->|[->| ->]]; exact LA).
  assert (H3 : lthreed = true -> forall c, c = Rcs \/ c = Zss \/ c = Lss -> has lasym lthreed c = true) by (intros LT c [->|[->| ->]]; cbn; rewrite LA; exact LT).
  unfold cos_col, sin_col. split; [|split].
  - intros m n VM N0. destruct (V m n VM) as (E & _ & _). rewrite E. destruct VM as (A & B & C).
    unfold asym_val, kept, only. destruct (Z.eqb_spec m 0) as [->|Nm].
    + cbn [fst snd]. d3 LT; [|ring]. rewrite g2_at by (auto; rewrite ?LT; auto; try discriminate; lia). rewrite LT. destruct (j =? 0)%Z; [unfold axis_part; cbn [Z.eqb negb andb]|]; ring.
    + destruct (Z.eqb_spec n 0) as [->|Nn].
      * cbn [fst snd]. rewrite g2_at by (auto; try discriminate; lia). destruct (j =? 0)%Z; [unfold axis_part; change (Z.abs 0) with 0%Z; cbn [Z.eqb negb andb]; rewrite andb_false_r|]; reflexivity.
      * destruct (Z.ltb_spec 0 j), (Z.eqb_spec j 0); try lia; cbn [fst snd].
        -- rewrite g2_at by (auto; try discriminate; lia). d3 LT; [rewrite g2_at by (auto; rewrite ?LT; auto; try discriminate; try lia; apply H3; auto)|]; rewrite ?LT; field.
        -- unfold axis_part. destruct (Z.eqb_spec m 0), (Z.eqb_spec (Z.abs n) 0); try lia. cbn [negb andb]. d3 LT; field.
  - intros m n VM. destruct (V m n VM) as (_ & E & _). rewrite E. destruct VM as (A & B & C).
    unfold asym_val, kept, only. destruct (Z.eqb_spec m 0) as [->|Nm]; cbn [orb].
    + cbn [fst snd]. rewrite g2_at by (auto; try discriminate; lia). destruct (j =? 0)%Z; [unfold axis_part; cbn [Z.eqb negb andb]|]; ring.
    + destruct (Z.eqb_spec n 0) as [->|Nn].
      * cbn [fst snd]. rewrite g2_at by (auto; try discriminate; lia). destruct (j =? 0)%Z; [unfold axis_part; change (Z.abs 0) with 0%Z; cbn [Z.eqb negb andb]; rewrite andb_false_r|]; reflexivity.
      * destruct (Z.ltb_spec 0 j), (Z.eqb_spec j 0); try lia; cbn [fst snd].
        -- rewrite g2_at by (auto; try discriminate; lia). d3 LT; [rewrite g2_at by (auto; rewrite ?LT; auto; try discriminate; try lia; apply H3; auto)|]; rewrite ?LT; field.
        -- unfold axis_part. destruct (Z.eqb_spec m 0), (Z.eqb_spec (Z.abs n) 0); try lia. cbn [negb andb]. d3 LT; field.
  - intros m n VM. destruct (V m n VM) as (_ & _ & E). rewrite E. destruct VM as (A & B & C).
    unfold Rdiv. unfold asym_val, keptL, only. destruct (Z.eqb_spec m 0) as [->|Nm]; cbn [orb].
    + cbn [snd]. rewrite !g2_at by (auto; try discriminate; lia). rewrite !phys_L by auto. destruct (j =? 0)%Z; [unfold axis_lambda, axis_part; cbn [Z.eqb negb andb]|]; ring.
    + destruct (Z.eqb_spec n 0) as [->|Nn].
      * cbn [snd]. rewrite g2_at by (auto; try discriminate; lia). rewrite phys_L by auto. destruct (j =? 0)%Z; [unfold axis_lambda, axis_part; change (Z.abs 0) with 0%Z; cbn [Z.eqb negb andb]; rewrite andb_false_r|]; ring.
      * destruct (Z.ltb_spec 0 j), (Z.eqb_spec j 0); try lia; cbn [snd].
        -- rewrite g2_at by (auto; try discriminate; lia). rewrite phys_L by auto. d3 LT; [rewrite g2_at by (auto; rewrite ?LT; auto; try discriminate; try lia; apply H3; auto); rewrite phys_L by auto 6|]; unfold Rdiv; ring.
        -- unfold axis_lambda, axis_part. destruct (Z.eqb_spec m 0), (Z.eqb_spec (Z.abs n) 0); try lia. cbn [negb andb]. d3 LT; unfold Rdiv; ring.
Qed.
Lemma asym_none : lasym = false -> snd w = None.
Proof. intros LA. rewrite w_eq, LA. reflexivity. Qed.

Lemma only_series t1 t2 Y c j th ze :
  surf_series mpol ntor t1 t2 (only Y c j) th ze = if lthreed then surf_series mpol ntor t1 t2 (Y c j) th ze else 0.
Proof.
  unfold only. destruct lthreed; [reflexivity|]. unfold surf_series. apply zsum_zero. intros. apply zsum_zero. intros. ring.
Qed.
Lemma scaled_series t1 t2 A k l th ze :
  surf_series mpol ntor t1 t2 (fun m n => A m n / k * l) th ze = surf_series mpol ntor t1 t2 A th ze / k * l.
Proof.
  unfold surf_series. unfold Rdiv. rewrite Rmult_assoc. rewrite <- zsum_scale_r. apply zsum_ext. intros. rewrite <- zsum_scale_r. apply zsum_ext. intros. ring.
Qed.

Theorem export_surfaces j th ze : (0 <= j < ns)%Z ->
  R_out mpol ntor w j th ze = R_of lasym lthreed mpol ntor (kept j) j th ze /\
  Z_out mpol ntor w j th ze = Z_of lasym lthreed mpol ntor (kept j) j th ze /\
  L_out mpol ntor w j th ze = L_of lasym lthreed mpol ntor (keptL j) j th ze / phip j * lam.
Proof.
  intros J. destruct (sym_cols j J) as (S1 & S2 & S3). unfold R_out, Z_out, L_out, R_of, Z_of, L_of.
  rewrite (cos_col_series mpol ntor Hm Hn _ _ _ th ze S1), (sin_col_series mpol ntor Hm Hn _ _ _ th ze S2), (sin_col_series mpol ntor Hm Hn _ _ _ th ze S3).
  rewrite !only_series, !scaled_series, !only_series.
  destruct (Bool.bool_dec lasym true) as [LA|LA]; [|apply not_true_is_false in LA].
  - destruct (asym_cols j J LA) as (a & EA & A1 & A2 & A3). rewrite EA.
    rewrite (sin_col_series mpol ntor Hm Hn _ _ _ th ze A1), (cos_col_series mpol ntor Hm Hn _ _ _ th ze A2), (cos_col_series mpol ntor Hm Hn _ _ _ th ze A3).
    rewrite !only_series, !scaled_series, !only_series. rewrite LA. cbv iota. unfold Rdiv.
    split; [|split]; ring.
  - rewrite (asym_none LA), LA. cbv iota. unfold Rdiv. split; [|split]; ring.
Qed.
End Exp.
