From Coq Require Import ZArith List Bool Reals Lia Lra.
From Verif Require Import Base BaseLemmas SumLemmas SizesModel FourierModel FourierSpec TrigSums DftSpec DftTables VacTables
  SurfModel SingSumModel SingSumProofs.
Import ListNotations.
Open Scope R_scope.

(** Closed forms on the grid. *)
Definition bas (c : bool) (o : Z) (w x : R) : R :=
  match o with
  | 0%Z => if c then cos x else sin x
  | 1%Z => if c then - w * sin x else w * cos x
  | _ => - (w * w) * (if c then cos x else sin x)
  end.
Definition clos (s : sizes) (X : coef -> Z -> R) (asym : bool) (c : comp) (t z : R) : R :=
  zsum 0 (sz_ntor s + 1) (fun n => zsum 0 (sz_mpol s) (fun m => s2 m * s2 n *
    (X (first_coef asym c) (n * sz_mpol s + m)%Z * bas (cos_like (first_coef asym c)) (ou c) (IZR m) (IZR m * t)
       * bas true (ov c) (IZR (n * sz_nfp s)) (IZR n * z)
     + X (second_coef asym c) (n * sz_mpol s + m)%Z * bas (cos_like (second_coef asym c)) (ou c) (IZR m) (IZR m * t)
       * bas false (ov c) (IZR (n * sz_nfp s)) (IZR n * z)))).

Lemma first_asym a c : asym_coef (first_coef a c) = a.
Proof. destruct a, c; reflexivity. Qed.
Lemma second_asym a c : asym_coef (second_coef a c) = a.
Proof. destruct a, c; reflexivity. Qed.
Lemma ou_range c : (ou c = 0 \/ ou c = 1 \/ ou c = 2)%Z. Proof. destruct c; cbn; auto. Qed.
Lemma ov_range c : (ov c = 0 \/ ov c = 1 \/ ov c = 2)%Z. Proof. destruct c; cbn; auto. Qed.

Section P.
Variable s : sizes.
Hypothesis OK : sz_ok s.
Hypothesis MQ : (sz_mpol s + 1 <= sz_mnyq2 s)%Z.
Variable b0 : basis_tables.
Variables ztMin ztMax : Z.
Hypothesis Hz : (0 <= ztMin <= ztMax)%Z.
Hypothesis Hz2 : (ztMax <= sz_nZnT s)%Z.
Variable fullUpdate : bool.
Local Notation nT := (sz_nThetaEven s).
Local Notation nTR := (sz_nThetaReduced s).
Local Notation nz := (sz_nZeta s).
Local Notation fb := (vtab s b0).

Lemma pol_basis_val x o l m : (o = 0 \/ o = 1 \/ o = 2)%Z -> (0 <= m < sz_mpol s)%Z -> (0 <= l < nTR)%Z ->
  pol_basis s fb x o l m = s2 m * bas (cos_like x) o (IZR m) (IZR m * ang nT l).
Proof.
  intros Ho Hm Hl. unfold pol_basis, bas.
  destruct Ho as [->|[->| ->]]; destruct (cos_like x);
    rewrite ?v_cosmu, ?v_sinmu, ?v_cosmum, ?v_sinmum, ?opp_IZR, ?mult_IZR by lia; ring.
Qed.
Lemma tor_val o n k : (o = 0 \/ o = 1 \/ o = 2)%Z -> (0 <= n <= sz_ntor s)%Z -> (0 <= k < nz)%Z ->
  tor_first s fb o n k = s2 n * bas true o (IZR (n * sz_nfp s)) (IZR n * ang nz k) /\
  tor_second s fb o n k = s2 n * bas false o (IZR (n * sz_nfp s)) (IZR n * ang nz k).
Proof.
  intros Ho Hn Hk. pose proof (so_nnyq s OK). unfold tor_first, tor_second, bas.
  destruct Ho as [->|[->| ->]]; cbv zeta; rewrite ?v_cosnv, ?v_sinnv, ?v_cosnvn, ?v_sinnvn by lia.
  - split; ring.
  - replace (- n * sz_nfp s)%Z with (- (n * sz_nfp s))%Z by ring. rewrite ?opp_IZR. split; ring.
  - replace (n * sz_nfp s * n * sz_nfp s)%Z with ((n * sz_nfp s) * (n * sz_nfp s))%Z by ring.
    rewrite (mult_IZR (n * sz_nfp s) (n * sz_nfp s)). split; ring.
Qed.

Lemma accumulate_val X n l x o :
  ((negb (asym_coef x) || sz_lasym s) &&
        ((o =? 0)%Z || sz_lasym s || ((ztMin / nz <=? l)%Z && (l <=? ztMax / nz)%Z)))%bool = true ->
  (o = 0 \/ o = 1 \/ o = 2)%Z -> (0 <= l < nTR)%Z ->
  accumulate s ztMin ztMax fb X n l x o =
  zsum 0 (sz_mpol s) (fun m => X x (n * sz_mpol s + m)%Z * (s2 m * bas (cos_like x) o (IZR m) (IZR m * ang nT l))).
Proof.
  intros Hc Ho Hl. unfold accumulate. cbv zeta.
  match goal with |- for_up 0 _ ?B ?S0 x o = _ =>
    pose proof (for_up_delta (fun a : coef -> Z -> R => a x o) B
      (fun m => X x (n * sz_mpol s + m)%Z * (s2 m * bas (cos_like x) o (IZR m) (IZR m * ang nT l))) 0 (sz_mpol s)) as D end.
  cbv beta in D. rewrite D; [lra|].
  intros m a Hm. rewrite Hc. rewrite pol_basis_val by lia. reflexivity.
Qed.

(** The increments of all toroidal modes together. *)
Definition inc (X : coef -> Z -> R) asym c n l k : R :=
  accumulate s ztMin ztMax fb X n l (first_coef asym c) (ou c) * tor_first s fb (ov c) n k +
  accumulate s ztMin ztMax fb X n l (second_coef asym c) (ou c) * tor_second s fb (ov c) n k.

Lemma inc_sum X asym c l k :
  (asym = true -> sz_lasym s = true) ->
  writes s ztMin ztMax fullUpdate c (l * nz + k) = true ->
  (0 <= l < nTR)%Z -> (0 <= k < nz)%Z ->
  zsum 0 (sz_ntor s + 1) (fun n => inc X asym c n l k) = clos s X asym c (ang nT l) (ang nz k).
Proof.
  intros Ha Hw Hl Hk. pose proof (so_nZeta s OK). unfold clos. apply zsum_ext. intros n Hn. unfold inc.
  assert (G : ((ou c =? 0)%Z || sz_lasym s || ((ztMin / nz <=? l)%Z && (l <=? ztMax / nz)%Z))%bool = true).
  { unfold writes in Hw. destruct (is_pos c) eqn:Ep; [destruct c; try discriminate Ep; reflexivity|].
    cbn [orb] in Hw. apply andb_prop in Hw. destruct Hw as [Hw _]. apply orb_prop in Hw. destruct Hw as [Hw|Hw].
    - rewrite Hw. rewrite orb_true_r. reflexivity.
    - apply andb_prop in Hw. destruct Hw as [W1 W2]. apply Z.leb_le in W1. apply Z.ltb_lt in W2.
      assert (E : ((l * nz + k) / nz = l)%Z) by (symmetry; apply Z.div_unique_pos with k; lia).
      rewrite (proj2 (Z.leb_le (ztMin / nz) l)), (proj2 (Z.leb_le l (ztMax / nz))).
      + rewrite orb_true_r. reflexivity.
      + rewrite <- E. apply Z.div_le_mono; lia.
      + rewrite <- E. apply Z.div_le_mono; lia. }
  destruct (tor_val (ov c) n k (ov_range c) ltac:(lia) Hk) as [T1 T2]. rewrite T1, T2.
  rewrite !accumulate_val; try apply ou_range; try assumption.
  - rewrite <- !zsum_scale_r, <- zsum_plus. apply zsum_ext. intros m Hm. ring.
  - rewrite second_asym, G. destruct asym; [rewrite Ha by reflexivity|]; reflexivity.
  - rewrite first_asym, G. destruct asym; [rewrite Ha by reflexivity|]; reflexivity.
Qed.


Lemma transform_val X a b c l k :
  (0 <= l < nTR)%Z -> (0 <= k < nz)%Z -> writes s ztMin ztMax fullUpdate c (l * nz + k) = true ->
  let r := transform s ztMin ztMax fullUpdate fb X (a, b) in
  fst r c (l * nz + k - off s ztMin c)%Z = a c (l * nz + k - off s ztMin c)%Z + clos s X false c (ang nT l) (ang nz k) /\
  (sz_lasym s = true ->
   snd r c (l * nz + k - off s ztMin c)%Z = b c (l * nz + k - off s ztMin c)%Z + clos s X true c (ang nT l) (ang nz k)).
Proof.
  intros Hl Hk Hw. cbv zeta. set (j := (l * nz + k - off s ztMin c)%Z).
  pose (d := fun asym n l' k' => if writes s ztMin ztMax fullUpdate c (l' * nz + k') then
     ind (l' * nz + k' - off s ztMin c) j * inc X asym c n l' k' else 0).
  assert (GA : forall asym n l' k' f, grid_add s ztMin ztMax fullUpdate fb (accumulate s ztMin ztMax fb X n l') n l' k' asym f c j
     = f c j + d asym n l' k').
  { intros. unfold grid_add, d. cbv zeta. destruct (writes s ztMin ztMax fullUpdate c (l' * nz + k')); [|lra].
    change (upd ?a ?i (?a ?i + ?v)) with (add_at a i v). rewrite add_at_ind. unfold inc. ring. }
  assert (PK : forall asym n, zsum 0 nTR (fun l' => zsum 0 nz (fun k' => d asym n l' k')) = inc X asym c n l k).
  { intros asym n. rewrite (zsum_single 0 nTR l); [|lia|].
    - rewrite (zsum_single 0 nz k); [|lia|].
      + unfold d. rewrite Hw. unfold ind, j. rewrite Z.eqb_refl. lra.
      + intros k' Hk' Ne. unfold d, ind, j. rewrite (proj2 (Z.eqb_neq _ _)) by lia.
        destruct (writes s ztMin ztMax fullUpdate c (l * nz + k')); lra.
    - intros l' Hl' Ne. apply zsum_zero. intros k' Hk'. unfold d, ind, j. rewrite (proj2 (Z.eqb_neq _ _)).
      + destruct (writes s ztMin ztMax fullUpdate c (l' * nz + k')); lra.
      + intros E. assert (E2 : (l' * nz + k' = l * nz + k)%Z) by lia. apply flat_inj in E2; lia. }
  split.
  - rewrite <- (inc_sum X false c l k) by (auto; discriminate).
    etransitivity.
    + unfold transform.
      apply (for_up_delta (fun ab : fam * fam => fst ab c j)). intros n ab _.
      apply (for_up_delta (fun ab : fam * fam => fst ab c j)). intros l' ab' _. cbv zeta.
      apply (for_up_delta (fun ab : fam * fam => fst ab c j) _ (fun k' => d false n l' k')). intros k' [f g] _. cbn [fst]. apply GA.
    + cbn [fst]. f_equal. apply zsum_ext. intros n _. apply PK.
  - intros L. rewrite <- (inc_sum X true c l k) by auto.
    etransitivity.
    + unfold transform.
      apply (for_up_delta (fun ab : fam * fam => snd ab c j)). intros n ab _.
      apply (for_up_delta (fun ab : fam * fam => snd ab c j)). intros l' ab' _. cbv zeta.
      apply (for_up_delta (fun ab : fam * fam => snd ab c j) _ (fun k' => d true n l' k')). intros k' [f g] _. cbn [snd].
      rewrite L. apply GA.
    + cbn [snd]. f_equal. apply zsum_ext. intros n _. apply PK.
Qed.
End P.

(** Loops that copy from entries outside the written region. *)
Lemma copy_loop {A} (L : list A) (dst src : A -> Z) (f : A -> R -> R) (a : Z -> R) :
  NoDup L -> (forall p q, In p L -> In q L -> dst p = dst q -> p = q) ->
  (forall p q, In p L -> In q L -> src p <> dst q) ->
  let r := fold_left (fun a q => upd a (dst q) (f q (a (src q)))) L a in
  (forall q, In q L -> r (dst q) = f q (a (src q))) /\
  (forall j, (forall q, In q L -> dst q <> j) -> r j = a j).
Proof.
  cbv zeta. induction L as [|x L IH] using rev_ind; intros ND DI SD; [split; [intros q []|reflexivity]|].
  rewrite fold_left_app. cbn [fold_left].
  apply NoDup_remove in ND. rewrite app_nil_r in ND. destruct ND as [ND NI].
  destruct IH as [I1 I2]; [exact ND|intros; apply DI; auto; apply in_or_app; auto|intros; apply SD; apply in_or_app; auto|].
  set (r := fold_left _ L a) in *.
  assert (Hx : r (src x) = a (src x)).
  { apply I2. intros q Hq E. apply (SD x q); [apply in_or_app; right; left; auto|apply in_or_app; auto|auto]. }
  split.
  - intros q Hq. unfold upd. destruct (Z.eqb_spec (dst q) (dst x)) as [E|E].
    + assert (q = x) by (apply DI; auto; apply in_or_app; right; left; auto). subst q. rewrite Hx. reflexivity.
    + apply in_app_or in Hq. destruct Hq as [Hq|[->|[]]]; [|congruence]. apply I1. exact Hq.
  - intros j Hj. unfold upd. destruct (Z.eqb_spec j (dst x)) as [E|E].
    + exfalso. apply (Hj x); [apply in_or_app; right; left; auto|auto].
    + apply I2. intros q Hq. apply Hj. apply in_or_app; auto.
Qed.
