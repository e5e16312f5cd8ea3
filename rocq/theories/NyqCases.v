(** Averages, and the case of an odd number of toroidal points. *)
From Coq Require Import ZArith List Bool Reals Lia Lra.
From Verif Require Import Base BaseLemmas SumLemmas SizesModel FourierModel FourierSpec FourierProofs FourierTables TrigSums
  PartModel DftModel DftSpec DftTables DftProofs DftGeo DftForces DftFold DftFinal LapMain FiltSpec NyqModel NyqKernel NyqProofs NyqSpec NyqFinal.
Import ListNotations.
Open Scope R_scope.

Section N.
Variable s : sizes.
Hypothesis OK : sz_ok s.
Hypothesis NY : nyq_ok s.
Variable b0 : basis_tables.
Local Notation t := (tab s b0).
Local Notation nZeta := (sz_nZeta s).
Local Notation nTR := (sz_nThetaReduced s).
Local Notation nT := (sz_nThetaEven s).
Local Notation nTE := (sz_nThetaEff s).
Local Notation M := (sz_mnyq s).
Local Notation Q := (sz_nnyq s).
Local Notation xm := (fst (nyq_modes s)).
Local Notation xn := (snd (nyq_modes s)).

Lemma beyond_keep w mn j : (1 <= j)%Z -> beyond_axis s w mn j = w mn j.
Proof.
  intros Hj. unfold beyond_axis. apply (for_up_keep (fun w : Z -> Z -> R => w mn j)). intros x w' _. unfold upd2.
  destruct (Z.eqb_spec j 0); [lia|]. rewrite andb_false_r. reflexivity.
Qed.
Lemma average_coef num off f j : (0 <= j < num)%Z ->
  spectrum s t num off (cos_coef s t xm xn) (part s true f) 0 (j + off)%Z = grid_avg s (surface s f j).
Proof.
  intros Hj. destruct (MQ s OK NY) as (M1 & MT & Q0 & QZ). assert (Z1 := so_nZeta s OK).
  assert (HT := so_nT s OK). assert (H2 := so_nTR s OK). assert (TE := so_nTE s OK).
  assert (V : valid_mode (M + 1) Q 0 0) by (unfold valid_mode; lia).
  destruct (mode_idx s OK NY 0 0 V) as (_ & _ & I). change (mode_pos Q 0 0) with 0%Z in I.
  rewrite spectrum_at by lia.
  change 0%Z with (mode_pos Q 0 0) at 1. rewrite (cos_coef_at s OK NY b0 (part s true f j) 0 0 V).
  assert (H0 : forall N, hh N (Z.abs 0) = 1).
  { intros N. unfold hh. cbn [Z.abs]. destruct (Z.eqb_spec N 0); [reflexivity|]. destruct (Z.eqb_spec 0 N); [lia|reflexivity]. }
  change (hh M 0) with (hh M (Z.abs 0)). rewrite !H0. unfold w_mn. cbn [Z.eqb andb].
  assert (SP : spart s (part s true f j) 0 0 = 0).
  { apply red_zero. intros l _. apply zsum_zero. intros k _. rewrite !Rmult_0_l, sin_0. ring. }
  rewrite SP. rewrite !Rmult_1_l, Rplus_0_r.
  transitivity (red_avg s (part s true f j)).
  { apply red_ext. intros k l _ _. rewrite !Rmult_0_l, cos_0. ring. }
  case_eq (sz_lasym s); intros LA.
  - rewrite LA in TE. rewrite (grid_ext s (surface s f j) (fun k l => f (at_pt s j k l) * 1)) by (intros; unfold surface; ring).
    apply (red_part s OK LA 1 (fun k l => f (at_pt s j k l)) (fun _ _ => 1)); [ring|intros; ring|].
    intros k l Hk Hl. unfold part. rewrite LA. cbv zeta. unfold rk, rl, at_pt. rewrite !Z.rem_mod_nonneg by lia. rewrite TE. ring.
  - rewrite (red_grid s OK _ LA). apply grid_ext. intros k l _ _. unfold part. rewrite LA. reflexivity.
Qed.

(** odd number of toroidal points, field cos(Q zeta) *)
Hypothesis LA : sz_lasym s = false.
Hypothesis OD : nZeta = (2 * Q + 1)%Z.
Hypothesis Q1 : (1 <= Q)%Z.
Definition nyq_field (i : Z) : R := cos (IZR Q * ang nZeta (Z.modulo (Z.div i nTE) nZeta)).
Definition nyq_F (k l : Z) : R := cos (IZR Q * ang nZeta k).
Lemma nyq_holds j : holds_field s 1 nyq_field j nyq_F.
Proof.
  assert (Z1 := so_nZeta s OK). split.
  - intros k l Hk Hl. unfold nyq_field, nyq_F, at_pt. rewrite Z.div_add_l, Z.div_small by lia. rewrite Z.add_0_r.
    rewrite Z.add_comm, Z.mod_add, Z.mod_small by lia. reflexivity.
  - intros _ k l Hk Hl. unfold mirrored, nyq_F. rewrite (proj1 (refl_trig_mod nZeta k Q ltac:(lia) Hk)). ring.
Qed.
Lemma red_prod (u v : Z -> R) : red_avg s (fun k l => u k * v l) = zsum 0 nZeta u * zsum 0 nTR (fun l => wred s l * v l).
Proof.
  unfold red_avg. rewrite <- zsum_scale_r. apply zsum_ext. intros k _. rewrite <- zsum_scale. apply zsum_ext. intros; ring.
Qed.
Lemma wcos m : (0 <= m <= M)%Z -> zsum 0 nTR (fun l => wred s l * cos (IZR m * ang nT l)) = if (m =? 0)%Z then 1 / IZR nZeta else 0.
Proof.
  intros Hm. destruct (MQ s OK NY) as (M1 & MT & _). assert (Z1 := so_nZeta s OK). assert (HT := so_nT s OK). assert (H2 := so_nTR s OK).
  assert (ZN : IZR nZeta <> 0) by (apply not_0_IZR; lia).
  assert (A : red_avg s (fun k l => cos (IZR m * ang nT l)) = IZR nZeta * zsum 0 nTR (fun l => wred s l * cos (IZR m * ang nT l))).
  { unfold red_avg. rewrite zsum_const by lia. rewrite Z.sub_0_r. reflexivity. }
  rewrite (red_even s OK) in A by (intros k l Hk Hl; apply (proj1 (refl_trig_mod nT l m ltac:(lia) Hl))).
  unfold full in A. rewrite zsum_const, Z.sub_0_r, (sum_cos0 nT ltac:(lia) m ltac:(lia)) in A by lia.
  apply (Rmult_eq_reg_l (IZR nZeta)); [|exact ZN]. rewrite <- A. destruct (Z.eqb_spec m 0); [|ring].
  unfold norm_, intNorm. rewrite HT, !mult_IZR. field. split; apply not_0_IZR; lia.
Qed.
Lemma nyq_series num off j k l : (0 <= j < num)%Z -> (0 <= k < nZeta)%Z ->
  series_at s cos (spectrum s t num off (cos_coef s t xm xn) (part s true nyq_field)) (j + off) k l = 1 / 2 * nyq_F k l.
Proof.
  intros Hj Hk. destruct (MQ s OK NY) as (M1 & MT & Q0 & QZ). assert (Z1 := so_nZeta s OK).
  assert (ZN : IZR nZeta <> 0) by (apply not_0_IZR; lia). assert (H2 := so_nTR s OK). assert (HT := so_nT s OK).
  assert (C : forall m n, valid_mode (M + 1) Q m n ->
    spectrum s t num off (cos_coef s t xm xn) (part s true nyq_field) (mode_pos Q m n) (j + off) = if (m =? 0)%Z && (n =? Q)%Z then 1 / 2 else 0).
  { intros m n V. destruct (mode_idx s OK NY m n V) as (_ & _ & I). rewrite spectrum_at by lia.
    rewrite (cos_coef_at s OK NY b0) by exact V. destruct V as (V1 & V2 & V3).
    destruct (cpart_ext s (part s true nyq_field j) nyq_F m n) as (X1 & X2 & _).
    { intros k' l' Hk' Hl'. rewrite (part_at s OK true _ j nyq_F k' l' (or_introl (nyq_holds j))) by lia. unfold Epart.
      rewrite (proj2 (nyq_holds j) LA) by lia. unfold sg_. field. }
    rewrite X1, X2.
    assert (A : cpart s nyq_F m n = zsum 0 nZeta (fun k => cos (IZR Q * ang nZeta k) * cos (IZR (Z.abs n) * ang nZeta k)) * (if (m =? 0)%Z then 1 / IZR nZeta else 0)).
    { rewrite <- wcos by lia. rewrite <- red_prod. apply red_ext. intros k' l' _ _. unfold nyq_F. rewrite (proj1 (signum_trig n (ang nZeta k'))). ring. }
    assert (B : spart s nyq_F m n = 0).
    { apply red_zero. intros l' _. rewrite (zsum_ext _ _ _ (fun k' => IZR (signum n) * sin (IZR m * ang nT l') * (cos (IZR Q * ang nZeta k') * sin (IZR (Z.abs n) * ang nZeta k')))).
      - rewrite zsum_scale, (orth_cs nZeta) by lia. ring.
      - intros k' _. unfold nyq_F. rewrite <- (proj2 (signum_trig n (ang nZeta k'))). ring. }
    rewrite A, B, (orth_cc nZeta) by lia. unfold w_mn.
    destruct (Z.eqb_spec m 0) as [-> | M0]; cbn [andb]; [|ring].
    assert (H0 : hh M 0 = 1) by (unfold hh; destruct (Z.eqb_spec 0 M); [lia|rewrite andb_false_r; reflexivity]). rewrite H0.
    destruct (Z.eqb_spec Q (Z.abs n)) as [E|E].
    - assert (n = Q) by lia. subst n. rewrite Z.eqb_refl. unfold hh. rewrite <- E, Z.eqb_refl.
      destruct (Z.eqb_spec Q 0); [lia|]. cbn [negb andb]. field. exact ZN.
    - destruct (Z.eqb_spec n Q); [lia|]. ring. }
  unfold series_at, combined_series.
  rewrite (zsum_single 0 (Q + 1) Q).
  - rewrite C by (unfold valid_mode; lia). rewrite !Z.eqb_refl. cbn [andb].
    rewrite (zsum_zero 1 (M + 1)).
    + rewrite (phi_ang s OK), cos_neg. unfold nyq_F. ring.
    + intros m Hm. apply zsum_zero. intros n Hn. rewrite C by (unfold valid_mode; lia). destruct (Z.eqb_spec m 0); [lia|]. cbn [andb]. ring.
  - lia.
  - intros n Hn N0. rewrite C by (unfold valid_mode; lia). destruct (Z.eqb_spec n Q); [lia|]. rewrite andb_false_r. ring.
Qed.
End N.

Section L.
Variable s : sizes.
Hypothesis OK : sz_ok s.
Hypothesis NY : nyq_ok s.
Variable b0 : basis_tables.
Local Notation t := (tab s b0).
Local Notation xm := (fst (nyq_modes s)).
Local Notation xn := (snd (nyq_modes s)).
Lemma part_avg e f g j j1 j2 k l : sz_ok s -> (0 <= k < sz_nZeta s)%Z -> (0 <= l < sz_nThetaReduced s)%Z ->
  (forall kl, (0 <= kl < sz_nZnT s)%Z -> f (j * sz_nZnT s + kl)%Z = (g (j1 * sz_nZnT s + kl)%Z + g (j2 * sz_nZnT s + kl)%Z) / 2) ->
  part s e f j k l = 1 / 2 * part s e g j1 k l + 1 / 2 * part s e g j2 k l.
Proof.
  intros _ Hk Hl H. assert (HT := so_nT s OK). assert (H2 := so_nTR s OK). assert (TE := so_nTE s OK). assert (NZ := so_nZnT s OK).
  assert (A : forall k l, (0 <= k < sz_nZeta s)%Z -> (0 <= l < sz_nThetaEff s)%Z ->
    f ((j * sz_nZeta s + k) * sz_nThetaEff s + l)%Z = (g ((j1 * sz_nZeta s + k) * sz_nThetaEff s + l)%Z + g ((j2 * sz_nZeta s + k) * sz_nThetaEff s + l)%Z) / 2).
  { intros k' l' Hk' Hl'. assert (B : (0 <= k' * sz_nThetaEff s + l' < sz_nZnT s)%Z) by (rewrite NZ; nia).
    replace ((j * sz_nZeta s + k') * sz_nThetaEff s + l')%Z with (j * sz_nZnT s + (k' * sz_nThetaEff s + l'))%Z by (rewrite NZ; ring).
    replace ((j1 * sz_nZeta s + k') * sz_nThetaEff s + l')%Z with (j1 * sz_nZnT s + (k' * sz_nThetaEff s + l'))%Z by (rewrite NZ; ring).
    replace ((j2 * sz_nZeta s + k') * sz_nThetaEff s + l')%Z with (j2 * sz_nZnT s + (k' * sz_nThetaEff s + l'))%Z by (rewrite NZ; ring).
    apply H. exact B. }
  unfold part. cbv zeta. destruct (sz_lasym s) eqn:LA.
  - rewrite !Z.rem_mod_nonneg by lia. rewrite !A by (try (apply Z.mod_pos_bound; lia); lia). destruct e; field.
  - rewrite A by lia. field.
Qed.
Lemma coef_avg e v v1 v2 m n : valid_mode (sz_mnyq s + 1) (sz_nnyq s) m n ->
  (forall k l, (0 <= k < sz_nZeta s)%Z -> (0 <= l < sz_nThetaReduced s)%Z -> v k l = 1 / 2 * v1 k l + 1 / 2 * v2 k l) ->
  let c := fun u => coef_ s b0 e (partial_sums s (nyq_cosmui s t) u) (partial_sums s (bt_sinmui t) u) (mode_pos (sz_nnyq s) m n) in
  c v = 1 / 2 * (c v1 + c v2).
Proof.
  intros V H. cbv zeta. destruct (cpart_ext s _ (fun k l => 1 / 2 * v1 k l + 1 / 2 * v2 k l) m n H) as (X1 & X2 & X3 & X4).
  assert (L : forall ph, red_avg s (fun k l => (1 / 2 * v1 k l + 1 / 2 * v2 k l) * ph k l) = 1 / 2 * red_avg s (fun k l => v1 k l * ph k l) + 1 / 2 * red_avg s (fun k l => v2 k l * ph k l)).
  { intros ph. rewrite <- red_lin. apply red_ext. intros; ring. }
  unfold coef_. destruct e.
  - rewrite !(cos_coef_at s OK NY b0) by exact V. rewrite X1, X2. unfold cpart, spart.
    rewrite (L (fun k l => cos (IZR m * ang (sz_nThetaEven s) l) * cos (IZR n * ang (sz_nZeta s) k))), (L (fun k l => sin (IZR m * ang (sz_nThetaEven s) l) * sin (IZR n * ang (sz_nZeta s) k))). field.
  - rewrite !(sin_coef_at s OK NY b0) by exact V. rewrite X3, X4. unfold cpart', spart'.
    rewrite (L (fun k l => sin (IZR m * ang (sz_nThetaEven s) l) * cos (IZR n * ang (sz_nZeta s) k))), (L (fun k l => cos (IZR m * ang (sz_nThetaEven s) l) * sin (IZR n * ang (sz_nZeta s) k))). field.
Qed.
Lemma spectrum_avg e ns f g m n j : valid_mode (sz_mnyq s + 1) (sz_nnyq s) m n -> (1 <= j < ns - 1)%Z ->
  (forall kl, (0 <= kl < sz_nZnT s)%Z -> f (j * sz_nZnT s + kl)%Z = (g (j * sz_nZnT s + kl)%Z + g ((j - 1) * sz_nZnT s + kl)%Z) / 2) ->
  spectrum s t ns 0 (coef_ s b0 e) (part s e f) (mode_pos (sz_nnyq s) m n) j =
  1 / 2 * (beyond_axis s (spectrum s t (ns - 1) 1 (coef_ s b0 e) (part s e g)) (mode_pos (sz_nnyq s) m n) (j + 1) +
           beyond_axis s (spectrum s t (ns - 1) 1 (coef_ s b0 e) (part s e g)) (mode_pos (sz_nnyq s) m n) j).
Proof.
  intros V Hj H. destruct (mode_idx s OK NY m n V) as (_ & _ & I). rewrite !beyond_keep by lia.
  replace j with (j + 0)%Z at 1 by lia. replace j with (j - 1 + 1)%Z at 3 by lia.
  rewrite !spectrum_at by lia. apply coef_avg; [exact V|]. intros k l Hk Hl. apply part_avg; [exact OK|lia|lia|exact H].
Qed.
End L.
