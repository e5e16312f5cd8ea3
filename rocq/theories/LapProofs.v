From Coq Require Import ZArith List Bool Reals Lia Lra.
From Verif Require Import Base BaseLemmas SumLemmas SizesModel FourierModel FourierSpec TrigSums DftSpec DftTables VacTables
  DftForces DftFold AxisSearch SingSumModel SingSumSpec SingSumProofs SingSumFinal LapModel LapSpec.
Import ListNotations.
Open Scope R_scope.

Lemma zsum_sym nf (x : Z -> R) : (0 <= nf)%Z ->
  zsum 0 (nf + 1) (fun n => x n + (if (n >? 0)%Z then x (- n)%Z else 0)) = zsum (- nf) (nf + 1) x.
Proof.
  intros H. rewrite <- (Z2Nat.id nf) by lia. set (N := Z.to_nat nf). clearbody N. clear H nf. induction N as [|N IH].
  - change (Z.of_nat 0) with 0%Z. change (- 0)%Z with 0%Z. rewrite !zsum_snoc, !zsum_empty by lia. cbn. lra.
  - rewrite Nat2Z.inj_succ. unfold Z.succ. set (z := Z.of_nat N) in *. assert (0 <= z)%Z by lia.
    rewrite zsum_snoc by lia. rewrite IH.
    rewrite (zsum_snoc (- (z + 1)) (z + 1)) by lia. rewrite (zsum_cons (- (z + 1)) (z + 1)) by lia.
    replace (- (z + 1) + 1)%Z with (- z)%Z by lia. rewrite Z.gtb_ltb. destruct (Z.ltb_spec 0 (z + 1)); [lra|lia].
Qed.
Lemma zsum_flat a b f : (0 <= a)%Z -> (0 <= b)%Z -> zsum 0 (a * b) f = zsum 0 a (fun l => zsum 0 b (fun k => f (l * b + k)%Z)).
Proof.
  intros Ha Hb. rewrite <- (Z2Nat.id a) by lia. set (N := Z.to_nat a). clearbody N. clear Ha a. induction N as [|N IH].
  - rewrite Z.mul_0_l. rewrite !zsum_empty by lia. reflexivity.
  - rewrite Nat2Z.inj_succ. unfold Z.succ. set (z := Z.of_nat N) in *. assert (0 <= z)%Z by lia.
    rewrite zsum_snoc by lia. rewrite <- IH. rewrite (zsum_split 0 (z * b)) by nia. f_equal.
    replace (zsum (z * b) ((z + 1) * b) f) with (zsum (0 + z * b) (b + z * b) f) by (f_equal; ring).
    rewrite zsum_shift. apply zsum_ext. intros j _. f_equal. lia.
Qed.

Section L.
Variable s : sizes.
Hypothesis OK : sz_ok s.
Hypothesis MQ : (sz_mpol s + 1 <= sz_mnyq2 s)%Z.
Variable b0 : basis_tables.
Local Notation fb := (vtab s b0).
Local Notation nT := (sz_nThetaEven s).
Local Notation nTR := (sz_nThetaReduced s).
Local Notation nTE := (sz_nThetaEff s).
Local Notation nz := (sz_nZeta s).
Variables mf nf ztMin ztMax : Z.
Hypothesis Hmf : (0 <= mf <= sz_mpol s + 1)%Z.
Hypothesis Hnf : (0 <= nf <= sz_ntor s)%Z.
Hypothesis Hz : (0 <= ztMin <= ztMax)%Z.
Hypothesis Hz2 : (ztMax <= sz_nZnT s)%Z.
Local Notation NL := (ztMax - ztMin)%Z.
Local Notation TN := (nT * nz)%Z.
Local Notation th l := (ang nT l).
Local Notation ze k := (ang nz k).

Lemma cnv_val n k : (0 <= n <= nf)%Z -> (0 <= k < nz)%Z ->
  cosnv_scaled s fb n k = cos (IZR n * ze k) /\ sinnv_scaled s fb n k = sin (IZR n * ze k).
Proof.
  intros Hn Hk. unfold cosnv_scaled, sinnv_scaled. pose proof (so_nnyq s OK).
  rewrite v_cosnv, v_sinnv by lia. change (nscale n) with (s2 n). pose proof (s2_nz n). split; field; assumption.
Qed.
Lemma sin_end m l : (l = 0)%Z \/ (l = nTR - 1)%Z -> sin (IZR m * th l) = 0.
Proof.
  pose proof (so_nT s OK). pose proof (so_nTR s OK). intros [->| ->]; unfold ang.
  - replace (IZR m * (2 * PI * 0 / IZR nT)) with 0 by (unfold Rdiv; ring). apply sin_0.
  - replace (2 * PI * IZR (nTR - 1) / IZR nT) with PI; [apply sin_eq_0_1; exists m; ring|].
    rewrite H, mult_IZR. field. apply not_0_IZR. lia.
Qed.
Lemma mui_val l m : (0 <= l < nTR)%Z -> (0 <= m <= mf)%Z ->
  cosmui_scaled s fb l m = wred s l * cos (IZR m * th l) /\ sinmui_scaled s fb l m = wred s l * sin (IZR m * th l).
Proof.
  intros Hl Hm. unfold cosmui_scaled, sinmui_scaled. rewrite v_cosmui, v_sinmui by lia.
  change (mscale m) with (s2 m). pose proof (s2_nz m). unfold wred, half_end.
  destruct (Z.eqb_spec l 0) as [E0|E0]; [|destruct (Z.eqb_spec l (nTR - 1)) as [E1|E1]]; cbn [orb].
  - rewrite (sin_end m l) by auto. split; [field; assumption|ring].
  - rewrite (sin_end m l) by auto. split; [field; assumption|ring].
  - split; field; assumption.
Qed.

Definition ph (m n l k : Z) : R := IZR m * th l - IZR n * ze k.
Lemma ph_flat m n l k : (0 <= k < nz)%Z -> mode_phase nT nz m n (l * nz + k) = ph m n l k.
Proof.
  intros Hk. unfold mode_phase, ph, ang. rewrite Z.div_add_l by lia. rewrite Z.div_small by lia. rewrite Z.add_0_r.
  rewrite (Z.add_comm (l * nz) k), Z.mod_add by lia. rewrite Z.mod_small by lia. reflexivity.
Qed.

(** Toroidal and poloidal factors. *)
Definition Ac (n : Z) (h : Z -> R) : R := zsum 0 nz (fun k => cos (IZR n * ze k) * h k).
Definition As (n : Z) (h : Z -> R) : R := zsum 0 nz (fun k => sin (IZR n * ze k) * h k).
Lemma Ac_neg n h : Ac (- n) h = Ac n h.
Proof. unfold Ac. apply zsum_ext. intros k _. rewrite opp_IZR, Ropp_mult_distr_l_reverse, cos_neg. reflexivity. Qed.
Lemma As_neg n h : As (- n) h = - As n h.
Proof.
  unfold As. replace (- zsum 0 nz (fun k => sin (IZR n * ze k) * h k)) with (-1 * zsum 0 nz (fun k => sin (IZR n * ze k) * h k)) by ring.
  rewrite <- zsum_scale. apply zsum_ext. intros k _. rewrite opp_IZR, Ropp_mult_distr_l_reverse, sin_neg. ring.
Qed.
Lemma comb_sin m n l h : sin (IZR m * th l) * Ac n h - cos (IZR m * th l) * As n h = zsum 0 nz (fun k => h k * sin (ph m n l k)).
Proof.
  unfold Ac, As, ph. rewrite <- !zsum_scale, <- zsum_minus. apply zsum_ext. intros k _. rewrite sin_minus. ring.
Qed.
Lemma comb_cos m n l h : cos (IZR m * th l) * Ac n h + sin (IZR m * th l) * As n h = zsum 0 nz (fun k => h k * cos (ph m n l k)).
Proof.
  unfold Ac, As, ph. rewrite <- !zsum_scale, <- zsum_plus. apply zsum_ext. intros k _. rewrite cos_minus. ring.
Qed.
Lemma Ac_code n h : (0 <= n <= nf)%Z -> zsum 0 nz (fun k => cosnv_scaled s fb n k * h k) = Ac n h.
Proof. intros Hn. apply zsum_ext. intros k Hk. destruct (cnv_val n k Hn ltac:(lia)) as [-> _]. reflexivity. Qed.
Lemma As_code n h : (0 <= n <= nf)%Z -> zsum 0 nz (fun k => sinnv_scaled s fb n k * h k) = As n h.
Proof. intros Hn. apply zsum_ext. intros k Hk. destruct (cnv_val n k Hn ltac:(lia)) as [_ ->]. reflexivity. Qed.

Local Notation idx n m klp := ((((nf + n) * (mf + 1) + m) * NL + (klp - ztMin))%Z).
Lemma ind_refl i : ind i i = 1. Proof. unfold ind. rewrite Z.eqb_refl. reflexivity. Qed.
Lemma ind_neq i j : i <> j -> ind i j = 0. Proof. intros. unfold ind. destruct (Z.eqb_spec i j); [contradiction|reflexivity]. Qed.

(** Projection of one poloidal row. *)
Definition odd_ (greenp : Z -> R) (klp l k : Z) : R :=
  (greenp ((klp - ztMin) * nT * nz + (l * nz + k))%Z - greenp ((klp - ztMin) * nT * nz + kl_rev s l k)%Z) * (1 / 2).
Definition even_ (greenp : Z -> R) (klp l k : Z) : R :=
  (greenp ((klp - ztMin) * nT * nz + (l * nz + k))%Z + greenp ((klp - ztMin) * nT * nz + kl_rev s l k)%Z) * (1 / 2).
Definition Vs greenp klp l m n := wred s l * zsum 0 nz (fun k => odd_ greenp klp l k * sin (ph m n l k)).
Definition Vc greenp klp l m n := wred s l * zsum 0 nz (fun k => even_ greenp klp l k * cos (ph m n l k)).

Lemma row_delta greenp klp l gg j : (0 <= l < nTR)%Z ->
  fst (green_row s fb mf nf ztMin ztMax greenp klp l gg) j = fst gg j +
    zsum 0 (mf + 1) (fun m => zsum (- nf) (nf + 1) (fun n => ind (idx n m klp) j * Vs greenp klp l m n)) /\
  snd (green_row s fb mf nf ztMin ztMax greenp klp l gg) j = snd gg j +
    (if sz_lasym s then zsum 0 (mf + 1) (fun m => zsum (- nf) (nf + 1) (fun n => ind (idx n m klp) j * Vc greenp klp l m n)) else 0).
Proof.
  intros Hl. unfold green_row. cbv zeta. split.
  - apply (for_up_delta (fun g : (Z -> R) * (Z -> R) => fst g j)). intros m g Hm.
    rewrite <- zsum_sym by lia.
    apply (for_up_delta (fun g : (Z -> R) * (Z -> R) => fst g j)). intros n [gs gc] Hn. cbn [fst].
    destruct (mui_val l m Hl ltac:(lia)) as [-> ->].
    rewrite (Ac_code n), (As_code n) by lia. fold (odd_ greenp klp l).
    assert (P : Ac n (odd_ greenp klp l) * (wred s l * sin (IZR m * th l)) - As n (odd_ greenp klp l) * (wred s l * cos (IZR m * th l)) = Vs greenp klp l m n).
    { unfold Vs. rewrite <- comb_sin. ring. }
    assert (Q : Ac n (odd_ greenp klp l) * (wred s l * sin (IZR m * th l)) + As n (odd_ greenp klp l) * (wred s l * cos (IZR m * th l)) = Vs greenp klp l m (- n)).
    { unfold Vs. rewrite <- comb_sin, Ac_neg, As_neg. ring. }
    rewrite P, Q. destruct (n >? 0)%Z; rewrite !add_at_ind; [rewrite <- (Z.add_opp_r nf n)|]; ring.
  - destruct (sz_lasym s) eqn:LA.
    + apply (for_up_delta (fun g : (Z -> R) * (Z -> R) => snd g j)). intros m g Hm.
      rewrite <- zsum_sym by lia.
      apply (for_up_delta (fun g : (Z -> R) * (Z -> R) => snd g j)). intros n [gs gc] Hn. cbn [snd].
      destruct (mui_val l m Hl ltac:(lia)) as [-> ->].
      rewrite (Ac_code n), (As_code n) by lia. fold (even_ greenp klp l).
      assert (P : Ac n (even_ greenp klp l) * (wred s l * cos (IZR m * th l)) + As n (even_ greenp klp l) * (wred s l * sin (IZR m * th l)) = Vc greenp klp l m n).
      { unfold Vc. rewrite <- comb_cos. ring. }
      assert (Q : Ac n (even_ greenp klp l) * (wred s l * cos (IZR m * th l)) - As n (even_ greenp klp l) * (wred s l * sin (IZR m * th l)) = Vc greenp klp l m (- n)).
      { unfold Vc. rewrite <- comb_cos, Ac_neg, As_neg. ring. }
      rewrite P, Q. destruct (n >? 0)%Z; rewrite !add_at_ind; [rewrite <- (Z.add_opp_r nf n)|]; ring.
    + rewrite Rplus_0_r. apply (for_up_same (fun g : (Z -> R) * (Z -> R) => snd g j)). intros m g.
      apply (for_up_same (fun g : (Z -> R) * (Z -> R) => snd g j)). intros n [gs gc]. reflexivity.
Qed.

Lemma pick_mode v n0 m0 klp klp0 : (- nf <= n0 <= nf)%Z -> (0 <= m0 <= mf)%Z -> (ztMin <= klp < ztMax)%Z -> (ztMin <= klp0 < ztMax)%Z ->
  zsum 0 (mf + 1) (fun m => zsum (- nf) (nf + 1) (fun n => ind (idx n m klp) (idx n0 m0 klp0) * v m n)) =
  if (klp =? klp0)%Z then v m0 n0 else 0.
Proof.
  intros Hn Hm Hk Hk0.
  assert (D : forall n m, (0 <= m <= mf)%Z -> idx n m klp = idx n0 m0 klp0 -> n = n0 /\ m = m0 /\ klp = klp0).
  { intros n m Hm' E. apply flat_inj in E; try lia. destruct E as [E1 E2]. apply flat_inj in E1; try lia. }
  destruct (Z.eqb_spec klp klp0) as [->|Ne].
  - rewrite (zsum_single 0 (mf + 1) m0); [|lia|].
    + rewrite (zsum_single (- nf) (nf + 1) n0); [|lia|].
      * rewrite ind_refl. ring.
      * intros n Hn' Ne. rewrite ind_neq; [ring|]. intros E. apply Ne. apply (D n m0); [lia|exact E].
    + intros m Hm' Ne. apply zsum_zero. intros n Hn'. rewrite ind_neq; [ring|]. intros E. apply Ne. apply (D n m); [lia|exact E].
  - apply zsum_zero. intros m Hm'. apply zsum_zero. intros n Hn'. rewrite ind_neq; [ring|]. intros E. apply Ne. apply (D n m); [lia|exact E].
Qed.

Lemma transform_rows greenp gg n m klp : (- nf <= n <= nf)%Z -> (0 <= m <= mf)%Z -> (ztMin <= klp < ztMax)%Z ->
  fst (transform_green s fb mf nf ztMin ztMax greenp gg) (idx n m klp) = zsum 0 nTR (fun l => Vs greenp klp l m n) /\
  (sz_lasym s = true -> snd (transform_green s fb mf nf ztMin ztMax greenp gg) (idx n m klp) = zsum 0 nTR (fun l => Vc greenp klp l m n)).
Proof.
  intros Hn Hm Hk. unfold transform_green. destruct gg as [g0 gc0].
  assert (PI : forall v, zsum ztMin ztMax (fun klp' => zsum 0 nTR (fun l => zsum 0 (mf + 1) (fun m' => zsum (- nf) (nf + 1) (fun n' => ind (idx n' m' klp') (idx n m klp) * v klp' l m' n')))) =
    zsum 0 nTR (fun l => v klp l m n)).
  { intros v. rewrite (zsum_single ztMin ztMax klp); [|lia|].
    - apply zsum_ext. intros l _. rewrite (pick_mode (fun m n => v klp l m n)) by assumption. rewrite Z.eqb_refl. reflexivity.
    - intros k' Hk' Ne. apply zsum_zero. intros l _. rewrite (pick_mode (fun m n => v k' l m n)) by lia.
      destruct (Z.eqb_spec k' klp); [contradiction|reflexivity]. }
  split; [|intros LA].
  - rewrite (for_up_delta (fun g : (Z -> R) * (Z -> R) => fst g (idx n m klp)) _
      (fun klp' => zsum 0 nTR (fun l => zsum 0 (mf + 1) (fun m' => zsum (- nf) (nf + 1) (fun n' => ind (idx n' m' klp') (idx n m klp) * Vs greenp klp' l m' n'))))).
    + cbn [fst]. rewrite PI. ring.
    + intros k' g _. apply (for_up_delta (fun g : (Z -> R) * (Z -> R) => fst g (idx n m klp))). intros l g1 Hl. apply row_delta. lia.
  - rewrite (for_up_delta (fun g : (Z -> R) * (Z -> R) => snd g (idx n m klp)) _
      (fun klp' => zsum 0 nTR (fun l => zsum 0 (mf + 1) (fun m' => zsum (- nf) (nf + 1) (fun n' => ind (idx n' m' klp') (idx n m klp) * Vc greenp klp' l m' n'))))).
    + cbn [snd]. rewrite LA, PI. ring.
    + intros k' g _. apply (for_up_delta (fun g : (Z -> R) * (Z -> R) => snd g (idx n m klp))). intros l g1 Hl.
      destruct (row_delta greenp k' l g1 (idx n m klp) ltac:(lia)) as [_ E]. rewrite LA in E. exact E.
Qed.

(** Half-range sums of the parts of one parity are means over the full grid. *)
Lemma half_to_full (sg : R) (f : Z -> R) (b : R -> R) m n :
  sg * sg = 1 -> (forall x, b (- x) = sg * b x) -> (forall x N, b (x + 2 * IZR N * PI) = b x) ->
  zsum 0 nTR (fun l => wred s l * zsum 0 nz (fun k => (f (l * nz + k)%Z + sg * f (kl_rev s l k)) * (1 / 2) * b (ph m n l k))) =
  field_mode b nT nz f m n.
Proof.
  intros S1 Hb Hp. assert (Z1 := so_nZeta s OK). assert (HT := so_nT s OK). assert (H2 := so_nTR s OK).
  assert (NT : IZR nT <> 0) by (apply not_0_IZR; lia). assert (NZ : IZR nz <> 0) by (apply not_0_IZR; lia).
  set (F := fun k l => f (l * nz + k)%Z). set (B := fun k l => b (ph m n l k)).
  assert (BR : forall k l, (0 <= k < nz)%Z -> (0 <= l < nT)%Z -> B (rk s k) (rl s l) = sg * B k l).
  { intros k l Hk Hl. unfold B, ph, rk, rl. rewrite <- Hb.
    assert (A1 : exists a, IZR m * th ((nT - l) mod nT) = - (IZR m * th l) + 2 * IZR a * PI).
    { destruct (Z.eq_dec l 0) as [->|].
      - exists 0%Z. rewrite Z.sub_0_r, Z_mod_same_full. unfold ang. field. assumption.
      - exists m. rewrite Z.mod_small by lia. unfold ang. rewrite minus_IZR. field. assumption. }
    assert (A2 : exists a, IZR n * ze ((nz - k) mod nz) = - (IZR n * ze k) + 2 * IZR a * PI).
    { destruct (Z.eq_dec k 0) as [->|].
      - exists 0%Z. rewrite Z.sub_0_r, Z_mod_same_full. unfold ang. field. assumption.
      - exists n. rewrite Z.mod_small by lia. unfold ang. rewrite minus_IZR. field. assumption. }
    destruct A1 as [a1 ->]. destruct A2 as [a2 ->]. rewrite <- (Hp (- (IZR m * th l - IZR n * ze k)) (a1 - a2)%Z).
    rewrite minus_IZR. f_equal. ring. }
  set (g := fun k l => (F k l + sg * F (rk s k) (rl s l)) * (1 / 2) * B k l).
  assert (E1 : zsum 0 nTR (fun l => wred s l * zsum 0 nz (fun k => (f (l * nz + k)%Z + sg * f (kl_rev s l k)) * (1 / 2) * b (ph m n l k))) = red_avg s g).
  { unfold red_avg. rewrite zsum_swap. apply zsum_ext. intros l _. rewrite <- zsum_scale. reflexivity. }
  rewrite E1, (red_even s OK).
  2:{ intros k l Hk Hl. unfold g. rewrite BR by lia. assert (RK : rk s (rk s k) = k) by (apply rr; lia). assert (RL : rl s (rl s l) = l) by (apply rr; lia).
      rewrite RK, RL. transitivity ((sg * F (rk s k) (rl s l) + sg * sg * F k l) * (1 / 2) * B k l); [ring|]. rewrite S1. ring. }
  assert (E2 : full s g = full s (fun k l => F k l * B k l)).
  { transitivity (full s (fun k l => 1 / 2 * (F k l * B k l) + 1 / 2 * (F (rk s k) (rl s l) * B (rk s k) (rl s l)))).
    - apply full_ext. intros k l Hk Hl. unfold g. rewrite BR by lia. ring.
    - rewrite full_lin. rewrite (full_refl s OK (fun k l => F k l * B k l)). field. }
  rewrite E2. unfold field_mode. rewrite zsum_flat by lia. unfold full. rewrite zsum_swap.
  assert (EN : norm_ s / 2 = / (IZR nT * IZR nz)).
  { unfold norm_, intNorm. rewrite HT, !mult_IZR. field. repeat split; try assumption; apply not_0_IZR; lia. }
  rewrite EN. unfold Rdiv. rewrite Rmult_comm. f_equal. apply zsum_ext. intros l Hl. apply zsum_ext. intros k Hk.
  unfold F, B. rewrite ph_flat by lia. reflexivity.
Qed.
Lemma sin_p x N : sin (x + 2 * IZR N * PI) = sin x. Proof. apply sin_period_Z. Qed.
Lemma cos_p x N : cos (x + 2 * IZR N * PI) = cos x. Proof. apply cos_period_Z. Qed.
Lemma half_sin f m n :
  zsum 0 nTR (fun l => wred s l * zsum 0 nz (fun k => (f (l * nz + k)%Z - f (kl_rev s l k)) * (1 / 2) * sin (ph m n l k))) =
  field_mode sin nT nz f m n.
Proof.
  rewrite <- (half_to_full (-1)); [|ring|intros; rewrite sin_neg; ring|apply sin_p].
  apply zsum_ext. intros l _. f_equal. apply zsum_ext. intros k _. ring.
Qed.
Lemma half_cos f m n :
  zsum 0 nTR (fun l => wred s l * zsum 0 nz (fun k => (f (l * nz + k)%Z + f (kl_rev s l k)) * (1 / 2) * cos (ph m n l k))) =
  field_mode cos nT nz f m n.
Proof.
  rewrite <- (half_to_full 1); [|ring|intros; rewrite cos_neg; ring|apply cos_p].
  apply zsum_ext. intros l _. f_equal. apply zsum_ext. intros k _. ring.
Qed.

Lemma transform_val greenp gg n m klp : (- nf <= n <= nf)%Z -> (0 <= m <= mf)%Z -> (ztMin <= klp < ztMax)%Z ->
  let r := transform_green s fb mf nf ztMin ztMax greenp gg in
  let f := fun kl => greenp ((klp - ztMin) * TN + kl)%Z in
  fst r (idx n m klp) = field_mode sin nT nz f m n /\
  (sz_lasym s = true -> snd r (idx n m klp) = field_mode cos nT nz f m n).
Proof.
  intros Hn Hm Hk. cbv zeta. destruct (transform_rows greenp gg n m klp Hn Hm Hk) as [E1 E2].
  rewrite <- half_sin, <- half_cos. split; [rewrite E1|intros LA; rewrite (E2 LA)]; apply zsum_ext; intros l _; unfold Vs, Vc; f_equal; apply zsum_ext; intros k _;
    unfold odd_, even_; rewrite !(Z.mul_assoc (klp - ztMin)); reflexivity.
Qed.

Lemma accumulate_val a1 a2 gg i : (0 <= i < mnpd mf nf * NL)%Z ->
  fst (accumulate s mf nf ztMin ztMax a1 a2 gg) i = fst gg i + a1 i / IZR (sz_nfp s) /\
  (sz_lasym s = true -> snd (accumulate s mf nf ztMin ztMax a1 a2 gg) i = snd gg i + a2 i / IZR (sz_nfp s)).
Proof.
  intros Hi. unfold accumulate. destruct gg as [gs gc]. cbn [fst snd].
  assert (G : forall (a : Z -> R) (b : Z -> R), for_up 0 (mnpd mf nf * NL) (fun i gs => upd gs i (gs i + a i * (1 / IZR (sz_nfp s)))) b i = b i + a i / IZR (sz_nfp s)).
  { intros a b. rewrite (for_up_delta (fun g : Z -> R => g i) _ (fun j => ind j i * (a j * (1 / IZR (sz_nfp s))))).
    - f_equal. rewrite (zsum_single _ _ i); [|lia|].
      + rewrite ind_refl. unfold Rdiv. ring.
      + intros j _ Ne. rewrite ind_neq by assumption. ring.
    - intros j g _. change (upd g j (g j + a j * (1 / IZR (sz_nfp s))) i) with (add_at g j (a j * (1 / IZR (sz_nfp s))) i). apply add_at_ind. }
  split; [apply G|]. intros ->. apply G.
Qed.
End L.
