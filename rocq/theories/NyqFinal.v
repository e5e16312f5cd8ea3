From Coq Require Import ZArith List Bool Reals Lia Lra.
From Verif Require Import Base BaseLemmas SumLemmas SizesModel FourierModel FourierSpec FourierProofs FourierTables TrigSums
  PartModel DftModel DftSpec DftTables DftProofs DftGeo DftForces DftFold DftFinal LapMain NyqModel NyqKernel NyqProofs NyqSpec.
Import ListNotations.
Open Scope R_scope.

Section N.
Variable s : sizes.
Hypothesis OK : sz_ok s.
Hypothesis NY : nyq_ok s.
Variable b0 : basis_tables.
Local Notation t := (tab s b0).
Local Notation nZeta := (sz_nZeta s).
Local Notation nTR := (sz_nThetaReduced s).
Local Notation nT := (sz_nThetaEven s).
Local Notation nTE := (sz_nThetaEff s).
Local Notation M := (sz_mnyq s).
Local Notation Q := (sz_nnyq s).
Local Notation xm := (fst (nyq_modes s)).
Local Notation xn := (snd (nyq_modes s)).

Definition Epart (e : bool) (F : Z -> Z -> R) (k l : Z) : R := 1 / 2 * (F k l + sg_ e * mirrored s F k l).
Lemma Epart_refl e F k l : (0 <= k < nZeta)%Z -> (0 <= l < nT)%Z ->
  Epart e F (rk s k) (rl s l) = sg_ e * Epart e F k l.
Proof.
  intros Hk Hl. unfold Epart, mirrored, rk, rl. rewrite !rr by lia. unfold sg_. destruct e; field.
Qed.
Lemma part_at e f j F k l : holds_field s (sg_ e) f j F \/ sz_lasym s = true /\ holds_field s 1 f j F -> (0 <= k < nZeta)%Z -> (0 <= l < nTR)%Z ->
  part s e f j k l = Epart e F k l.
Proof.
  intros H Hk Hl. assert (HT := so_nT s OK). assert (H2 := so_nTR s OK). assert (TE := so_nTE s OK).
  assert (A : forall k l, (0 <= k < nZeta)%Z -> (0 <= l < nTE)%Z -> f ((j * nZeta + k) * nTE + l)%Z = F k l) by (destruct H as [H|[_ H]]; exact (proj1 H)).
  unfold part. cbv zeta. case_eq (sz_lasym s); intros LA; rewrite LA in TE.
  - rewrite !Z.rem_mod_nonneg by lia. rewrite !A by (try (apply Z.mod_pos_bound; lia); lia).
    unfold Epart, mirrored, sg_. rewrite TE. destruct e; field.
  - destruct H as [[_ B]|[C _]]; [|congruence]. rewrite A by lia. unfold Epart. rewrite (B LA) by lia. unfold sg_. destruct e; field.
Qed.

(** conditions on the toroidal grid *)
Definition okg (g : Z -> R) (E : Z -> Z -> R) : Prop :=
  good g nZeta Q /\ forall m n, (- Q <= n <= Q)%Z ->
    hh Q (Z.abs n) * cpart s E m n = g (Z.abs n) * cpart s E m n /\ spart s E m n = g (Z.abs n) * spart s E m n /\
    hh Q (Z.abs n) * cpart' s E m n = g (Z.abs n) * cpart' s E m n /\ spart' s E m n = g (Z.abs n) * spart' s E m n.
Lemma red_zero g : (forall l, (0 <= l < nTR)%Z -> zsum 0 nZeta (fun k => g k l) = 0) -> red_avg s g = 0.
Proof.
  intros H. unfold red_avg. rewrite zsum_swap. apply zsum_zero. intros l Hl. rewrite zsum_scale, H by lia. ring.
Qed.
Lemma abs_Q (P : Z -> Prop) n : P Q -> P (- Q)%Z -> Z.abs n = Q -> P n.
Proof. intros A B H. destruct (Z.abs_spec n) as [[_ E]|[_ E]]; [replace n with Q by lia|replace n with (- Q)%Z by lia]; assumption. Qed.
Lemma okg_free E : nyquist_free s E -> exists g, okg g E.
Proof.
  intros H. destruct (MQ s OK NY) as (M1 & MT & Q0 & QZ). assert (Z1 := so_nZeta s OK).
  assert (HQ := so_nTR s OK). assert (HT := so_nT s OK).
  assert (OC : forall k, cos (IZR (- Q) * ang nZeta k) = cos (IZR Q * ang nZeta k)) by (intros; rewrite opp_IZR; replace (- IZR Q * ang nZeta k) with (- (IZR Q * ang nZeta k)) by ring; apply cos_neg).
  assert (OS : forall k, sin (IZR (- Q) * ang nZeta k) = - sin (IZR Q * ang nZeta k)) by (intros; rewrite opp_IZR; replace (- IZR Q * ang nZeta k) with (- (IZR Q * ang nZeta k)) by ring; apply sin_neg).
  destruct (Z.Even_or_Odd nZeta) as [[q EV]|[q OD]].
  - exists (hh Q). assert (H0 : nZeta = (2 * Q)%Z) by lia. split; [rewrite H0; apply good_even; lia|].
    intros m n Hn. destruct (Z.eq_dec (Z.abs n) Q) as [NQ|NQ].
    + assert (SN : forall k, sin (IZR n * ang nZeta k) = 0).
      { intros k. revert NQ. apply (abs_Q (fun n => sin (IZR n * ang nZeta k) = 0)); [|rewrite OS]; rewrite (sin_nyq s OK k H0); ring. }
      assert (A : spart s E m n = 0) by (apply red_zero; intros l Hl; apply zsum_zero; intros k Hk; rewrite SN; ring).
      assert (B : spart' s E m n = 0) by (apply red_zero; intros l Hl; apply zsum_zero; intros k Hk; rewrite SN; ring).
      rewrite A, B. repeat split; ring.
    + assert (X : hh Q (Z.abs n) = 1) by (unfold hh; destruct (Z.eqb_spec (Z.abs n) Q); [contradiction|rewrite andb_false_r; reflexivity]).
      rewrite X. repeat split; ring.
  - exists (fun _ => 1). assert (E1 : nZeta = (2 * Q + 1)%Z) by lia. split; [rewrite E1; apply good_odd; lia|].
    intros m n Hn. destruct (Z.eq_dec Q 0) as [QQ|QQ].
    + unfold hh. rewrite QQ. cbn [Z.eqb negb andb]. repeat split; ring.
    + destruct (Z.eq_dec (Z.abs n) Q) as [NQ|NQ].
      2:{ assert (X : hh Q (Z.abs n) = 1) by (unfold hh; destruct (Z.eqb_spec (Z.abs n) Q); [contradiction|rewrite andb_false_r; reflexivity]).
          rewrite X. repeat split; ring. }
      destruct H as [[x H]|[H|H]]; [lia|lia|].
      assert (HC : forall (f : Z -> R) l, (0 <= l < nTR)%Z -> zsum 0 nZeta (fun k => E k l * (f l * cos (IZR n * ang nZeta k))) = 0).
      { intros f l Hl. rewrite (zsum_ext _ _ _ (fun k => f l * (E k l * cos (IZR Q * (2 * PI * IZR k / IZR nZeta))))).
        - rewrite zsum_scale, (proj1 (H l ltac:(lia))). ring.
        - intros k _. replace (cos (IZR n * ang nZeta k)) with (cos (IZR Q * ang nZeta k)); [unfold ang; ring|].
          revert NQ. apply (abs_Q (fun n => cos (IZR Q * ang nZeta k) = cos (IZR n * ang nZeta k))); [reflexivity|rewrite OC; reflexivity]. }
      assert (HS : forall (f : Z -> R) l, (0 <= l < nTR)%Z -> zsum 0 nZeta (fun k => E k l * (f l * sin (IZR n * ang nZeta k))) = 0).
      { intros f l Hl. destruct (Z.abs_spec n) as [[_ EE]|[_ EE]].
        - assert (n = Q) by lia. subst n. rewrite (zsum_ext _ _ _ (fun k => f l * (E k l * sin (IZR Q * (2 * PI * IZR k / IZR nZeta))))) by (intros; unfold ang; ring).
          rewrite zsum_scale, (proj2 (H l ltac:(lia))). ring.
        - assert (n = - Q)%Z by lia. subst n. rewrite (zsum_ext _ _ _ (fun k => - f l * (E k l * sin (IZR Q * (2 * PI * IZR k / IZR nZeta))))).
          + rewrite zsum_scale, (proj2 (H l ltac:(lia))). ring.
          + intros k _. rewrite OS. unfold ang. ring. }
      assert (A1 : cpart s E m n = 0) by (apply red_zero; apply (HC (fun l => cos (IZR m * ang nT l)))).
      assert (A2 : spart s E m n = 0) by (apply red_zero; apply (HS (fun l => sin (IZR m * ang nT l)))).
      assert (A3 : cpart' s E m n = 0) by (apply red_zero; apply (HC (fun l => sin (IZR m * ang nT l)))).
      assert (A4 : spart' s E m n = 0) by (apply red_zero; apply (HS (fun l => cos (IZR m * ang nT l)))).
      rewrite A1, A2, A3, A4. repeat split; ring.
Qed.
Lemma free_E e F : nyquist_free s F -> nyquist_free s (Epart e F).
Proof.
  assert (Z1 := so_nZeta s OK). assert (HQ := so_nTR s OK). assert (HT := so_nT s OK).
  intros [H|[H|H]]; [left; exact H|right; left; exact H|right; right]. intros l Hl.
  assert (RL : (0 <= (nT - l) mod nT < nT)%Z) by (apply Z.mod_pos_bound; lia).
  destruct (H l Hl) as [C1 S1]. destruct (H _ RL) as [C2 S2].
  assert (TR : forall k, (0 <= k < nZeta)%Z -> cos (IZR Q * ang nZeta ((nZeta - k) mod nZeta)) = cos (IZR Q * ang nZeta k) /\ sin (IZR Q * ang nZeta ((nZeta - k) mod nZeta)) = - sin (IZR Q * ang nZeta k)) by (intros; apply refl_trig_mod; lia).
  rewrite <- (zsum_refl nZeta) in C2, S2 by lia.
  split.
  - rewrite (zsum_ext _ _ _ (fun k => 1 / 2 * (F k l * cos (IZR Q * ang nZeta k)) + sg_ e / 2 * (F ((nZeta - k) mod nZeta)%Z ((nT - l) mod nT)%Z * cos (IZR Q * ang nZeta ((nZeta - k) mod nZeta))))).
    + rewrite zsum_plus, !zsum_scale. unfold ang. rewrite C1, C2. ring.
    + intros k Hk. rewrite (proj1 (TR k ltac:(lia))). unfold Epart, mirrored. change (2 * PI * IZR k / IZR nZeta) with (ang nZeta k). field.
  - rewrite (zsum_ext _ _ _ (fun k => 1 / 2 * (F k l * sin (IZR Q * ang nZeta k)) - sg_ e / 2 * (F ((nZeta - k) mod nZeta)%Z ((nT - l) mod nT)%Z * sin (IZR Q * ang nZeta ((nZeta - k) mod nZeta))))).
    + rewrite zsum_minus, !zsum_scale. unfold ang. rewrite S1, S2. ring.
    + intros k Hk. rewrite (proj2 (TR k ltac:(lia))). unfold Epart, mirrored. change (2 * PI * IZR k / IZR nZeta) with (ang nZeta k). field.
Qed.

Definition coef_ (e : bool) := if e then cos_coef s t xm xn else sin_coef s t xm xn.
Lemma cpart_ext E E' m n : (forall k l, (0 <= k < nZeta)%Z -> (0 <= l < nTR)%Z -> E k l = E' k l) ->
  cpart s E m n = cpart s E' m n /\ spart s E m n = spart s E' m n /\ cpart' s E m n = cpart' s E' m n /\ spart' s E m n = spart' s E' m n.
Proof. intros H. unfold cpart, spart, cpart', spart'. repeat split; apply red_ext; intros k l Hk Hl; rewrite H by lia; reflexivity. Qed.
Lemma series_part e f j F num off k l : holds_field s (sg_ e) f j F \/ sz_lasym s = true /\ holds_field s 1 f j F ->
  nyquist_free s F -> (0 <= j < num)%Z -> (0 <= k < nZeta)%Z -> (0 <= l < nT)%Z ->
  series_at s (trig_ e) (spectrum s t num off (coef_ e) (part s e f)) (j + off) k l = Epart e F k l.
Proof.
  intros H FR Hj Hk Hl. destruct (okg_free _ (free_E e F FR)) as [g [G1 G2]].
  destruct (MQ s OK NY) as (M1 & MT & Q0 & QZ).
  unfold series_at. rewrite theta_pt_ang.
  replace (IZR (sz_nfp s) * phi_pt s k) with (ang nZeta k) by (rewrite <- (Rmult_1_l (ang nZeta k)), <- (Rmult_1_l (IZR (sz_nfp s) * phi_pt s k)); symmetry; apply (phi_ang s OK 1)).
  apply (series_full s OK NY e (Epart e F) _ g G1); [apply Epart_refl| |assumption|assumption].
  intros m n V. destruct (mode_idx s OK NY m n V) as (_ & _ & I). rewrite spectrum_at by lia.
  destruct (cpart_ext (part s e f j) (Epart e F) m n) as (X1 & X2 & X3 & X4).
  { intros k' l' Hk' Hl'. apply (part_at e f j F k' l' H); lia. }
  destruct V as (V1 & V2 & V3).
  destruct (G2 m n ltac:(lia)) as (Y1 & Y2 & Y3 & Y4).
  unfold coef_. destruct e.
  - rewrite (cos_coef_at s OK NY b0) by (unfold valid_mode; lia). rewrite X1, X2.
    assert (E1 : red_avg s (fun k l => Epart true F k l * trig_ true (IZR m * ang nT l - IZR n * ang nZeta k)) = 1 * cpart s (Epart true F) m n + 1 * spart s (Epart true F) m n).
    { unfold cpart, spart. rewrite <- red_lin. apply red_ext. intros. unfold trig_. rewrite cos_minus. ring. }
    rewrite E1, Y1. replace (spart s (Epart true F) m n) with (g (Z.abs n) * spart s (Epart true F) m n) at 1 by (symmetry; exact Y2). ring.
  - rewrite (sin_coef_at s OK NY b0) by (unfold valid_mode; lia). rewrite X3, X4.
    assert (E1 : red_avg s (fun k l => Epart false F k l * trig_ false (IZR m * ang nT l - IZR n * ang nZeta k)) = 1 * cpart' s (Epart false F) m n + (-1) * spart' s (Epart false F) m n).
    { unfold cpart', spart'. rewrite <- red_lin. apply red_ext. intros. unfold trig_. rewrite sin_minus. ring. }
    rewrite E1, Y3. replace (spart' s (Epart false F) m n) with (g (Z.abs n) * spart' s (Epart false F) m n) at 1 by (symmetry; exact Y4). ring.
Qed.
End N.
