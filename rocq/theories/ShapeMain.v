From Coq Require Import ZArith List Bool Reals Lia Lra.
From Verif Require Import Base BaseLemmas SumLemmas SizesModel DftTables DftSpec GeoModel ShapeModel ShapeSpec ShapeProofs TableProofs.
Open Scope R_scope.

Section M.
Variables (s : sizes) (big : R) (g : full_geo) (sqrtSF : Z -> R) (k jF : Z) (Rf Zf : R -> R -> R).
Hypothesis OK : sz_ok s.
Hypothesis SMP : sampled s g sqrtSF jF Rf Zf.
Hypothesis HK : (0 <= k < sz_nZeta s)%Z.
Local Notation T := (sz_nThetaReduced s).
Local Notation nT := (sz_nThetaEven s).
Local Notation S_ := (scan_section s big g sqrtSF k jF).
Local Notation ph := (phi_pt s k).

Lemma nT_pos : 0 < IZR nT.
Proof. pose proof (so_nT s OK). pose proof (so_nTR s OK). apply IZR_lt. lia. Qed.
Lemma T_eff l : (0 <= l < T)%Z -> (0 <= l < sz_nThetaEff s)%Z.
Proof. pose proof (so_nT s OK). pose proof (so_nTR s OK). pose proof (so_nTE s OK). destruct (sz_lasym s); lia. Qed.
Lemma reflected_range : (0 <= reflected s k < sz_nZeta s)%Z.
Proof. unfold reflected. rewrite Z.rem_mod_nonneg by lia. apply Z.mod_pos_bound. lia. Qed.
Definition mirror (l : Z) : Z := if (l =? 0)%Z then 0%Z else (nT - l)%Z.
Lemma mirror_range l : (0 <= l < T)%Z -> (0 <= mirror l < nT)%Z.
Proof. intros H. pose proof (so_nT s OK). pose proof (so_nTR s OK). unfold mirror. destruct (Z.eqb_spec l 0); lia. Qed.
Lemma shift_phi f : periodic (sz_nfp s) f -> forall t, f t (phi_pt s (reflected s k)) = f t (- ph).
Proof.
  intros P t. unfold reflected. rewrite Z.rem_mod_nonneg by lia. pose proof (so_nZeta s OK). pose proof (so_nfp s OK).
  assert (A : IZR (sz_nZeta s) <> 0) by (apply not_0_IZR; lia). assert (B : IZR (sz_nfp s) <> 0) by (apply not_0_IZR; lia).
  destruct (Z.eq_dec k 0) as [->|N].
  - rewrite Z.sub_0_r, Z.mod_same by lia. f_equal. unfold phi_pt. field. auto.
  - rewrite Z.mod_small by lia. rewrite <- (proj2 (P t (- ph))). f_equal. unfold phi_pt. rewrite minus_IZR. field. auto.
Qed.
Lemma shift_theta f l : periodic (sz_nfp s) f -> f (- theta_pt s l) ph = f (theta_pt s (mirror l)) ph.
Proof.
  intros P. pose proof nT_pos. unfold mirror. destruct (Z.eqb_spec l 0) as [->|N].
  - f_equal. unfold theta_pt. field. lra.
  - rewrite <- (proj1 (P (- theta_pt s l) ph)). f_equal. unfold theta_pt. rewrite minus_IZR. field. lra.
Qed.
Lemma cover j : (0 <= j < nT)%Z -> (0 <= j < T)%Z \/ exists l, (0 <= l < T)%Z /\ mirror l = j.
Proof.
  intros H. pose proof (so_nT s OK). pose proof (so_nTR s OK). destruct (Z_lt_le_dec j T); [left; lia|right]. exists (nT - j)%Z. split; [lia|].
  unfold mirror. destruct (Z.eqb_spec (nT - j) 0); lia.
Qed.
Lemma half_in l : (0 <= l < T)%Z -> (0 <= l < nT)%Z.
Proof. pose proof (so_nT s OK). pose proof (so_nTR s OK). lia. Qed.
Lemma yr1 l : (0 <= l < T)%Z -> yr s g sqrtSF jF k l = Rf (theta_pt s l) ph.
Proof. intros H. apply (SMP k l HK (T_eff l H)). Qed.
Lemma yz1 l : (0 <= l < T)%Z -> yz s g sqrtSF jF k l = Zf (theta_pt s l) ph.
Proof. intros H. apply (SMP k l HK (T_eff l H)). Qed.
Lemma yr2 l : periodic (sz_nfp s) Rf -> (forall t p, Rf (- t) (- p) = Rf t p) -> (0 <= l < T)%Z -> yr s g sqrtSF jF (reflected s k) l = Rf (theta_pt s (mirror l)) ph.
Proof.
  intros P Y H. etransitivity; [apply (SMP (reflected s k) l reflected_range (T_eff l H))|].
  rewrite (shift_phi Rf P), <- (shift_theta Rf l P). rewrite <- (Y (theta_pt s l) (- ph)). rewrite Ropp_involutive. reflexivity.
Qed.
Lemma yz2 l : periodic (sz_nfp s) Zf -> (forall t p, Zf (- t) (- p) = - Zf t p) -> (0 <= l < T)%Z -> -1 * yz s g sqrtSF jF (reflected s k) l = Zf (theta_pt s (mirror l)) ph.
Proof.
  intros P Y H. transitivity (-1 * Zf (theta_pt s l) (phi_pt s (reflected s k))); [f_equal; apply (SMP (reflected s k) l reflected_range (T_eff l H))|].
  rewrite (shift_phi Zf P), <- (shift_theta Zf l P). pose proof (Y (theta_pt s l) (- ph)) as Q. rewrite Ropp_involutive in Q. rewrite Q. ring.
Qed.

(** from the two passes to the whole section *)
Lemma whole (F : R -> R -> R) f h st :
  (forall l, (0 <= l < T)%Z -> f l = F (theta_pt s l) ph) -> (forall l, (0 <= l < T)%Z -> h l = F (theta_pt s (mirror l)) ph) ->
  inv2 T f h T st ->
  largest nT (fun j => F (theta_pt s j) ph) (snd st) /\ smallest nT (fun j => F (theta_pt s j) ph) (fst st).
Proof.
  intros EF EH (E & A & A2 & B & C & C2).
  assert (AT : forall v, (exists l, (0 <= l < T)%Z /\ v = f l) \/ (exists l, (0 <= l < T)%Z /\ v = h l) -> exists j, (0 <= j < nT)%Z /\ v = F (theta_pt s j) ph).
  { intros v [(l & L & ->)|(l & L & ->)]; [exists l; split; [apply half_in, L|apply EF, L]|exists (mirror l); split; [apply mirror_range, L|apply EH, L]]. }
  split; (split; [apply AT; assumption|]); intros j Hj; destruct (cover j Hj) as [L|(l & L & <-)].
  - rewrite <- EF by exact L. apply A, L.
  - rewrite <- EH by exact L. apply A2, L.
  - rewrite <- EF by exact L. apply C, L.
  - rewrite <- EH by exact L. apply C2, L.
Qed.

Lemma section_R : periodic (sz_nfp s) Rf -> (forall t p, Rf (- t) (- p) = Rf t p) ->
  (forall j, (0 <= j < nT)%Z -> Rabs (Rf (theta_pt s j) ph) < big) -> (exists l, (0 <= l < T)%Z /\ Rf (theta_pt s l) ph <> Rf 0 ph) ->
  largest nT (fun j => Rf (theta_pt s j) ph) (maximum_x S_) /\ smallest nT (fun j => Rf (theta_pt s j) ph) (minimum_x S_).
Proof.
  intros P Y BD NC. pose proof (section_x s big g sqrtSF k jF) as X. pose proof (so_nTR s OK) as TR.
  assert (T0 : theta_pt s 0 = 0) by (unfold theta_pt; pose proof nT_pos; field; lra).
  assert (I : inv2 T (fun l => yr s g sqrtSF jF k l) (fun l => yr s g sqrtSF jF (reflected s k) l) T (minimum_x S_, maximum_x S_)).
  { rewrite X. apply both_passes.
    - lia.
    - intros l L. rewrite yr1 by exact L. pose proof (Rabs_def2 _ _ (BD l (half_in l L))). lra.
    - intros v _. reflexivity.
    - rewrite yr2, yr1 by (assumption || lia). reflexivity.
    - destruct NC as (l & L & D). exists l. split; [exact L|]. rewrite !yr1 by lia. rewrite T0. exact D. }
  refine (whole Rf _ _ _ _ _ I); intros l L; [apply yr1, L|apply yr2; assumption].
Qed.
Lemma section_Z : periodic (sz_nfp s) Zf -> (forall t p, Zf (- t) (- p) = - Zf t p) -> 0 <= Zf 0 ph ->
  (forall j, (0 <= j < nT)%Z -> Rabs (Zf (theta_pt s j) ph) < big) -> (exists l, (0 <= l < T)%Z /\ Zf (theta_pt s l) ph <> Zf 0 ph) ->
  largest nT (fun j => Zf (theta_pt s j) ph) (maximum_z S_) /\ smallest nT (fun j => Zf (theta_pt s j) ph) (minimum_z S_).
Proof.
  intros P Y Z0 BD NC. pose proof (section_z s big g sqrtSF k jF) as X. pose proof (so_nTR s OK) as TR.
  assert (T0 : theta_pt s 0 = 0) by (unfold theta_pt; pose proof nT_pos; field; lra).
  assert (Z1 : forall l, (0 <= l < T)%Z -> 1 * yz s g sqrtSF jF k l = Zf (theta_pt s l) ph) by (intros l L; rewrite yz1 by exact L; ring).
  assert (I : inv2 T (fun l => 1 * yz s g sqrtSF jF k l) (fun l => -1 * yz s g sqrtSF jF (reflected s k) l) T (minimum_z S_, maximum_z S_)).
  { rewrite X. apply both_passes.
    - lia.
    - intros l L. rewrite Z1 by exact L. pose proof (Rabs_def2 _ _ (BD l (half_in l L))). lra.
    - intros v V. rewrite Z1, T0 in V by lia. apply Rabs_right. lra.
    - rewrite yz2, Z1 by (assumption || lia). reflexivity.
    - destruct NC as (l & L & D). exists l. split; [exact L|]. rewrite !Z1 by lia. rewrite T0. exact D. }
  refine (whole Zf _ _ _ _ _ I); intros l L; [apply Z1, L|apply yz2; assumption].
Qed.
Lemma section_top : periodic (sz_nfp s) Rf -> (forall t p, Rf (- t) (- p) = Rf t p) -> periodic (sz_nfp s) Zf -> (forall t p, Zf (- t) (- p) = - Zf t p) -> 0 <= Zf 0 ph ->
  (forall j, (0 <= j < nT)%Z -> Rabs (Zf (theta_pt s j) ph) < big) ->
  exists j, (0 <= j < nT)%Z /\ rzmax S_ = Rf (theta_pt s j) ph /\ Zf (theta_pt s j) ph = maximum_z S_.
Proof.
  intros PR YR PZ YZ Z0 BD. pose proof (so_nTR s OK) as TR.
  assert (Z1 : forall l, (0 <= l < T)%Z -> 1 * yz s g sqrtSF jF k l = Zf (theta_pt s l) ph) by (intros l L; rewrite yz1 by exact L; ring).
  destruct (section_rz s big g sqrtSF k jF) as [(l & L & E1 & E2)|(l & L & E1 & E2)].
  - lia.
  - intros l L. rewrite Z1 by exact L. pose proof (Rabs_def2 _ _ (BD l (half_in l L))). lra.
  - rewrite Z1 by lia. replace (theta_pt s 0) with 0 by (unfold theta_pt; pose proof nT_pos; field; lra). exact Z0.
  - exists l. split; [apply half_in, L|]. rewrite E1, E2, Z1, yr1 by exact L. auto.
  - exists (mirror l). split; [apply mirror_range, L|]. rewrite E1, E2, yz2, yr2 by assumption. auto.
Qed.
End M.

(** the stored maximum never falls below |Z| of the first point, the minimum never rises above Z of the second one *)
Lemma abs_kept (f : Z -> R) (v0 : R) lo hi st : (lo <= hi)%Z -> v0 <= snd st -> v0 <= snd (for_up lo hi (fun l st => step1 Rabs (f l) st) st).
Proof.
  intros L H.
  apply (for_up_ind (fun _ st => v0 <= snd st)); [exact L|exact H|]. intros j st' _ I. unfold step1. pose proof (Rle_abs (f j)).
  destruct (Rle_dec (snd st') (f j)); [|destruct (Rle_dec (f j) (fst st'))]; cbn [fst snd]; lra.
Qed.
Lemma min_kept ab (f : Z -> R) (v1 : R) lo hi st : (lo <= hi)%Z -> fst st <= v1 -> fst (for_up lo hi (fun l st => step1 ab (f l) st) st) <= v1.
Proof.
  intros L H.
  apply (for_up_ind (fun _ st => fst st <= v1)); [exact L|exact H|]. intros j st' _ I. unfold step1.
  destruct (Rle_dec (snd st') (f j)); [|destruct (Rle_dec (f j) (fst st'))]; cbn [fst snd]; lra.
Qed.
Lemma bad_height s big g sqrtSF k jF z0 z1 : (2 <= sz_nThetaReduced s)%Z -> yz s g sqrtSF jF k 0 = z0 -> yz s g sqrtSF jF k 1 = z1 -> Rabs z0 < big -> Rabs z1 < big -> z1 < Rabs z0 ->
  Rabs z0 <= maximum_z (scan_section s big g sqrtSF k jF) /\ minimum_z (scan_section s big g sqrtSF k jF) <= z1.
Proof.
  intros TR E0 E1 B0 B1 H. pose proof (section_z s big g sqrtSF k jF) as X. pose proof (Rabs_def2 _ _ B0). pose proof (Rabs_def2 _ _ B1).
  set (S_ := scan_section s big g sqrtSF k jF) in *. change (maximum_z S_) with (snd (minimum_z S_, maximum_z S_)). change (minimum_z S_) with (fst (minimum_z S_, maximum_z S_)) at 2.
  rewrite X. unfold scan1.
  assert (ST : let st := for_up 0 (sz_nThetaReduced s) (fun l st => step1 Rabs (1 * yz s g sqrtSF jF k l) st) (big, - big) in Rabs z0 <= snd st /\ fst st <= z1).
  { cbv zeta. rewrite (for_up_split 0 2) by lia.
    change (for_up 0 2 (fun l st => step1 Rabs (1 * yz s g sqrtSF jF k l) st) (big, - big)) with (step1 Rabs (1 * yz s g sqrtSF jF k 1) (step1 Rabs (1 * yz s g sqrtSF jF k 0) (big, - big))).
    rewrite E0, E1, !Rmult_1_l.
    assert (Q : step1 Rabs z1 (step1 Rabs z0 (big, - big)) = (z1, Rabs z0)).
    { unfold step1. cbn [fst snd]. destruct (Rle_dec (- big) z0); [|lra]. cbn [fst snd]. destruct (Rle_dec (Rabs z0) z1); [lra|]. destruct (Rle_dec z1 big); [reflexivity|lra]. }
    rewrite Q. split; [apply abs_kept; [lia|cbn; lra]|apply min_kept; [lia|cbn; lra]]. }
  destruct ST as (S1 & S2). split; [apply abs_kept; [lia|exact S1]|apply min_kept; [lia|exact S2]].
Qed.
