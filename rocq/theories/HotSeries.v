From Coq Require Import ZArith List Bool Reals Lra Lia.
From Verif Require Import Base BaseLemmas SumLemmas FourierModel FourierSpec FourierProofs HotModel HotSpec HotProofs.
Import ListNotations.
Open Scope R_scope.

Section Ser.
Variables (mpol ntor : Z).
Hypothesis Hm : (2 <= mpol)%Z.
Hypothesis Hn : (0 <= ntor)%Z.
Local Notation PT := (fun m n => (n * mpol + m)%Z).

(** A cosine (sine) column made of the product coefficients A, B. *)
Definition cos_col (A B : Z -> Z -> R) (f : Z -> R) : Prop :=
  forall m n, valid_mode mpol ntor m n -> f (mode_pos ntor m n) =
    s2 m * s2 (Z.abs n) * (if (m =? 0)%Z || (n =? 0)%Z then A m (Z.abs n) else (A m (Z.abs n) + IZR (Z.sgn n) * B m (Z.abs n)) / 2).
Definition sin_col (A B : Z -> Z -> R) (f : Z -> R) : Prop :=
  forall m n, valid_mode mpol ntor m n -> (m <> 0 \/ n <> 0)%Z -> f (mode_pos ntor m n) =
    s2 m * s2 (Z.abs n) * (if (m =? 0)%Z then - B m (Z.abs n) else if (n =? 0)%Z then A m (Z.abs n)
      else (A m (Z.abs n) - IZR (Z.sgn n) * B m (Z.abs n)) / 2).

Definition unflat (A : Z -> Z -> R) (i : Z) : R := A (i mod mpol)%Z (i / mpol)%Z.
Lemma unflat_at A m n : (0 <= m < mpol)%Z -> unflat A (n * mpol + m)%Z = A m n.
Proof.
  intros H. unfold unflat. f_equal.
  - rewrite Z.add_comm, Z.mod_add, Z.mod_small by lia. reflexivity.
  - rewrite Z.div_add_l, Z.div_small by lia. lia.
Qed.
Lemma series_unflat t1 t2 A th ze :
  product_series t1 t2 mpol ntor PT (unflat A) th ze = surf_series mpol ntor t1 t2 A th ze.
Proof.
  unfold product_series, surf_series. apply zsum_ext. intros m M. apply zsum_ext. intros n N. cbv beta. rewrite unflat_at by lia. reflexivity.
Qed.
Lemma combined_ext t f f' th ze : (forall m n, valid_mode mpol ntor m n -> f (mode_pos ntor m n) = f' (mode_pos ntor m n)) ->
  combined_series t mpol ntor f th ze = combined_series t mpol ntor f' th ze.
Proof.
  intros H. unfold combined_series. f_equal.
  - apply zsum_ext. intros n N. rewrite H by (red; lia). reflexivity.
  - apply zsum_ext. intros m M. apply zsum_ext. intros n N. rewrite H by (red; lia). reflexivity.
Qed.
Lemma combined_sin_ext f f' th ze : (forall m n, valid_mode mpol ntor m n -> (m <> 0 \/ n <> 0)%Z -> f (mode_pos ntor m n) = f' (mode_pos ntor m n)) ->
  combined_series sin mpol ntor f th ze = combined_series sin mpol ntor f' th ze.
Proof.
  intros H. unfold combined_series. f_equal.
  - apply zsum_ext. intros n N. destruct (Z.eq_dec n 0) as [->|Ne].
    + rewrite Rmult_0_l, Ropp_0, sin_0. ring.
    + rewrite H by (try red; lia). reflexivity.
  - apply zsum_ext. intros m M. apply zsum_ext. intros n N. rewrite H by (try red; lia). reflexivity.
Qed.
Lemma combined_scale t f k th ze : combined_series t mpol ntor (fun i => f i * k) th ze = combined_series t mpol ntor f th ze * k.
Proof.
  unfold combined_series. rewrite Rmult_plus_distr_r. f_equal.
  - rewrite <- zsum_scale_r. apply zsum_ext. intros; ring.
  - rewrite <- zsum_scale_r. apply zsum_ext. intros m M. rewrite <- zsum_scale_r. apply zsum_ext. intros; ring.
Qed.
Lemma norm_inv m n : / basis_norm m n = s2 m * s2 n.
Proof. pose proof (basis_norm_s2 m n). pose proof (basis_norm_pos m n). apply Rmult_eq_reg_l with (basis_norm m n); [|lra]. rewrite Rinv_r by lra. lra. Qed.
Lemma valid_in m n : valid_mode mpol ntor m n -> In (m, n) (modes_ ntor mpol 0).
Proof. intros (A & B & C). apply modes_In; lia. Qed.
Lemma mode_pos0 n : mode_pos ntor 0 n = n.
Proof. reflexivity. Qed.

Lemma cos_col_series A B f th ze : cos_col A B f ->
  combined_series cos mpol ntor f th ze = surf_series mpol ntor cos cos A th ze + surf_series mpol ntor sin sin B th ze.
Proof.
  intros H. rewrite <- !series_unflat.
  etransitivity; [|exact (back_cos_series FastToroidal ntor mpol Hn ltac:(lia) (unflat A) (unflat B) (fun _ => 0) th ze)].
  apply combined_ext. intros m n V. rewrite H by auto.
  destruct (back_fold ntor mpol Hn ltac:(lia) 0 (fun n => unflat A (n * mpol + 0)%Z / basis_norm 0 n)
    (fun m n => if Z.eqb (Z.abs n) 0 then unflat A (Z.abs n * mpol + m)%Z / basis_norm m (Z.abs n)
       else 1 / 2 * (unflat A (Z.abs n * mpol + m)%Z + IZR (signum n) * unflat B (Z.abs n * mpol + m)%Z) / basis_norm m (Z.abs n)) (fun _ => 0) ltac:(lia)) as (_ & B2 & _).
  symmetry. etransitivity; [apply (B2 m n (valid_in m n V))|]. cbv beta. destruct V as (V1 & V2 & V3).
  unfold Rdiv. rewrite !norm_inv. destruct (Z.eqb_spec m 0) as [->|Nm]; cbn [orb].
  - rewrite unflat_at by lia. rewrite (Z.abs_eq n) by lia. ring.
  - rewrite !unflat_at by lia. destruct (Z.eqb_spec (Z.abs n) 0), (Z.eqb_spec n 0); try lia; [ring|]. rewrite signum_sgn. field.
Qed.

Lemma sin_col_series A B f th ze : sin_col A B f ->
  combined_series sin mpol ntor f th ze = surf_series mpol ntor sin cos A th ze + surf_series mpol ntor cos sin B th ze.
Proof.
  intros H. rewrite <- !series_unflat.
  etransitivity; [|exact (back_sin_series FastToroidal ntor mpol Hn ltac:(lia) (unflat A) (unflat B) (fun _ => 0) th ze)].
  apply combined_sin_ext. intros m n V N0. rewrite H by auto.
  destruct (back_fold ntor mpol Hn ltac:(lia) 1 (fun n => - unflat B (n * mpol + 0)%Z / basis_norm 0 n)
    (fun m n => if Z.eqb (Z.abs n) 0 then unflat A (Z.abs n * mpol + m)%Z / basis_norm m (Z.abs n)
       else 1 / 2 * (unflat A (Z.abs n * mpol + m)%Z - IZR (signum n) * unflat B (Z.abs n * mpol + m)%Z) / basis_norm m (Z.abs n)) (fun _ => 0) ltac:(lia)) as (_ & B2 & _).
  symmetry. destruct V as (V1 & V2 & V3).
  etransitivity; [apply (B2 m n); apply modes_In; lia|]. cbv beta.
  unfold Rdiv. rewrite !norm_inv. destruct (Z.eqb_spec m 0) as [->|Nm].
  - rewrite unflat_at by lia. rewrite (Z.abs_eq n) by lia. ring.
  - rewrite !unflat_at by lia. destruct (Z.eqb_spec (Z.abs n) 0), (Z.eqb_spec n 0); try lia; [ring|]. rewrite signum_sgn. field.
Qed.

(** Reading such a column gives back A and B. *)
Lemma cos_col_back A B f c0 s0 : cos_col A B f ->
  let r := snd (cos_to_cc_ss FastPoloidal ntor mpol f c0 s0) in
  forall m n, (0 <= m < mpol)%Z -> (0 <= n <= ntor)%Z ->
  fst r (m * (ntor + 1) + n)%Z = A m n /\
  snd r (m * (ntor + 1) + n)%Z = if negb (m =? 0)%Z && negb (n =? 0)%Z then B m n else 0.
Proof.
  intros H r m n M N. destruct (cos_to_cc_ss_spec FastPoloidal ntor mpol Hn ltac:(lia) f c0 s0) as (_ & HC & HS). fold r in HC, HS.
  assert (IQ : In (m, n) (pairs 0 mpol 0 (ntor + 1))) by (apply pairs_In; lia).
  specialize (HC _ IQ). specialize (HS _ IQ).
  change (pidx FastPoloidal ntor mpol (m, n)) with (m * (ntor + 1) + n)%Z in HC, HS. rewrite HC, HS. clear HC HS.
  pose proof (basis_norm_s2 m n) as BN.
  destruct (Z.eqb_spec m 0) as [->|Nm]; cbn [negb andb].
  - rewrite !pick_mode0 by lia. cbn [fst snd Z.ltb Z.compare]. split; [|reflexivity].
    change (mpos ntor (0, n)%Z) with (mode_pos ntor 0 n). rewrite H by (red; lia). cbn [Z.eqb orb]. rewrite (Z.abs_eq n) by lia.
    transitivity (basis_norm 0 n * (s2 0 * s2 n) * (A 0%Z n)); [field|rewrite BN; ring].
  - rewrite !pick_mode by lia. cbn [fst snd].
    destruct (Z.ltb_spec 0 m); [|lia].
    assert (VV : forall x, (- ntor <= x <= ntor)%Z -> f (mpos ntor (m, x)) = s2 m * s2 (Z.abs x) *
       (if (x =? 0)%Z then A m (Z.abs x) else (A m (Z.abs x) + IZR (Z.sgn x) * B m (Z.abs x)) / 2)).
    { intros x Hx. change (mpos ntor (m, x)) with (mode_pos ntor m x). rewrite H by (red; lia). apply Z.eqb_neq in Nm. rewrite Nm. reflexivity. }
    destruct (Z.eqb_spec n 0) as [->|Nn]; cbn [negb].
    + rewrite (zsum_abs0 ntor (fun x => basis_norm m (Z.abs x) * f (mpos ntor (m, x)))) by lia.
      rewrite (zsum_abs0 ntor (fun x => IZR (Z.sgn x) * (basis_norm m (Z.abs x) * f (mpos ntor (m, x))))) by lia.
      rewrite VV by lia. change (Z.abs 0) with 0%Z. change (Z.sgn 0) with 0%Z. cbn [Z.eqb]. split; [|ring].
      transitivity (basis_norm m 0 * (s2 m * s2 0) * (A m 0%Z)); [field|rewrite BN; ring].
    + rewrite (zsum_abs ntor n (fun x => basis_norm m (Z.abs x) * f (mpos ntor (m, x)))) by lia.
      rewrite (zsum_abs ntor n (fun x => IZR (Z.sgn x) * (basis_norm m (Z.abs x) * f (mpos ntor (m, x))))) by lia.
      rewrite !VV by lia. rewrite Z.abs_opp, Z.sgn_opp. rewrite (Z.abs_eq n), (Z.sgn_pos n) by lia. change (- (1))%Z with (-1)%Z.
      destruct (Z.eqb_spec n 0), (Z.eqb_spec (- n) 0); try lia. split.
      * transitivity (basis_norm m n * (s2 m * s2 n) * (A m n)); [field|rewrite BN; ring].
      * transitivity (basis_norm m n * (s2 m * s2 n) * (B m n)); [field|rewrite BN; ring].
Qed.

Lemma sin_col_back A B f c0 s0 : sin_col A B f ->
  let r := snd (sin_to_sc_cs FastPoloidal ntor mpol f c0 s0) in
  forall m n, (0 <= m < mpol)%Z -> (0 <= n <= ntor)%Z ->
  fst r (m * (ntor + 1) + n)%Z = (if negb (m =? 0)%Z then A m n else 0) /\
  snd r (m * (ntor + 1) + n)%Z = if negb (n =? 0)%Z then B m n else 0.
Proof.
  intros H r m n M N. destruct (sin_to_sc_cs_spec FastPoloidal ntor mpol Hn ltac:(lia) f c0 s0) as (_ & HC & HS). fold r in HC, HS.
  assert (IQ : In (m, n) (pairs 0 mpol 0 (ntor + 1))) by (apply pairs_In; lia).
  specialize (HC _ IQ). specialize (HS _ IQ).
  change (pidx FastPoloidal ntor mpol (m, n)) with (m * (ntor + 1) + n)%Z in HC, HS. rewrite HC, HS. clear HC HS.
  pose proof (basis_norm_s2 m n) as BN.
  destruct (Z.eqb_spec m 0) as [->|Nm]; cbn [negb].
  - destruct (Z.eqb_spec n 0) as [->|Nn]; cbn [negb].
    + assert (Z0 : forall g, rsum (modes_ ntor mpol 1) (fun p => if pair_eqb (fst p, Z.abs (snd p)) (0%Z, 0%Z) then g p else 0) = 0).
      { intros g. rewrite modes_sum. rewrite !zsum_zero; [ring| |].
        - intros m' Hm'. apply zsum_zero. intros n' Hn'. unfold pair_eqb. cbn [fst snd]. destruct (Z.eqb_spec m' 0); [lia|reflexivity].
        - intros n' Hn'. unfold pair_eqb. cbn [fst snd]. destruct (Z.eqb_spec (Z.abs n') 0); [lia|]. rewrite andb_false_r. reflexivity. }
      rewrite !Z0. auto.
    + rewrite !pick_mode0 by lia. cbn [fst snd Z.ltb Z.compare]. split; [reflexivity|].
      change (mpos ntor (0, n)%Z) with (mode_pos ntor 0 n). rewrite H by (try red; lia). cbn [Z.eqb]. rewrite (Z.abs_eq n), (Z.sgn_pos n) by lia.
      transitivity (basis_norm 0 n * (s2 0 * s2 n) * (B 0%Z n)); [field|rewrite BN; ring].
  - rewrite !pick_mode by lia. cbn [fst snd].
    destruct (Z.ltb_spec 0 m); [|lia].
    assert (VV : forall x, (- ntor <= x <= ntor)%Z -> f (mpos ntor (m, x)) = s2 m * s2 (Z.abs x) *
       (if (x =? 0)%Z then A m (Z.abs x) else (A m (Z.abs x) - IZR (Z.sgn x) * B m (Z.abs x)) / 2)).
    { intros x Hx. change (mpos ntor (m, x)) with (mode_pos ntor m x). rewrite H by (try red; lia). apply Z.eqb_neq in Nm. rewrite Nm. reflexivity. }
    destruct (Z.eqb_spec n 0) as [->|Nn]; cbn [negb].
    + rewrite (zsum_abs0 ntor (fun x => basis_norm m (Z.abs x) * f (mpos ntor (m, x)))) by lia.
      rewrite (zsum_abs0 ntor (fun x => - IZR (Z.sgn x) * (basis_norm m (Z.abs x) * f (mpos ntor (m, x))))) by lia.
      rewrite VV by lia. change (Z.abs 0) with 0%Z. change (Z.sgn 0) with 0%Z. cbn [Z.eqb]. split; [|ring].
      transitivity (basis_norm m 0 * (s2 m * s2 0) * (A m 0%Z)); [field|rewrite BN; ring].
    + rewrite (zsum_abs ntor n (fun x => basis_norm m (Z.abs x) * f (mpos ntor (m, x)))) by lia.
      rewrite (zsum_abs ntor n (fun x => - IZR (Z.sgn x) * (basis_norm m (Z.abs x) * f (mpos ntor (m, x))))) by lia.
      rewrite !VV by lia. rewrite Z.abs_opp, Z.sgn_opp. rewrite (Z.abs_eq n), (Z.sgn_pos n) by lia. change (- (1))%Z with (-1)%Z.
      destruct (Z.eqb_spec n 0), (Z.eqb_spec (- n) 0); try lia. split.
      * transitivity (basis_norm m n * (s2 m * s2 n) * (A m n)); [field|rewrite BN; ring].
      * transitivity (basis_norm m n * (s2 m * s2 n) * (B m n)); [field|rewrite BN; ring].
Qed.
End Ser.
