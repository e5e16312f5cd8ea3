(** The cell search of the vacuum-grid interpolation in IEEE double arithmetic:
    whatever the boundary point (NaN and infinities included), the conversion to
    int is defined and the index is in range. *)
From Coq Require Import ZArith Reals Bool Lia Lra Psatz.
From Flocq Require Import Core IEEE754.BinarySingleNaN Relative.
From Verif Require Import Base Num NumB64 MgridModel.
Open Scope Z_scope.

Lemma ofZ_exact z : Z.abs z <= 2 ^ 53 -> B2R (b64_ofZ z) = IZR z /\ is_finite (b64_ofZ z) = true.
Proof.
  intros H. unfold b64_ofZ.
  pose proof (binary_normalize_correct 53 1024 b64_prec b64_emax mode_NE z 0 false) as C.
  assert (G : generic_format radix2 (SpecFloat.fexp 53 1024) (F2R (Float radix2 z 0))).
  { destruct (Z.eq_dec (Z.abs z) (2 ^ 53)) as [E|N].
    - assert (F2R (Float radix2 z 0) = F2R (Float radix2 (z / 2) 1)) as ->.
      { assert (z = 2 ^ 53 \/ z = - 2 ^ 53) as [->| ->] by lia; unfold F2R; cbn; lra. }
      apply generic_format_F2R. intros Hz. unfold cexp.
      rewrite mag_F2R_Zdigits by exact Hz.
      assert (D : Zdigits radix2 (z / 2) = 53) by (assert (z = 2 ^ 53 \/ z = - 2 ^ 53) as [->| ->] by lia; reflexivity).
      rewrite D. vm_compute. discriminate.
    - apply generic_format_F2R. intros Hz. unfold cexp. rewrite mag_F2R_Zdigits by exact Hz.
      assert (Zdigits radix2 z <= 53) by (apply Zdigits_le_Zpower; change (Zpower radix2 53) with (2 ^ 53); lia).
      unfold SpecFloat.fexp, SpecFloat.emin. lia. }
  assert (GG : rnd (F2R (Float radix2 z 0)) = F2R (Float radix2 z 0)) by (apply round_generic; [typeclasses eauto|exact G]).
  cbv zeta in C. rewrite GG in C.
  assert (V : F2R (Float radix2 z 0) = IZR z) by (unfold F2R; cbn; lra).
  rewrite V in C.
  rewrite Rlt_bool_true in C.
  - destruct C as (A & B & _). split; assumption.
  - rewrite <- abs_IZR. apply Rle_lt_trans with (IZR (2 ^ 53)); [apply IZR_le; exact H|].
    change (bpow radix2 1024) with (IZR (2 ^ 1024)). apply IZR_lt. reflexivity.
Qed.

(** Truncation of a non-negative finite double. *)
Lemma trunc_pos (x : b64) : is_finite x = true -> (0 <= B2R x)%R -> (IZR (b64_trunc x) <= B2R x < IZR (b64_trunc x) + 1)%R /\ 0 <= b64_trunc x.
Proof.
  intros F P. destruct x as [s| | |s m e H]; try discriminate.
  - cbn. split; [lra|lia].
  - assert (s = false) as ->.
    { destruct s; [|reflexivity]. exfalso. cbn in P.
      assert (F2R (Float radix2 (Z.neg m) e) < 0)%R by (apply F2R_lt_0; reflexivity). cbn in *. lra. }
    cbn [b64_trunc B2R cond_Zopp]. unfold F2R. cbn [Fnum Fexp].
    destruct (Z.leb_spec 0 e) as [L|L].
    + assert (E : bpow radix2 e = IZR (2 ^ e)) by (rewrite <- IZR_Zpower by exact L; reflexivity).
      rewrite E, <- mult_IZR. split; [lra|]. apply Z.mul_nonneg_nonneg; [lia|apply Z.pow_nonneg; lia].
    + set (d := 2 ^ (- e)).
      assert (Hd : 0 < d) by (apply Z.pow_pos_nonneg; lia).
      assert (E : bpow radix2 e = (/ IZR d)%R).
      { replace e with (- - e) by lia. rewrite bpow_opp. f_equal. unfold d. rewrite <- IZR_Zpower by lia. reflexivity. }
      rewrite E. assert (HdR : (0 < IZR d)%R) by (apply IZR_lt; exact Hd).
      pose proof (Z.div_mod (Z.pos m) d ltac:(lia)) as DM. pose proof (Z.mod_pos_bound (Z.pos m) d Hd) as MB.
      set (q := Z.pos m / d) in *.
      split; [|apply Z.div_pos; lia].
      assert (A : IZR (Z.pos m) = (IZR d * IZR q + IZR (Z.pos m mod d))%R) by (rewrite <- mult_IZR, <- plus_IZR, <- DM; reflexivity).
      assert (B : (0 <= IZR (Z.pos m mod d) < IZR d)%R) by (split; [apply IZR_le; lia|apply IZR_lt; lia]).
      rewrite A. split.
      * apply Rmult_le_reg_r with (IZR d); [exact HdR|]. rewrite Rmult_assoc, Rinv_l by lra. nra.
      * apply Rmult_lt_reg_r with (IZR d); [exact HdR|]. rewrite Rmult_assoc, Rinv_l by lra. nra.
Qed.

Section Cell.
  Context (lg : b64 -> b64).
  Notation K := (num_b64 lg).

  (** A grid coordinate: finite bounds, extent finite and not below 2^-900. *)
  Definition axis_ok (lo hi : b64) (n : Z) : Prop :=
    is_finite lo = true /\ is_finite hi = true /\ (B2R lo < B2R hi)%R /\
    is_finite (b64_sub hi lo) = true /\ (bpow radix2 (-900) <= B2R (b64_sub hi lo))%R /\ 2 <= n < 2 ^ 31.

  Lemma crop_b64 (lo hi x : b64) : is_finite lo = true -> is_finite hi = true -> (B2R lo < B2R hi)%R ->
    is_finite (@crop K lo hi x) = true /\ (B2R lo <= B2R (@crop K lo hi x) <= B2R hi)%R.
  Proof.
    intros F1 F2 L. unfold crop, nmax, nmin. cbn [nlt num_b64].
    destruct (is_finite x) eqn:FX.
    - destruct (b64_lt hi x) eqn:E1.
      + rewrite lt_fin by assumption. rewrite Rlt_bool_true by exact L. split; [assumption|lra].
      + rewrite lt_fin in E1 by assumption. rewrite lt_fin by assumption.
        destruct (Rlt_bool_spec (B2R hi) (B2R x)); [discriminate|].
        destruct (Rlt_bool_spec (B2R lo) (B2R x)); split; try assumption; lra.
    - destruct x as [|[]| |]; try discriminate.
      + replace (b64_lt hi (B754_infinity true)) with false by (destruct hi as [| | |[]]; try discriminate; reflexivity).
        replace (b64_lt lo (B754_infinity true)) with false by (destruct lo as [| | |[]]; try discriminate; reflexivity).
        split; [assumption|lra].
      + replace (b64_lt hi (B754_infinity false)) with true by (destruct hi as [| | |[]]; try discriminate; reflexivity).
        rewrite lt_fin by assumption. rewrite Rlt_bool_true by exact L. split; [assumption|lra].
      + replace (b64_lt hi B754_nan) with false by (destruct hi as [| | |[]]; try discriminate; reflexivity).
        replace (b64_lt lo B754_nan) with false by (destruct lo as [| | |[]]; try discriminate; reflexivity).
        split; [assumption|lra].
  Qed.

  Lemma rnd_nonneg x : (0 <= x)%R -> (0 <= rnd x)%R.
  Proof. intros H. rewrite <- rnd_0. apply rnd_le. exact H. Qed.

  Lemma cell_b64 (lo hi x : b64) n : axis_ok lo hi n ->
    exists i, @floor_int K (@ndiv K (@nsub K (@crop K lo hi x) lo) (@delta K lo hi n)) = Some i /\ 0 <= i < n.
  Proof.
    intros (F1 & F2 & L & FX & BX & Hn).
    destruct (crop_b64 lo hi x F1 F2 L) as (FR & BR). set (r := @crop K lo hi x) in *. clearbody r.
    (* the divisor *)
    assert (M : B2R (@nsub K (nZ n) (nZ 1)) = IZR (n - 1) /\ is_finite (@nsub K (nZ n) (nZ 1)) = true).
    { cbn [nsub nZ num_b64]. destruct (ofZ_exact n ltac:(lia)) as (A1 & A2). destruct (ofZ_exact 1 ltac:(lia)) as (B1 & B2).
      pose proof (Bminus_correct 53 1024 b64_prec b64_emax mode_NE (b64_ofZ n) (b64_ofZ 1) A2 B2) as C.
      rewrite A1, B1, <- minus_IZR in C.
      destruct (ofZ_exact (n - 1) ltac:(lia)) as (D1 & D2). rewrite <- D1, rnd_B2R in C.
      rewrite Rlt_bool_true in C by apply abs_B2R_lt_emax. destruct C as (C1 & C2 & _).
      fold (b64_sub (b64_ofZ n) (b64_ofZ 1)) in C1, C2. split; [rewrite C1; exact D1|exact C2]. }
    destruct M as (M1 & M2). set (m := @nsub K (nZ n) (nZ 1)) in *.
    assert (Pm : (1 <= IZR (n - 1))%R) by (apply IZR_le; lia).
    assert (Um : (IZR (n - 1) <= IZR (2 ^ 31))%R) by (apply IZR_le; lia).
    (* the extent *)
    set (X := B2R (b64_sub hi lo)) in *.
    assert (PX : (0 < X)%R) by (pose proof (bpow_gt_0 radix2 (-900)); lra).
    assert (UX : (X < bpow radix2 1024)%R). { pose proof (abs_B2R_lt_emax 53 1024 (b64_sub hi lo)) as A. fold X in A. rewrite Rabs_pos_eq in A by lra. exact A. }
    (* the spacing *)
    set (d := @delta K lo hi n) in *.
    assert (D : is_finite d = true /\ B2R d = rnd (X / IZR (n - 1)) /\ (0 < B2R d)%R /\ (X <= B2R d * IZR (n - 1) * (1 + / 4503599627370496))%R).
    { assert (Q : (0 < X / IZR (n - 1) <= X)%R).
      { split; [apply Rdiv_lt_0_compat; lra|]. apply Rmult_le_reg_r with (IZR (n - 1)); [lra|]. unfold Rdiv. rewrite Rmult_assoc, Rinv_l by lra. nra. }
      pose proof (Bdiv_correct 53 1024 b64_prec b64_emax mode_NE (b64_sub hi lo) m ltac:(rewrite M1; lra)) as C.
      rewrite M1 in C. fold X in C.
      assert (R0 : (0 <= rnd (X / IZR (n - 1)))%R) by (apply rnd_nonneg; lra).
      assert (R1 : (rnd (X / IZR (n - 1)) <= X)%R) by (unfold X at 2; rewrite <- (rnd_B2R (b64_sub hi lo)); fold X; apply rnd_le; lra).
      rewrite Rlt_bool_true in C by (rewrite Rabs_pos_eq; lra).
      destruct C as (C1 & C2 & _).
      change (Bdiv mode_NE (b64_sub hi lo) m) with d in C1, C2.
      split; [rewrite C2; exact FX|]. split; [exact C1|].
      (* relative error *)
      destruct (relative_error_N_FLT_ex radix2 (-1074) 53 eq_refl (fun x => negb (Z.even x)) (X / IZR (n - 1))) as (eps & He & Hr).
      { rewrite Rabs_pos_eq by lra. apply Rle_trans with (bpow radix2 (-931)); [apply bpow_le; lia|].
        apply Rmult_le_reg_r with (IZR (n - 1)); [lra|]. unfold Rdiv. rewrite Rmult_assoc, Rinv_l, Rmult_1_r by lra.
        apply Rle_trans with (bpow radix2 (-931) * IZR (2 ^ 31))%R; [apply Rmult_le_compat_l; [apply bpow_ge_0|exact Um]|].
        change (IZR (2 ^ 31)) with (bpow radix2 31). rewrite <- bpow_plus. exact BX. }
      assert (RE : rnd (X / IZR (n - 1)) = (X / IZR (n - 1) * (1 + eps))%R) by exact Hr.
      assert (Ep : (Rabs eps <= / 9007199254740992)%R).
      { apply Rle_trans with (1 := He). unfold u_ro. change (bpow radix2 (- (53) + 1)) with (/ IZR 4503599627370496)%R. lra. }
      apply Rabs_le_inv in Ep.
      rewrite C1, RE. split; [apply Rmult_lt_0_compat; lra|].
      replace (X / IZR (n - 1) * (1 + eps) * IZR (n - 1) * (1 + / 4503599627370496))%R with (X * ((1 + eps) * (1 + / 4503599627370496)))%R by (field; lra).
      rewrite <- (Rmult_1_r X) at 1. apply Rmult_le_compat_l; [lra|]. nra. }
    destruct D as (FD & _ & PD & BD).
    (* the numerator *)
    assert (Nu : is_finite (b64_sub r lo) = true /\ (0 <= B2R (b64_sub r lo) <= X)%R).
    { pose proof (Bminus_correct 53 1024 b64_prec b64_emax mode_NE r lo FR F1) as C.
      assert (R0 : (0 <= rnd (B2R r - B2R lo))%R) by (apply rnd_nonneg; lra).
      pose proof (Bminus_correct 53 1024 b64_prec b64_emax mode_NE hi lo F2 F1) as CX.
      assert (RX : rnd (B2R hi - B2R lo) = X).
      { destruct (Rlt_bool_spec (Rabs (rnd (B2R hi - B2R lo))) (bpow radix2 1024)).
        - destruct CX as (CX & _). unfold X. symmetry. exact CX.
        - destruct CX as (CX & _). unfold binary_overflow, overflow_to_inf in CX. apply sf_inf in CX.
          change (Bminus mode_NE hi lo) with (b64_sub hi lo) in CX. rewrite CX in FX. discriminate. }
      assert (R1 : (rnd (B2R r - B2R lo) <= X)%R) by (rewrite <- RX; apply rnd_le; lra).
      rewrite Rlt_bool_true in C by (rewrite Rabs_pos_eq; lra).
      destruct C as (C1 & C2 & _). change (Bminus mode_NE r lo) with (b64_sub r lo) in C1, C2.
      split; [exact C2|]. rewrite C1. lra. }
    destruct Nu as (FN & BN). set (y := b64_sub r lo) in *.
    (* the quotient *)
    assert (Qb : (0 <= B2R y / B2R d <= IZR (n - 1) + / 2)%R).
    { split; [apply Rmult_le_pos; [lra|left; apply Rinv_0_lt_compat; exact PD]|].
      apply Rmult_le_reg_r with (B2R d); [exact PD|]. unfold Rdiv. rewrite Rmult_assoc, Rinv_l by lra. rewrite Rmult_1_r.
      assert (IZR (2 ^ 31) = 2147483648)%R by reflexivity. nra. }
    pose proof (Bdiv_correct 53 1024 b64_prec b64_emax mode_NE y d ltac:(lra)) as C.
    assert (H0 : (0 <= rnd (B2R y / B2R d))%R) by (apply rnd_nonneg; lra).
    assert (Hh : rnd (IZR (n - 1) + / 2) = (IZR (n - 1) + / 2)%R).
    { apply round_generic; [typeclasses eauto|].
      replace (IZR (n - 1) + / 2)%R with (F2R (Float radix2 (2 * (n - 1) + 1) (-1))).
      - apply generic_format_F2R. intros Hz. unfold cexp. rewrite mag_F2R_Zdigits by exact Hz.
        assert (Zdigits radix2 (2 * (n - 1) + 1) <= 33) by (apply Zdigits_le_Zpower; change (Zpower radix2 33) with (2 ^ 33); lia).
        unfold SpecFloat.fexp, SpecFloat.emin. lia.
      - unfold F2R. cbn [Fnum Fexp]. rewrite plus_IZR, mult_IZR. change (bpow radix2 (-1)) with (/ 2)%R. field. }
    assert (H1 : (rnd (B2R y / B2R d) <= IZR (n - 1) + / 2)%R) by (rewrite <- Hh; apply rnd_le; lra).
    assert (Big : (IZR (n - 1) + / 2 < bpow radix2 1024)%R).
    { apply Rle_lt_trans with (IZR (2 ^ 32)); [|change (bpow radix2 1024) with (IZR (2 ^ 1024)); apply IZR_lt; reflexivity].
      assert (IZR (2 ^ 31) = 2147483648)%R by reflexivity. assert (IZR (2 ^ 32) = 4294967296)%R by reflexivity. lra. }
    rewrite Rlt_bool_true in C by (rewrite Rabs_pos_eq; lra).
    destruct C as (C1 & C2 & _). rewrite FN in C2.
    change (@ndiv K (@nsub K r lo) d) with (Bdiv mode_NE y d).
    set (q := Bdiv mode_NE y d) in *.
    assert (Q0 : (0 <= B2R q)%R) by (rewrite C1; exact H0).
    destruct (trunc_pos q C2 Q0) as (T & T0).
    assert (T1 : b64_trunc q < n).
    { apply lt_IZR. apply Rle_lt_trans with (1 := proj1 T). rewrite C1. apply Rle_lt_trans with (1 := H1).
      rewrite minus_IZR. lra. }
    assert (NF : @nfloor K q = b64_trunc q).
    { unfold nfloor. cbn [ntrunc nlt nZ num_b64].
      destruct (ofZ_exact (b64_trunc q) ltac:(lia)) as (E1 & E2). rewrite lt_fin by assumption. rewrite E1.
      rewrite Rlt_bool_false by lra. reflexivity. }
    exists (b64_trunc q). unfold floor_int. rewrite NF. cbn [nfinite num_b64]. rewrite C2.
    rewrite (proj2 (Z.leb_le _ _)), (proj2 (Z.ltb_lt _ _)) by lia. cbn [andb]. split; [reflexivity|lia].
  Qed.
End Cell.
