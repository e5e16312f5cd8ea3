(** IEEE binary64 arithmetic with round to nearest even, from Flocq's formalised
    (and executable) [binary_float], as an instance of [num], and the few facts
    about it that the loop proofs need. *)
From Coq Require Import ZArith Bool Reals Lra Psatz.
From Flocq Require Import Core IEEE754.BinarySingleNaN.
From Verif Require Import Base Num.
Open Scope Z_scope.

Definition b64 : Type := binary_float 53 1024.

#[global] Instance b64_prec : Prec_gt_0 53 := eq_refl.
#[global] Instance b64_emax : Prec_lt_emax 53 1024 := eq_refl.

Definition b64_ofZ (z : Z) : b64 :=
  binary_normalize 53 1024 b64_prec b64_emax mode_NE z 0 false.
Definition b64_add : b64 -> b64 -> b64 := Bplus mode_NE.
Definition b64_sub : b64 -> b64 -> b64 := Bminus mode_NE.
Definition b64_mul : b64 -> b64 -> b64 := Bmult mode_NE.
Definition b64_div : b64 -> b64 -> b64 := Bdiv mode_NE.
Definition b64_abs : b64 -> b64 := Babs.
Definition b64_lt (a b : b64) : bool :=
  match Bcompare a b with Some Lt => true | _ => false end.
Definition b64_le (a b : b64) : bool :=
  match Bcompare a b with Some Lt => true | Some Eq => true | _ => false end.
Definition b64_eq (a b : b64) : bool :=
  match Bcompare a b with Some Eq => true | _ => false end.
Definition b64_trunc (a : b64) : Z :=
  match a with
  | B754_finite s m e _ =>
      let v := if 0 <=? e then Z.pos m * 2 ^ e else Z.pos m / 2 ^ (- e) in
      if s then - v else v
  | _ => 0
  end.

(** Doubles with an arbitrary implementation of the logarithm. *)
Definition num_b64 (lg : b64 -> b64) : num :=
  mkNum b64 b64_add b64_sub b64_mul b64_div b64_abs lg
        b64_lt b64_le b64_eq is_finite b64_trunc b64_ofZ.

Notation rnd := (round radix2 (SpecFloat.fexp 53 1024) (round_mode mode_NE)).

Lemma rnd_le a b : (a <= b)%R -> (rnd a <= rnd b)%R.
Proof. apply round_le; typeclasses eauto. Qed.

Lemma rnd_B2R (a : b64) : rnd (B2R a) = B2R a.
Proof. apply round_generic; [typeclasses eauto|apply generic_format_B2R]. Qed.

Lemma rnd_0 : rnd 0 = 0%R.
Proof. apply round_0; typeclasses eauto. Qed.

(** "Not a negative number": zero, positive, +inf or NaN. *)
Definition b64_pos (a : b64) : Prop := b64_lt a (b64_ofZ 0) = false.

Lemma B2R_zero : B2R (b64_ofZ 0) = 0%R.
Proof. reflexivity. Qed.

Lemma lt_fin (a b : b64) :
  is_finite a = true -> is_finite b = true ->
  b64_lt a b = Rlt_bool (B2R a) (B2R b).
Proof.
  intros A B. unfold b64_lt. rewrite Bcompare_correct by auto.
  unfold Rlt_bool. destruct (Rcompare _ _); reflexivity.
Qed.

Lemma le_fin (a b : b64) :
  is_finite a = true -> is_finite b = true ->
  b64_le a b = Rle_bool (B2R a) (B2R b).
Proof.
  intros A B. unfold b64_le. rewrite Bcompare_correct by auto.
  unfold Rle_bool. destruct (Rcompare _ _); reflexivity.
Qed.

(** Non-negativity of finite numbers. *)
Lemma pos_fin (a : b64) : is_finite a = true -> b64_pos a <-> (0 <= B2R a)%R.
Proof.
  intros A. unfold b64_pos. rewrite lt_fin by auto. rewrite B2R_zero.
  destruct (Rlt_bool_spec (B2R a) 0); split; intros; auto; try discriminate; lra.
Qed.

Lemma sf_inf (a : b64) s : B2SF a = SpecFloat.S754_infinity s -> a = B754_infinity s.
Proof. destruct a; cbn; intros; congruence. Qed.

Lemma pos_inf (s : bool) : b64_pos (B754_infinity s) -> s = false.
Proof. unfold b64_pos. destruct s; cbn; congruence. Qed.

(** Sign of a non-negative finite number that is not zero. *)
Lemma pos_sign (a : b64) : is_finite a = true -> (0 < B2R a)%R -> Bsign a = false.
Proof.
  destruct a as [s| | |s m e]; cbn; intros F H; try discriminate; try lra.
  destruct s; auto. exfalso.
  assert (F2R (Float radix2 (Z.neg m) e) < 0)%R by (apply F2R_lt_0; reflexivity).
  cbn in *. lra.
Qed.

Lemma pos_add (a b : b64) : b64_pos a -> b64_pos b -> b64_pos (b64_add a b).
Proof.
  intros A B.
  destruct (is_finite a) eqn:FA.
  - destruct (is_finite b) eqn:FB.
    + rewrite pos_fin in A, B by auto.
      pose proof (Bplus_correct 53 1024 b64_prec b64_emax mode_NE a b FA FB) as H.
      fold (b64_add a b) in H.
      destruct (Rlt_bool_spec (Rabs (rnd (B2R a + B2R b))) (bpow radix2 1024)) as [L|L].
      * destruct H as (H1 & H2 & _). rewrite pos_fin by auto. rewrite H1.
        rewrite <- rnd_0. apply rnd_le. lra.
      * destruct H as (H1 & H2). unfold binary_overflow, overflow_to_inf in H1.
        assert (SA : Bsign a = false).
        { destruct (Rle_lt_or_eq_dec 0 (B2R a) A) as [P|P]; [apply pos_sign; auto|].
          rewrite H2. apply pos_sign; auto.
          destruct (Rle_lt_or_eq_dec 0 (B2R b) B) as [Q|Q]; auto. exfalso.
          rewrite <- P, <- Q, Rplus_0_r, rnd_0, Rabs_R0 in L.
          pose proof (bpow_gt_0 radix2 1024). lra. }
        rewrite SA in H1. apply sf_inf in H1. rewrite H1. reflexivity.
    + destruct b as [|s| |]; try discriminate.
      * apply pos_inf in B. subst. destruct a; try discriminate; reflexivity.
      * destruct a; try discriminate; reflexivity.
  - destruct a as [|s| |]; try discriminate.
    + apply pos_inf in A. subst. destruct b as [|s| |]; try reflexivity.
      apply pos_inf in B. subst. reflexivity.
    + destruct b; reflexivity.
Qed.

Lemma pos_ofZ_1 : b64_pos (b64_ofZ 1).
Proof. reflexivity. Qed.

(** [100 * b] is never below [b] for a non-negative [b]. *)
Lemma hundred_ge (b : b64) :
  is_finite b = true -> (0 <= B2R b)%R ->
  b64_mul (b64_ofZ 100) b = B754_infinity false \/
  is_finite (b64_mul (b64_ofZ 100) b) = true /\ (B2R b <= B2R (b64_mul (b64_ofZ 100) b))%R.
Proof.
  intros F P.
  assert (E : B2R (b64_ofZ 100) = 100%R).
  { change (F2R (Float radix2 7036874417766400 (-46)) = 100)%R.
    unfold F2R; cbn [Fnum Fexp].
    change (bpow radix2 (-46)) with (/ IZR 70368744177664)%R. lra. }
  pose proof (Bmult_correct 53 1024 b64_prec b64_emax mode_NE (b64_ofZ 100) b) as H.
  fold (b64_mul (b64_ofZ 100) b) in H. rewrite E in H.
  destruct (Rlt_bool_spec (Rabs (rnd (100 * B2R b))) (bpow radix2 1024)) as [L|L].
  - destruct H as (H1 & H2 & _). right. rewrite F in H2. split; [exact H2|].
    rewrite H1, <- (rnd_B2R b) at 1. apply rnd_le. lra.
  - left. unfold binary_overflow, overflow_to_inf in H. apply sf_inf in H. rewrite H.
    change (Bsign (b64_ofZ 100)) with false. rewrite xorb_false_l. f_equal. destruct (Rle_lt_or_eq_dec 0 (B2R b) P) as [Q|Q].
    + apply (pos_sign b F Q).
    + exfalso. rewrite <- Q, Rmult_0_r, rnd_0, Rabs_R0 in L.
      pose proof (bpow_gt_0 radix2 1024). lra.
Qed.

Lemma lt_inf_l (a : b64) : b64_lt (B754_infinity false) a = false.
Proof. destruct a as [|[]| |]; reflexivity. Qed.

Lemma leash_le_b64 (a b : b64) :
  b64_pos a -> b64_le a b = true -> b64_lt (b64_mul (b64_ofZ 100) b) a = false.
Proof.
  intros A L.
  destruct (is_finite b) eqn:FB.
  - destruct (is_finite a) eqn:FA.
    + rewrite le_fin in L by auto. rewrite pos_fin in A by auto.
      destruct (Rle_bool_spec (B2R a) (B2R b)) as [L'|L']; [|discriminate].
      destruct (hundred_ge b FB ltac:(lra)) as [->|(H1 & H2)]; [apply lt_inf_l|].
      rewrite lt_fin by auto.
      destruct (Rlt_bool_spec (B2R (b64_mul (b64_ofZ 100) b)) (B2R a)); auto. lra.
    + exfalso. destruct a as [|s| |]; try discriminate.
      apply pos_inf in A. subst. destruct b; discriminate.
  - destruct b as [|s| |]; try discriminate.
    + destruct s.
      * exfalso. destruct a as [|s| |]; try discriminate.
        apply pos_inf in A. subst. discriminate.
      * change (b64_mul (b64_ofZ 100) (B754_infinity false)) with (@B754_infinity 53 1024 false).
        apply lt_inf_l.
    + destruct a; discriminate.
Qed.

Lemma leash_self_b64 (a : b64) :
  b64_pos a -> b64_lt (b64_mul (b64_ofZ 100) a) a = false.
Proof.
  intros A. destruct (is_nan a) eqn:N.
  - destruct a; try discriminate. reflexivity.
  - apply leash_le_b64; auto. unfold b64_le.
    destruct a as [s|s| |s m e]; try discriminate; try (destruct s; reflexivity).
    rewrite Bcompare_correct by reflexivity. rewrite Rcompare_Eq; reflexivity.
Qed.

(** 2 * fl(1/200) = fl(1/100) exactly, so two numbers up to 1/200 sum to at most
    fl(1/100). *)
Lemma loose_b64 (t a b : b64) :
  b64_le t (b64_div (b64_ofZ 1) (b64_ofZ 200)) = true ->
  b64_le a t = true -> b64_le b t = true ->
  b64_lt (b64_div (b64_ofZ 1) (b64_ofZ 100)) (b64_add a b) = false.
Proof.
  set (h := b64_div (b64_ofZ 1) (b64_ofZ 200)).
  set (k := b64_div (b64_ofZ 1) (b64_ofZ 100)).
  assert (FH : is_finite h = true) by reflexivity.
  assert (FK : is_finite k = true) by reflexivity.
  assert (HK : (B2R h + B2R h = B2R k)%R).
  { change (F2R (Float radix2 5764607523034235 (-60)) +
            F2R (Float radix2 5764607523034235 (-60)) =
            F2R (Float radix2 5764607523034235 (-59)))%R.
    unfold F2R; cbn [Fnum Fexp].
    change (bpow radix2 (-60)) with (/ IZR 1152921504606846976)%R.
    change (bpow radix2 (-59)) with (/ IZR 576460752303423488)%R. lra. }
  clearbody h k. intros T A B.
  assert (ninf : forall u w : b64, b64_le u w = true -> is_finite w = true ->
    is_finite u = true /\ (B2R u <= B2R w)%R \/ u = B754_infinity true).
  { intros u w L F. destruct (is_finite u) eqn:FU.
    - left; split; auto. rewrite le_fin in L by auto.
      destruct (Rle_bool_spec (B2R u) (B2R w)); [auto|discriminate].
    - right. destruct u as [|[]| |]; auto; try discriminate; destruct w; discriminate. }
  assert (nint : forall u : b64, b64_le u (B754_infinity true) = true ->
                 u = B754_infinity true).
  { intros u L. destruct u as [|[]| |[]]; auto; discriminate. }
  assert (fin : forall u : b64, b64_le u t = true ->
     is_finite u = true /\ (B2R u <= B2R h)%R \/ u = B754_infinity true).
  { intros u L. destruct (ninf t h T FH) as [(F & LE)|E].
    - destruct (ninf u t L F) as [(F2 & L2)|E]; auto. left; split; auto. lra.
    - subst t. right. apply nint; auto. }
  assert (nolt : forall u : b64, b64_lt k (B754_infinity true) = false /\ b64_lt k B754_nan = false).
  { intros u. split; destruct k as [|[]| |]; reflexivity. }
  destruct (fin a A) as [(FA & LA)|EA]; destruct (fin b B) as [(FB & LB)|EB]; subst.
  - pose proof (Bplus_correct 53 1024 b64_prec b64_emax mode_NE a b FA FB) as H.
    fold (b64_add a b) in H.
    assert (LR : (rnd (B2R a + B2R b) <= B2R k)%R).
    { rewrite <- (rnd_B2R k). apply rnd_le. lra. }
    destruct (Rlt_bool_spec (Rabs (rnd (B2R a + B2R b))) (bpow radix2 1024)) as [L|L].
    + destruct H as (H1 & H2 & _). rewrite lt_fin by auto. rewrite H1.
      destruct (Rlt_bool_spec (B2R k) (rnd (B2R a + B2R b))); auto. lra.
    + destruct H as (H1 & H2). unfold binary_overflow, overflow_to_inf in H1.
      destruct (Bsign a) eqn:SA.
      * apply sf_inf in H1. rewrite H1. apply (nolt a).
      * exfalso.
        assert (KB : (Rabs (B2R k) < bpow radix2 1024)%R) by (apply abs_B2R_lt_emax).
        assert (PA : forall u : b64, is_finite u = true -> Bsign u = false -> (0 <= B2R u)%R).
        { intros u F S. destruct u as [| | |s m e]; cbn in *; try discriminate; try lra.
          subst s. apply F2R_ge_0. cbn. lia. }
        pose proof (PA a FA SA). pose proof (PA b FB (eq_sym H2)).
        assert (0 <= rnd (B2R a + B2R b))%R by (rewrite <- rnd_0; apply rnd_le; lra).
        rewrite Rabs_pos_eq in L by auto.
        rewrite Rabs_pos_eq in KB by lra. lra.
  - destruct a as [[]|[]| |[]]; try discriminate; apply (nolt B754_nan).
  - destruct b as [[]|[]| |[]]; try discriminate; apply (nolt B754_nan).
  - apply (nolt B754_nan).
Qed.
