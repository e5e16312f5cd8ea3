(** The Akima spline: closed forms of the construction, evaluation, integration,
    mirror symmetry, straight lines. *)
From Coq Require Import ZArith List Reals Lia Lra Bool.
From Coquelicot Require Import Coquelicot.
From Verif Require Import Base BaseLemmas SumLemmas ProfileModel ProfileSpec PolyProofs CubicProofs CubicEval.
Import ListNotations.
Open Scope R_scope.

Lemma fill_at {A} (v : Z -> A) lo hi (f : Z -> A) i :
  for_up lo hi (fun j g => upd g j (v j)) f i
  = if (lo <=? i)%Z && (i <? hi)%Z then v i else f i.
Proof.
  destruct (for_up_fill (fun j => j) v lo hi f (fun a b _ _ E => E)) as (A1 & A2). cbv zeta in *.
  destruct (Z.leb_spec lo i), (Z.ltb_spec i hi); cbn; try (apply A1; lia); apply A2; intros; lia.
Qed.

Section Akima.
  Context (xx yy : list R).
  Let iv := vlen xx.
  Hypothesis Hiv : (4 <= iv)%Z.
  Hypothesis Hyy : vlen yy = iv.

  (** extended knots *)
  Definition V_ (f : Z) : R := vat xx (f - 1).
  Definition X_ (f : Z) : R :=
    if (f =? -1)%Z then 2 * V_ 1 - V_ 3
    else if (f =? 0)%Z then V_ 1 + V_ 2 - V_ 3
    else if (f =? iv + 1)%Z then V_ iv + V_ (iv - 1) - V_ (iv - 2)
    else if (f =? iv + 2)%Z then 2 * V_ iv - V_ (iv - 2)
    else V_ f.

  Lemma aX_at f : (-1 <= f <= iv + 2)%Z -> aX xx f = X_ f.
  Proof.
    intros Hf. unfold aX, X_. fold iv.
    set (X0 := for_up 1 (iv + 1) _ _).
    assert (E : forall i, (1 <= i <= iv)%Z -> X0 i = V_ i).
    { intros i Hi. unfold X0. rewrite (fill_at (fun i => vat xx (i - 1))).
      destruct (Z.leb_spec 1 i), (Z.ltb_spec i (iv + 1)); cbn; try lia; reflexivity. }
    cbv zeta. unfold upd.
    repeat match goal with |- context [(?a =? ?b)%Z] => destruct (Z.eqb_spec a b); try lia end;
    rewrite ?E by lia; try reflexivity.
  Qed.

  Definition W_ (f : Z) : R := vat yy (f - 1).
  Definition Xs (f : Z) : R := X_ (f + 1)%Z - X_ f.
  Definition m_ (f : Z) : R := (W_ (f + 1) - W_ f) / (V_ (f + 1) - V_ f).

  (** extended values: parabolas at both ends *)
  Definition cl_ := (m_ 2 - m_ 1) / (V_ 3 - V_ 1).
  Definition bl_ := m_ 1 - cl_ * (V_ 2 - V_ 1).
  Definition cr_ := (m_ (iv - 1) - m_ (iv - 2)) / (V_ iv - V_ (iv - 2)).
  Definition br_ := m_ (iv - 1) - cr_ * (V_ (iv - 1) - V_ iv).
  Definition Y_ (f : Z) : R :=
    if (f <? 1)%Z then W_ 1 + bl_ * (X_ f - V_ 1) + cl_ * (X_ f - V_ 1) ^ 2
    else if (iv <? f)%Z then W_ iv + br_ * (X_ f - V_ iv) + cr_ * (X_ f - V_ iv) ^ 2
    else W_ f.
  Definition M_ (f : Z) : R := (Y_ (f + 1) - Y_ f) / (X_ (f + 1) - X_ f).
  Definition DM_ (f : Z) : R := Rabs (M_ (f + 1) - M_ f).
  Definition T_ (i : Z) : R :=
    if Req_EM_T (DM_ i + DM_ (i - 2)) 0 then 1 / 2 * M_ (i - 1) + 1 / 2 * M_ i
    else (DM_ i * M_ (i - 1) + DM_ (i - 2) * M_ i) / (DM_ i + DM_ (i - 2)).

  Lemma X_in f : (1 <= f <= iv)%Z -> X_ f = V_ f.
  Proof.
    intros. unfold X_.
    repeat match goal with |- context [(?a =? ?b)%Z] => destruct (Z.eqb_spec a b); try lia end. reflexivity.
  Qed.
  Lemma Y_in f : (1 <= f <= iv)%Z -> Y_ f = W_ f.
  Proof.
    intros. unfold Y_. destruct (Z.ltb_spec f 1); [lia|]. destruct (Z.ltb_spec iv f); [lia|]. reflexivity.
  Qed.
  Lemma M_in f : (1 <= f <= iv - 1)%Z -> M_ f = m_ f.
  Proof. intros. unfold M_, m_. rewrite !X_in, !Y_in by lia. reflexivity. Qed.

  Lemma aY0_at f : (-1 <= f <= iv + 2)%Z ->
    aY0 yy iv f = if (1 <=? f)%Z && (f <=? iv)%Z then W_ f else 0.
  Proof.
    intros Hf. unfold aY0. rewrite (fill_at (fun i => vat yy (i - 1))).
    destruct (Z.leb_spec 1 f), (Z.ltb_spec f (iv + 1)), (Z.leb_spec f iv); cbn; try lia; reflexivity.
  Qed.

  Let X := aX xx.
  Let Y0 := aY0 yy iv.
  Let M0 := aM0 X Y0 iv.
  Let Y := aY X Y0 M0 iv.
  Let M := aM X Y M0 iv.
  Let DM := aDM M iv.
  Let PQ := aPQ DM iv.

  Lemma Y0_in f : (1 <= f <= iv)%Z -> Y0 f = W_ f.
  Proof.
    intros. unfold Y0. rewrite aY0_at by lia.
    destruct (Z.leb_spec 1 f), (Z.leb_spec f iv); cbn; try lia; reflexivity.
  Qed.

  Lemma M0_at f : (-1 <= f <= iv + 1)%Z -> M0 f = (Y0 (f + 1)%Z - Y0 f) / (X (f + 1)%Z - X f).
  Proof.
    intros. unfold M0, aM0. rewrite (fill_at (fun f => (Y0 (f + 1)%Z - Y0 f) / (X (f + 1)%Z - X f))).
    destruct (Z.leb_spec (-1) f), (Z.ltb_spec f (iv + 2)); cbn [andb]; try lia; reflexivity.
  Qed.
  Lemma M0_in f : (1 <= f <= iv - 1)%Z -> M0 f = m_ f.
  Proof.
    intros. rewrite M0_at by lia. unfold X. rewrite !aX_at by lia. rewrite !X_in by lia.
    rewrite !Y0_in by lia. reflexivity.
  Qed.

  Lemma Y_at f : (-1 <= f <= iv + 2)%Z -> Y f = Y_ f.
  Proof.
    intros Hf. unfold Y, aY. cbv zeta. unfold X. rewrite !aX_at by lia.
    rewrite !M0_in by lia. rewrite (X_in 1), (X_in 2), (X_in 3), (X_in iv), (X_in (iv - 1)), (X_in (iv - 2)) by lia.
    fold cl_ cr_. fold bl_ br_. unfold Y_, upd.
    repeat match goal with |- context [(?a =? ?b)%Z] => destruct (Z.eqb_spec a b); try lia end;
    repeat match goal with |- context [(?a <? ?b)%Z] => destruct (Z.ltb_spec a b); try lia end;
    try (subst f; rewrite ?Y0_in by lia; reflexivity); apply Y0_in; lia.
  Qed.

  Lemma M_at f : (-1 <= f <= iv + 1)%Z -> M f = M_ f.
  Proof.
    intros Hf. unfold M, aM, upd.
    repeat match goal with |- context [(?a =? ?b)%Z] => destruct (Z.eqb_spec a b); try lia end;
    try (subst f; unfold M_, X; rewrite !Y_at, !aX_at by lia; reflexivity).
    rewrite M0_in, M_in by lia. reflexivity.
  Qed.

  Lemma DM_at f : (-1 <= f <= iv)%Z -> DM f = DM_ f.
  Proof.
    intros. unfold DM, aDM. rewrite (fill_at (fun f => Rabs (M (f + 1)%Z - M f))).
    destruct (Z.leb_spec (-1) f), (Z.ltb_spec f (iv + 1)); cbn [andb]; try lia.
    unfold DM_. rewrite !M_at by lia. reflexivity.
  Qed.

  Lemma PQ_at i : (1 <= i <= iv)%Z ->
    (fst PQ i, snd PQ i) = if Req_EM_T (DM_ i + DM_ (i - 2)) 0 then (0, 0)
                 else (DM_ i / (DM_ i + DM_ (i - 2)), DM_ (i - 2) / (DM_ i + DM_ (i - 2))).
  Proof.
    intros Hi. unfold PQ, aPQ.
    match goal with |- context [for_up 1 (iv + 1) ?b ?s] => set (body := b); set (s0 := s) end.
    assert (P : forall m, (1 <= m <= iv + 1)%Z -> let r := for_up 1 m body s0 in
      (forall i, (1 <= i < m)%Z -> (fst r i, snd r i) =
          if Req_EM_T (DM_ i + DM_ (i - 2)) 0 then (0, 0)
          else (DM_ i / (DM_ i + DM_ (i - 2)), DM_ (i - 2) / (DM_ i + DM_ (i - 2)))) /\
      (forall i, (m <= i)%Z -> (fst r i, snd r i) = (0, 0))).
    { intros m Hm. cbv zeta. apply (for_up_ind (fun m r =>
      (forall i, (1 <= i < m)%Z -> (fst r i, snd r i) =
          if Req_EM_T (DM_ i + DM_ (i - 2)) 0 then (0, 0)
          else (DM_ i / (DM_ i + DM_ (i - 2)), DM_ (i - 2) / (DM_ i + DM_ (i - 2)))) /\
      (forall i, (m <= i)%Z -> (fst r i, snd r i) = (0, 0)))); [lia| |].
      - split; intros; [lia|reflexivity].
      - intros j t Hj (A & B). unfold body. rewrite !DM_at by lia.
        destruct (Req_EM_T (DM_ j + DM_ (j - 2)) 0) as [E|E].
        + split.
          * intros k Hk. destruct (Z.eq_dec k j) as [-> | N]; [|apply A; lia].
            rewrite B by lia. destruct (Req_EM_T (DM_ j + DM_ (j - 2)) 0); [reflexivity|contradiction].
          * intros k Hk. apply B. lia.
        + cbn [fst snd]. split.
          * intros k Hk. destruct (Z.eq_dec k j) as [-> | N].
            -- rewrite !upd_eq. destruct (Req_EM_T (DM_ j + DM_ (j - 2)) 0); [contradiction|reflexivity].
            -- rewrite !upd_neq by lia. apply A. lia.
          * intros k Hk. rewrite !upd_neq by lia. apply B. lia. }
    destruct (P (iv + 1)%Z ltac:(lia)) as (A & _). apply A. lia.
  Qed.

  Context (tiny : R).
  Hypothesis Htiny : 0 < tiny <= 1.

  Lemma T_at i : (1 <= i <= iv)%Z -> aT tiny M (fst PQ) (snd PQ) iv i = T_ i.
  Proof.
    intros Hi. unfold aT.
    match goal with |- for_up 1 (iv + 1) ?b ?s _ = _ => set (body := b); set (s0 := s) end.
    assert (P : forall m, (1 <= m <= iv + 1)%Z ->
      forall i, (1 <= i < m)%Z -> for_up 1 m body s0 i = T_ i).
    { intros m Hm. apply (for_up_ind (fun m r => forall i, (1 <= i < m)%Z -> r i = T_ i)); [lia| |].
      - intros; lia.
      - intros j t Hj A k Hk. unfold body.
        pose proof (PQ_at j ltac:(lia)) as E. unfold T_ in *.
        destruct (Z.eq_dec k j) as [-> | N].
        + destruct (Req_EM_T (DM_ j + DM_ (j - 2)) 0) as [Z0|Z0].
          * assert (E1 : fst PQ j = 0) by congruence. assert (E2 : snd PQ j = 0) by congruence.
            rewrite E1, E2. rewrite (proj2 (rltb_true _ _)) by lra.
            rewrite upd_eq. rewrite !M_at by lia. reflexivity.
          * assert (E1 : fst PQ j = DM_ j / (DM_ j + DM_ (j - 2))) by congruence.
            assert (E2 : snd PQ j = DM_ (j - 2) / (DM_ j + DM_ (j - 2))) by congruence.
            rewrite E1, E2. rewrite (proj2 (rltb_false _ _)).
            -- rewrite upd_eq. rewrite !M_at by lia. field. exact Z0.
            -- replace (DM_ j / (DM_ j + DM_ (j - 2)) + DM_ (j - 2) / (DM_ j + DM_ (j - 2))) with 1 by (field; exact Z0).
               lra.
        + destruct (rltb (fst PQ j + snd PQ j) tiny); rewrite !upd_neq by lia; apply A; lia. }
    apply (P (iv + 1)%Z); lia.
  Qed.

  Definition C_ i := (3 * M_ i - T_ (i + 1) - 2 * T_ i) / (X_ (i + 1) - X_ i).
  Definition D_ i := (T_ (i + 1) + T_ i - 2 * M_ i) / ((X_ (i + 1) - X_ i) * (X_ (i + 1) - X_ i)).

  Lemma build_at : let k := buildAkima tiny xx yy in
    ak_iv k = iv /\ (forall i, (1 <= i <= iv)%Z -> ak_X k i = V_ i /\ ak_A k i = W_ i) /\
    (forall i, (1 <= i <= iv - 1)%Z -> ak_B k i = T_ i /\ ak_C k i = C_ i /\ ak_D k i = D_ i).
  Proof.
    cbv zeta. unfold buildAkima. cbn [ak_iv ak_X ak_A ak_B ak_C ak_D].
    change (vlen xx) with iv. change (aX xx) with X. change (aY0 yy iv) with Y0.
    change (aM0 X Y0 iv) with M0. change (aY X Y0 M0 iv) with Y. change (aM X Y M0 iv) with M.
    change (aDM M iv) with DM. change (aPQ DM iv) with PQ.
    split; [reflexivity|]. split.
    - intros i Hi. split.
      + unfold X. rewrite aX_at, X_in by lia. reflexivity.
      + rewrite Y_at, Y_in by lia. reflexivity.
    - intros i Hi. split; [apply T_at; lia|].
      unfold aC, aD.
      rewrite (fill_at (fun i => (3 * M i - aT tiny M (fst PQ) (snd PQ) iv (i + 1)%Z
                 - 2 * aT tiny M (fst PQ) (snd PQ) iv i) / (X (i + 1)%Z - X i))).
      rewrite (fill_at (fun i => (aT tiny M (fst PQ) (snd PQ) iv (i + 1)%Z
                 + aT tiny M (fst PQ) (snd PQ) iv i - 2 * M i) / ((X (i + 1)%Z - X i) * (X (i + 1)%Z - X i)))).
      destruct (Z.leb_spec 1 i), (Z.ltb_spec i iv); cbn [andb]; try lia.
      rewrite !T_at, M_at by lia. unfold X. rewrite !aX_at by lia. split; reflexivity.
  Qed.
End Akima.
