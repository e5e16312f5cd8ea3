(** evalCubic and evalCubicIntegrated. *)
From Coq Require Import ZArith List Reals Lia Lra.
From Coquelicot Require Import Coquelicot.
From Verif Require Import Base BaseLemmas SumLemmas ProfileModel ProfileSpec PolyProofs CubicProofs.
Import ListNotations.
Open Scope R_scope.

Section Eval.
  Context (knots values : list R).
  Hypothesis Hlen : (4 <= length knots)%nat.
  Hypothesis Hval : length values = length knots.
  Hypothesis Hinc : increasing knots.

  Let n := vlen knots.
  Let xa := vat knots.
  Let ya := vat values.

  Lemma Hn4 : (4 <= n)%Z. Proof. unfold n, vlen. lia. Qed.
  Lemma Hincv i j : (0 <= i < j)%Z -> (j < n)%Z -> xa i < xa j.
  Proof. intros. unfold xa. apply inc_vat; auto. Qed.
  Lemma Hincv_le i j : (0 <= i <= j)%Z -> (j < n)%Z -> xa i <= xa j.
  Proof. intros. unfold xa. apply inc_vat_le; auto. Qed.

  Lemma guard : ((n <? 4)%Z || negb (n =? vlen values)%Z)%bool = false.
  Proof.
    pose proof Hn4. destruct (Z.ltb_spec n 4); [lia|].
    unfold n, vlen. rewrite Hval, Z.eqb_refl. reflexivity.
  Qed.

  Lemma range_guard x : xa 0%Z <= x <= xa (n - 1)%Z ->
    (rltb x (xa 0%Z) || rltb (xa (n - 1)%Z) x)%bool = false.
  Proof.
    intros H. rewrite (proj2 (rltb_false _ _)) by lra. rewrite (proj2 (rltb_false _ _)) by lra. reflexivity.
  Qed.

  (** The segment the search selects is the one containing [x]. *)
  Lemma search k x : (0 <= k <= n - 2)%Z -> xa k <= x <= xa (k + 1)%Z ->
    let j := cubicLowerIndex xa n x in j = k \/ (j = (k + 1)%Z /\ x = xa (k + 1)%Z /\ (k + 1 <= n - 2)%Z).
  Proof.
    intros Hk Hx. pose proof Hn4 as H4.
    assert (H0 : xa 0%Z <= x) by (pose proof (Hincv_le 0%Z k ltac:(lia) ltac:(lia)); lra).
    destruct (bisect_spec xa x n ltac:(lia) H0) as (B1 & B2 & B3). cbv zeta in *.
    set (j := cubicLowerIndex xa n x) in *.
    destruct (Z.eq_dec j k) as [E|N]; [left; exact E|right].
    destruct (Z_lt_ge_dec j k) as [L|G].
    - exfalso. destruct B3 as [B3|B3]; [|lia].
      pose proof (Hincv_le (j + 1)%Z k ltac:(lia) ltac:(lia)). lra.
    - pose proof (Hincv_le (k + 1)%Z j ltac:(lia) ltac:(lia)).
      assert (x = xa (k + 1)%Z) by lra.
      assert (j = k + 1)%Z.
      { destruct (Z.eq_dec j (k + 1)); [assumption|].
        pose proof (Hincv (k + 1)%Z j ltac:(lia) ltac:(lia)). lra. }
      repeat split; auto; lia.
  Qed.

  Lemma in_range k x : (0 <= k <= n - 2)%Z -> xa k <= x <= xa (k + 1)%Z -> xa 0%Z <= x <= xa (n - 1)%Z.
  Proof.
    intros Hk Hx. pose proof (Hincv_le 0%Z k ltac:(lia) ltac:(lia)).
    pose proof (Hincv_le (k + 1)%Z (n - 1)%Z ltac:(lia) ltac:(lia)). lra.
  Qed.

  Lemma evalCubic_seg k x : (0 <= k <= n - 2)%Z -> xa k <= x <= xa (k + 1)%Z ->
    evalCubic knots values x = cseg xa ya n k x.
  Proof.
    intros Hk Hx. unfold evalCubic. fold n xa ya. rewrite guard.
    rewrite range_guard by (eapply in_range; eauto).
    change (cseg xa ya n (cubicLowerIndex xa n x) x = cseg xa ya n k x).
    destruct (search k x Hk Hx) as [-> | (-> & -> & H)]; [reflexivity|].
    rewrite cseg_left, cseg_right; auto using Hincv; lia.
  Qed.

  Lemma find_segment x : xa 0%Z <= x <= xa (n - 1)%Z ->
    exists k, (0 <= k <= n - 2)%Z /\ xa k <= x <= xa (k + 1)%Z /\ k = cubicLowerIndex xa n x.
  Proof.
    intros H. pose proof Hn4. destruct (bisect_spec xa x n ltac:(lia) (proj1 H)) as (B1 & B2 & B3).
    eexists; split; [exact B1|]. split; [|reflexivity]. split; [exact B2|].
    destruct B3 as [B3|B3]; [lra|]. rewrite B3. replace (n - 2 + 1)%Z with (n - 1)%Z by lia. lra.
  Qed.

  Lemma cubic_interpolates : interpolates (evalCubic knots values) knots values.
  Proof.
    intros i Hi. pose proof Hn4.
    assert (Hz : (0 <= Z.of_nat i < n)%Z) by (unfold n, vlen; lia).
    change (nth i knots 0) with (nth i knots 0).
    assert (E : nth i knots 0 = xa (Z.of_nat i)) by (unfold xa, vat; rewrite Nat2Z.id; reflexivity).
    assert (E' : nth i values 0 = ya (Z.of_nat i)) by (unfold ya, vat; rewrite Nat2Z.id; reflexivity).
    rewrite E, E'. destruct (Z.eq_dec (Z.of_nat i) (n - 1)) as [L|L].
    - rewrite L. replace (n - 1)%Z with (n - 2 + 1)%Z by lia.
      rewrite (evalCubic_seg (n - 2)%Z); [|lia|].
      + apply cseg_right; auto using Hincv; lia.
      + pose proof (Hincv (n - 2)%Z (n - 2 + 1)%Z ltac:(lia) ltac:(lia)). lra.
    - rewrite (evalCubic_seg (Z.of_nat i)); [|lia|].
      + apply cseg_left; auto using Hincv; lia.
      + pose proof (Hincv (Z.of_nat i) (Z.of_nat i + 1)%Z ltac:(lia) ltac:(lia)). lra.
  Qed.

  Lemma cseg_continuous k x : (0 <= k <= n - 2)%Z -> continuous (cseg xa ya n k) x.
  Proof. intros. apply (ex_derive_continuous (cseg xa ya n k)). eexists. apply cseg_derive; eauto using Hincv. Qed.

  Lemma cubic_integral : integral_from (evalCubic knots values) (evalCubicIntegrated knots values)
    (nth 0 knots 0) (last knots 0).
  Proof.
    intros x Hx. pose proof Hn4 as H4.
    assert (EL : last knots 0 = xa (n - 1)%Z).
    { unfold xa, vat, n, vlen. clear -Hlen.
      replace (Z.to_nat (Z.of_nat (length knots) - 1)) with (length knots - 1)%nat by lia.
      destruct knots as [|a l] using rev_ind; [simpl in Hlen; lia|].
      rewrite last_last, app_length. simpl length. rewrite app_nth2 by lia.
      replace (length l + 1 - 1 - length l)%nat with O by lia. reflexivity. }
    rewrite EL in Hx. change (nth 0 knots 0) with (xa 0%Z) in *.
    destruct (find_segment x Hx) as (k & Hk & Hkx & Ek).
    unfold evalCubicIntegrated. fold n xa ya. rewrite guard, range_guard by exact Hx.
    cbv zeta. change (vat knots) with xa. rewrite <- Ek. match goal with |- is_RInt _ _ _ (?a + ?b) => rewrite (Rplus_comm a b) end.
    match goal with |- is_RInt _ _ _ (?p + ?q) =>
      replace p with (zsum 0 k (fun i => cint xa ya n i (xa (i + 1)%Z) - cint xa ya n i (xa i)));
      [change q with (cint xa ya n k x)|] end.
    2:{ rewrite (for_up_ext 0 k _ (fun i p => p + (cint xa ya n i (xa (i + 1)%Z) - cint xa ya n i (xa i)))).
        - enough (G : forall m, (0 <= m)%Z ->
            for_up 0 m (fun i p => p + (cint xa ya n i (xa (i + 1)%Z) - cint xa ya n i (xa i))) 0
            = zsum 0 m (fun i => cint xa ya n i (xa (i + 1)%Z) - cint xa ya n i (xa i))) by (rewrite G by lia; reflexivity).
          intros m Hm. apply (for_up_ind (fun m s => s = zsum 0 m (fun i => cint xa ya n i (xa (i + 1)%Z) - cint xa ya n i (xa i)))); [lia| |].
          + rewrite zsum_empty by lia. reflexivity.
          + intros j t Hj E. rewrite zsum_snoc by lia. rewrite <- E. reflexivity.
        - intros j t Hj. rewrite (cint_left xa ya n Hincv) by lia.
          rewrite (cint_right xa ya n Hincv) by lia. cbv zeta. ring. }
    match goal with |- is_RInt ?f ?p ?q (?a + ?b) =>
      apply (is_RInt_Chasles (V := R_NormedModule) f p (xa k) q a b) end.
    - apply (pieces_RInt _ xa (cseg xa ya n) (cint xa ya n) k); [lia| | | |].
      + intros. apply Hincv_le; lia.
      + intros. apply cint_derive; auto using Hincv; lia.
      + intros. apply cseg_continuous; lia.
      + intros i y Hi Hy. apply evalCubic_seg; [lia|lra].
    - replace (cint xa ya n k x) with (minus (cint xa ya n k x) (cint xa ya n k (xa k))).
      2:{ rewrite (cint_left xa ya n Hincv) by lia. unfold minus, plus, opp; simpl. ring. }
      apply (is_RInt_ext (cseg xa ya n k)).
      + intros y Hy. rewrite Rmin_left, Rmax_right in Hy by lra. symmetry. apply evalCubic_seg; [lia|lra].
      + apply (is_RInt_derive (cint xa ya n k) (cseg xa ya n k)).
        * intros; apply cint_derive; auto using Hincv; lia.
        * intros; apply cseg_continuous; lia.
  Qed.

  (** coefficients of the segment as a polynomial in x *)
  Definition cpoly (k : Z) : R * R * R * R :=
    let h := xa (k + 1)%Z - xa k in
    let p := xa (k + 1)%Z in let q := xa k in
    let A := cubic_y2 xa ya n k in let B := cubic_y2 xa ya n (k + 1)%Z in
    (p * ya k / h - q * ya (k + 1)%Z / h + A * (p ^ 3 / h - p * h) / 6 - B * (q ^ 3 / h - q * h) / 6,
     (ya (k + 1)%Z - ya k) / h + A * (- 3 * p ^ 2 / h + h) / 6 + B * (3 * q ^ 2 / h - h) / 6,
     (A * p - B * q) / (2 * h),
     (B - A) / (6 * h)).

  Lemma cubic_C2 : cubic_pieces (evalCubic knots values) knots 2.
  Proof.
    pose proof Hn4 as H4. constructor. exists (fun i => cpoly (Z.of_nat i)). cbv zeta.
    assert (EX : forall i, nth i knots 0 = xa (Z.of_nat i)) by (intros; unfold xa, vat; rewrite Nat2Z.id; reflexivity).
    assert (D1 : forall i x, (0 <= i <= n - 2)%Z ->
      (let '(a, b, c, d) := cpoly i in b + 2 * c * x + 3 * d * x ^ 2) = cseg1 xa ya n i x).
    { intros i x Hi. pose proof (Hincv i (i + 1)%Z ltac:(lia) ltac:(lia)) as HH.
      unfold cpoly, cseg1. cbv zeta. field. lra. }
    repeat split.
    - intros i x Hi Hx. rewrite !EX in Hx. rewrite Nat2Z.inj_succ in Hx. unfold Z.succ in Hx.
      assert (Hi2 : (0 <= Z.of_nat i <= n - 2)%Z) by (unfold n, vlen; lia).
      rewrite (evalCubic_seg (Z.of_nat i)) by (lia || lra).
      pose proof (Hincv (Z.of_nat i) (Z.of_nat i + 1)%Z ltac:(lia) ltac:(lia)) as HH.
      unfold cpoly, cseg. cbv zeta. field. lra.
    - intros i Hi. assert (Hi2 : (0 <= Z.of_nat i <= n - 3)%Z) by (unfold n, vlen; lia).
      rewrite EX. rewrite !D1 by lia. rewrite Nat2Z.inj_succ. unfold Z.succ. apply cseg1_join; auto using Hincv.
    - intros _ i Hi. assert (Hi2 : (0 <= Z.of_nat i <= n - 3)%Z) by (unfold n, vlen; lia).
      rewrite EX. rewrite !Nat2Z.inj_succ. unfold Z.succ.
      pose proof (Hincv (Z.of_nat i) (Z.of_nat i + 1)%Z ltac:(lia) ltac:(lia)) as HH.
      pose proof (Hincv (Z.of_nat i + 1)%Z (Z.of_nat i + 1 + 1)%Z ltac:(lia) ltac:(lia)) as HH2.
      unfold cpoly. cbv zeta. field. lra.
  Qed.

  (** Data on a parabola. *)
  Lemma cubic_parabola a b c :
    (forall i, (i < length knots)%nat -> nth i values 0 = a + b * nth i knots 0 + c * (nth i knots 0) ^ 2) ->
    forall x, nth 0 knots 0 <= x <= last knots 0 -> evalCubic knots values x = a + b * x + c * x ^ 2.
  Proof.
    intros HP x Hx. pose proof Hn4 as H4.
    assert (EL : last knots 0 = xa (n - 1)%Z).
    { unfold xa, vat, n, vlen. clear -Hlen.
      replace (Z.to_nat (Z.of_nat (length knots) - 1)) with (length knots - 1)%nat by lia.
      destruct knots as [|e l] using rev_ind; [simpl in Hlen; lia|].
      rewrite last_last, app_length. simpl length. rewrite app_nth2 by lia.
      replace (length l + 1 - 1 - length l)%nat with O by lia. reflexivity. }
    rewrite EL in Hx. change (nth 0 knots 0) with (xa 0%Z) in Hx.
    assert (HY : forall i, (0 <= i < n)%Z -> ya i = a + b * xa i + c * (xa i) ^ 2).
    { intros i Hi. unfold ya, xa, vat. apply HP. unfold n, vlen in Hi. lia. }
    assert (X : forall i j, (0 <= i < j)%Z -> (j < n)%Z -> xa j - xa i <> 0).
    { intros i j H1 H2. pose proof (Hincv i j H1 H2). lra. }
    assert (X' : forall i j, (0 <= i < j)%Z -> (j < n)%Z -> xa i - xa j <> 0).
    { intros i j H1 H2. pose proof (Hincv i j H1 H2). lra. }
    assert (Y2 : forall i, (0 <= i <= n - 1)%Z -> cubic_y2 xa ya n i = 2 * c).
    { apply (y2_const xa ya n Hn4 Hincv (2 * c)).
      - unfold cubic_yp1. rewrite !HY by lia. field.
        repeat split; apply X; lia.
      - intros i Hi. rewrite !HY by lia. field.
        repeat split; apply X; lia.
      - unfold cubic_ypn. rewrite !HY by lia. field.
        repeat split; first [apply X; lia | apply X'; lia]. }
    destruct (find_segment x Hx) as (k & Hk & Hkx & _).
    rewrite (evalCubic_seg k) by assumption. unfold cseg. rewrite !Y2 by lia. rewrite !HY by lia.
    field. apply X; lia.
  Qed.
End Eval.
