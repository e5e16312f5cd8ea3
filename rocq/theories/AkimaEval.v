(** evalAkima and evalAkimaIntegrated. *)
From Coq Require Import ZArith List Reals Lia Lra Bool.
From Coquelicot Require Import Coquelicot.
From Verif Require Import Base BaseLemmas SumLemmas ProfileModel ProfileSpec PolyProofs CubicProofs CubicEval AkimaProofs.
Import ListNotations.
Open Scope R_scope.

Lemma find_first (P : Z -> bool) lo hi k : (lo <= k < hi)%Z -> P k = true ->
  (forall j, (lo <= j < k)%Z -> P j = false) -> first_interval P lo hi = Some k.
Proof.
  intros Hk HP HN. unfold first_interval.
  rewrite (zrange_app lo k hi) by lia. rewrite (zrange_cons k hi) by lia.
  assert (E : find P (zrange lo k) = None).
  { destruct (find P (zrange lo k)) eqn:F; [|reflexivity].
    apply find_some in F. destruct F as (F1 & F2). apply zrange_In in F1.
    rewrite HN in F2 by lia. discriminate. }
  revert E. generalize (zrange lo k). intros l. induction l as [|a l IH]; cbn.
  - rewrite HP. reflexivity.
  - destruct (P a); [discriminate|]. exact IH.
Qed.

Lemma for_up_sum (g : Z -> R) lo hi s : (lo <= hi)%Z ->
  for_up lo hi (fun i y => y + g i) s = s + zsum lo hi g.
Proof.
  intros H. apply (for_up_ind (fun m r => r = s + zsum lo m g)); [assumption| |].
  - rewrite zsum_empty by lia. ring.
  - intros j t Hj ->. rewrite zsum_snoc by lia. ring.
Qed.

Section Eval.
  Context (knots values : list R) (tiny : R).
  Hypothesis Hlen : (4 <= length knots)%nat.
  Hypothesis Hval : length values = length knots.
  Hypothesis Hinc : increasing knots.
  Hypothesis Htiny : 0 < tiny <= 1.

  Let n := vlen knots.
  Let V := V_ knots.
  Let W := W_ values.
  Let T := T_ knots values.
  Let C := C_ knots values.
  Let D := D_ knots values.

  Lemma Hn4a : (4 <= n)%Z. Proof. unfold n, vlen. lia. Qed.
  Lemma Hlv : vlen values = n. Proof. unfold n, vlen. lia. Qed.
  Lemma Vinc i j : (1 <= i < j)%Z -> (j <= n)%Z -> V i < V j.
  Proof. intros. unfold V, V_. apply inc_vat; auto; unfold n in *; lia. Qed.
  Lemma Vinc_le i j : (1 <= i <= j)%Z -> (j <= n)%Z -> V i <= V j.
  Proof. intros. unfold V, V_. apply inc_vat_le; auto; unfold n in *; lia. Qed.

  Lemma aguard : ((n <? 4)%Z || negb (n =? vlen values)%Z)%bool = false.
  Proof.
    pose proof Hn4a. destruct (Z.ltb_spec n 4); [lia|]. rewrite Hlv, Z.eqb_refl. reflexivity.
  Qed.

  Definition hseg (i : Z) (x : R) : R :=
    let dx := x - V i in W i + dx * (T i + dx * (C i + D i * dx)).
  Definition hseg1 (i : Z) (x : R) : R :=
    let dx := x - V i in T i + 2 * C i * dx + 3 * D i * dx * dx.
  Definition hint (i : Z) (x : R) : R :=
    let dx := x - V i in dx * (W i + dx * (1 / 2 * T i + dx * (1 / 3 * C i + 1 / 4 * D i * dx))).

  Lemma Vpos i : (1 <= i <= n - 1)%Z -> 0 < V (i + 1)%Z - V i.
  Proof. intros. pose proof (Vinc i (i + 1)%Z ltac:(lia) ltac:(lia)). lra. Qed.

  Lemma CD_at i : (1 <= i <= n - 1)%Z ->
    C i = (3 * ((W (i + 1)%Z - W i) / (V (i + 1)%Z - V i)) - T (i + 1)%Z - 2 * T i) / (V (i + 1)%Z - V i) /\
    D i = (T (i + 1)%Z + T i - 2 * ((W (i + 1)%Z - W i) / (V (i + 1)%Z - V i)))
          / ((V (i + 1)%Z - V i) * (V (i + 1)%Z - V i)).
  Proof.
    intros Hi. pose proof Hn4a as H4. unfold C, D, C_, D_.
    rewrite (M_in knots values i Hi). rewrite !(X_in knots) by (fold n; lia).
    split; reflexivity.
  Qed.

  Lemma hseg_left i : hseg i (V i) = W i.
  Proof. unfold hseg. ring. Qed.
  Lemma hseg_right i : (1 <= i <= n - 1)%Z -> hseg i (V (i + 1)%Z) = W (i + 1)%Z.
  Proof.
    intros Hi. pose proof (Vpos i Hi). destruct (CD_at i Hi) as (EC & ED).
    unfold hseg. rewrite EC, ED. field. lra.
  Qed.
  Lemma hseg1_left i : hseg1 i (V i) = T i.
  Proof. unfold hseg1. ring. Qed.
  Lemma hseg1_right i : (1 <= i <= n - 1)%Z -> hseg1 i (V (i + 1)%Z) = T (i + 1)%Z.
  Proof.
    intros Hi. pose proof (Vpos i Hi). destruct (CD_at i Hi) as (EC & ED).
    unfold hseg1. rewrite EC, ED. field. lra.
  Qed.
  Lemma hint_derive i x : is_derive (hint i) x (hseg i x).
  Proof. unfold hint. auto_derive; [exact I|]. unfold hseg. field. Qed.
  Lemma hseg_derive i x : is_derive (hseg i) x (hseg1 i x).
  Proof. unfold hseg. auto_derive; [exact I|]. unfold hseg1. ring. Qed.
  Lemma hint_left i : hint i (V i) = 0.
  Proof. unfold hint. ring. Qed.

  Lemma evalAkima_seg i x : (1 <= i <= n - 1)%Z -> V i <= x <= V (i + 1)%Z ->
    evalAkima tiny knots values x = hseg i x.
  Proof.
    intros Hi Hx. pose proof Hn4a as H4. unfold evalAkima. fold n. rewrite aguard.
    destruct (build_at knots values Hn4a tiny Htiny) as (E1 & E2 & E3). cbv zeta in *.
    set (k := buildAkima tiny knots values) in *. change (vlen knots) with n in E1, E2, E3. rewrite E1.
    pose proof (Vinc_le 1%Z i ltac:(lia) ltac:(lia)) as L1.
    pose proof (Vinc_le (i + 1)%Z n ltac:(lia) ltac:(lia)) as L2.
    rewrite (proj1 (E2 1%Z ltac:(lia))), (proj1 (E2 n ltac:(lia))). fold V.
    rewrite (proj2 (rltb_false _ _)) by (fold V; lra). rewrite (proj2 (rltb_false _ _)) by (fold V; lra). cbn [orb].
    unfold reqb. destruct (Req_EM_T x (V n)) as [Exn|Exn].
    - assert (i + 1 = n)%Z.
      { destruct (Z.eq_dec (i + 1) n); [assumption|].
        pose proof (Vinc (i + 1)%Z n ltac:(lia) ltac:(lia)). lra. }
      rewrite Exn. replace n with (i + 1)%Z by lia. rewrite hseg_right by lia. unfold W, W_.
      f_equal.
    - assert (exists j, (1 <= j <= n - 1)%Z /\ V j <= x < V (j + 1)%Z /\ hseg j x = hseg i x) as (j & Hj & Hjx & Ej).
      { destruct (Req_EM_T x (V (i + 1)%Z)) as [Ee|Ee].
        - assert (i + 1 <= n - 1)%Z.
          { destruct (Z.eq_dec (i + 1) n) as [Q|Q]; [|lia]. rewrite Q in Ee. contradiction. }
          exists (i + 1)%Z. pose proof (Vpos (i + 1)%Z ltac:(lia)).
          repeat split; try lia; try lra. rewrite Ee, hseg_left, hseg_right by lia. reflexivity.
        - exists i. repeat split; try lia; try lra. }
      rewrite (find_first _ 1 n j).
      + rewrite <- Ej. destruct (E2 j ltac:(lia)) as (-> & ->). destruct (E3 j ltac:(lia)) as (-> & -> & ->).
        reflexivity.
      + lia.
      + rewrite (proj1 (E2 j ltac:(lia))), (proj1 (E2 (j + 1)%Z ltac:(lia))). fold V.
        rewrite (proj2 (rleb_true _ _)) by lra. rewrite (proj2 (rltb_true _ _)) by lra. reflexivity.
      + intros l Hl. rewrite (proj1 (E2 l ltac:(lia))), (proj1 (E2 (l + 1)%Z ltac:(lia))). fold V.
        pose proof (Vinc_le (l + 1)%Z j ltac:(lia) ltac:(lia)).
        rewrite (proj2 (rltb_false _ _)) by (unfold V in *; lra). apply andb_false_r.
  Qed.

  Lemma nth_V i : nth i knots 0 = V (Z.of_nat i + 1)%Z.
  Proof. unfold V, V_, vat. replace (Z.to_nat (Z.of_nat i + 1 - 1)) with i by lia. reflexivity. Qed.
  Lemma nth_W i : nth i values 0 = W (Z.of_nat i + 1)%Z.
  Proof. unfold W, W_, vat. replace (Z.to_nat (Z.of_nat i + 1 - 1)) with i by lia. reflexivity. Qed.

  Lemma akima_interpolates : interpolates (evalAkima tiny knots values) knots values.
  Proof.
    intros i Hi. pose proof Hn4a. rewrite nth_V, nth_W.
    assert (Hz : (0 <= Z.of_nat i < n)%Z) by (unfold n, vlen; lia).
    destruct (Z.eq_dec (Z.of_nat i) (n - 1)) as [L|L].
    - rewrite L. replace (n - 1 + 1)%Z with n by lia.
      rewrite (evalAkima_seg (n - 1)%Z); [|lia|].
      + pose proof (hseg_right (n - 1)%Z ltac:(lia)) as E. replace (n - 1 + 1)%Z with n in E by lia. exact E.
      + replace (n - 1 + 1)%Z with n by lia. pose proof (Vinc (n - 1)%Z n ltac:(lia) ltac:(lia)). lra.
    - rewrite (evalAkima_seg (Z.of_nat i + 1)%Z); [|lia|].
      + apply hseg_left.
      + pose proof (Vpos (Z.of_nat i + 1)%Z ltac:(lia)). lra.
  Qed.

  Definition hpoly (i : Z) : R * R * R * R :=
    let v := V i in
    (W i - v * T i + v ^ 2 * C i - v ^ 3 * D i,
     T i - 2 * v * C i + 3 * v ^ 2 * D i, C i - 3 * v * D i, D i).

  Lemma akima_C1 : cubic_pieces (evalAkima tiny knots values) knots 1.
  Proof.
    pose proof Hn4a as H4. constructor. exists (fun i => hpoly (Z.of_nat i + 1)). cbv zeta.
    assert (D1 : forall i x, (let '(a, b, c, d) := hpoly i in b + 2 * c * x + 3 * d * x ^ 2) = hseg1 i x).
    { intros. unfold hpoly, hseg1. cbv zeta. ring. }
    repeat split.
    - intros i x Hi Hx. rewrite !nth_V in Hx. rewrite Nat2Z.inj_succ in Hx. unfold Z.succ in Hx.
      rewrite (evalAkima_seg (Z.of_nat i + 1)%Z); [|unfold n, vlen; lia|exact Hx].
      unfold hpoly, hseg. cbv zeta. ring.
    - intros i Hi. rewrite nth_V, !D1, Nat2Z.inj_succ. unfold Z.succ.
      rewrite hseg1_left. apply hseg1_right. unfold n, vlen. lia.
    - lia.
  Qed.

  Lemma last_V : last knots 0 = V n.
  Proof.
    unfold V, V_, vat, n, vlen. clear -Hlen.
    replace (Z.to_nat (Z.of_nat (length knots) - 1)) with (length knots - 1)%nat by lia.
    destruct knots as [|a l] using rev_ind; [simpl in Hlen; lia|].
    rewrite last_last, app_length. simpl length. rewrite app_nth2 by lia.
    replace (length l + 1 - 1 - length l)%nat with O by lia. reflexivity.
  Qed.

  Lemma hseg_continuous i x : continuous (hseg i) x.
  Proof. apply (ex_derive_continuous (hseg i)). eexists. apply hseg_derive. Qed.

  Lemma akima_prefix k : (1 <= k <= n)%Z ->
    is_RInt (evalAkima tiny knots values) (V 1) (V k) (zsum 1 k (fun i => hint i (V (i + 1)%Z))).
  Proof.
    intros Hk.
    pose proof (pieces_RInt (evalAkima tiny knots values) (fun j => V (j + 1)%Z)
      (fun j => hseg (j + 1)) (fun j => hint (j + 1)) (k - 1)) as P.
    cbn beta in P. replace (k - 1 + 1)%Z with k in P by lia. cbn [Z.add] in P.
    replace (zsum 1 k (fun i => hint i (V (i + 1)%Z)))
      with (zsum 0 (k - 1) (fun i => hint (i + 1) (V (i + 1 + 1)%Z) - hint (i + 1) (V (i + 1)%Z))).
    - apply P; [lia| | | |].
      + intros. apply Vinc_le; lia.
      + intros. apply hint_derive.
      + intros. apply hseg_continuous.
      + intros i x Hi Hx. apply evalAkima_seg; [lia|lra].
    - replace k with (k - 1 + 1)%Z at 2 by lia. rewrite (zsum_shift 0 (k - 1) 1).
      apply zsum_ext. intros. rewrite hint_left. ring.
  Qed.

  Lemma akimaInterval_at i : (1 <= i <= n - 1)%Z ->
    akimaInterval (buildAkima tiny knots values) i = hint i (V (i + 1)%Z).
  Proof.
    intros Hi. pose proof Hn4a as H4.
    destruct (build_at knots values Hn4a tiny Htiny) as (E1 & E2 & E3). cbv zeta in *.
    unfold akimaInterval.
    destruct (E2 i ltac:(fold n; lia)) as (-> & ->). destruct (E2 (i + 1)%Z ltac:(fold n; lia)) as (-> & _).
    destruct (E3 i ltac:(fold n; lia)) as (-> & -> & ->).
    unfold hint. unfold V, W, T, C, D. field.
  Qed.

  Lemma akima_integral : integral_from (evalAkima tiny knots values) (evalAkimaIntegrated tiny knots values)
    (nth 0 knots 0) (last knots 0).
  Proof.
    intros x Hx. pose proof Hn4a as H4. rewrite last_V in Hx. rewrite nth_V in *. cbn [Z.of_nat Z.add] in *.
    assert (S : forall k, (1 <= k <= n)%Z ->
      for_up 1 k (fun i y => y + akimaInterval (buildAkima tiny knots values) i) 0
      = zsum 1 k (fun i => hint i (V (i + 1)%Z))).
    { intros k Hk. rewrite for_up_sum by lia. rewrite Rplus_0_l. apply zsum_ext.
      intros. apply akimaInterval_at. lia. }
    unfold evalAkimaIntegrated. fold n. rewrite aguard.
    destruct (build_at knots values Hn4a tiny Htiny) as (E1 & E2 & E3). cbv zeta in *.
    set (k := buildAkima tiny knots values) in *. change (vlen knots) with n in E1, E2, E3. rewrite E1.
    rewrite (proj1 (E2 1%Z ltac:(lia))), (proj1 (E2 n ltac:(lia))). fold V.
    destruct (rleb (V n) x) eqn:En.
    - apply rleb_true in En. assert (x = V n) as -> by lra. rewrite S by lia. apply akima_prefix. lia.
    - apply rleb_false in En. destruct (rleb x (V 1%Z)) eqn:E1x.
      + apply rleb_true in E1x. assert (x = V 1%Z) as -> by lra. apply (is_RInt_point (evalAkima tiny knots values)).
      + apply rleb_false in E1x.
        destruct (find_segment knots values Hlen Hval x) as (j0 & Hj & Hjx & _).
        { change (vat knots 0) with (V 1%Z). replace (vat knots (vlen knots - 1)) with (V n) by reflexivity. lra. }
        fold n in Hj. change (vat knots j0) with (vat knots j0) in Hjx.
        assert (Hjx2 : V (j0 + 1)%Z <= x <= V (j0 + 1 + 1)%Z).
        { unfold V, V_. replace (j0 + 1 - 1)%Z with j0 by lia. replace (j0 + 1 + 1 - 1)%Z with (j0 + 1)%Z by lia. exact Hjx. }
        assert (exists j, (1 <= j <= n - 1)%Z /\ V j <= x < V (j + 1)%Z) as (j & Hj2 & Hx2).
        { destruct (Req_EM_T x (V (j0 + 1 + 1)%Z)) as [Ee|Ee].
          - exists (j0 + 1 + 1)%Z.
            assert (j0 + 1 + 1 <= n - 1)%Z.
            { destruct (Z.eq_dec (j0 + 1 + 1) n) as [Q|Q]; [|lia]. rewrite Q in Ee. lra. }
            pose proof (Vpos (j0 + 1 + 1)%Z ltac:(lia)). split; [lia|lra].
          - exists (j0 + 1)%Z. split; [lia|lra]. }
        rewrite (find_first _ 1 n j).
        * rewrite S by lia. destruct (E2 j ltac:(lia)) as (-> & ->). destruct (E3 j ltac:(lia)) as (-> & -> & ->).
          change (is_RInt (evalAkima tiny knots values) (V 1) x
                    (zsum 1 j (fun i => hint i (V (i + 1)%Z)) + hint j x)).
          apply (is_RInt_Chasles (V := R_NormedModule) (evalAkima tiny knots values) (V 1) (V j) x
                   (zsum 1 j (fun i => hint i (V (i + 1)%Z))) (hint j x)).
          -- apply akima_prefix. lia.
          -- replace (hint j x) with (minus (hint j x) (hint j (V j))).
             2:{ rewrite hint_left. unfold minus, plus, opp; simpl. ring. }
             apply (is_RInt_ext (hseg j)).
             ++ intros y Hy. rewrite Rmin_left, Rmax_right in Hy by lra. symmetry. apply evalAkima_seg; [lia|lra].
             ++ apply (is_RInt_derive (hint j) (hseg j)).
                ** intros; apply hint_derive.
                ** intros; apply hseg_continuous.
        * lia.
        * rewrite (proj1 (E2 (j + 1)%Z ltac:(lia))). fold V. rewrite (proj2 (rleb_false _ _)) by lra. reflexivity.
        * intros l Hl. rewrite (proj1 (E2 (l + 1)%Z ltac:(lia))). fold V.
          pose proof (Vinc_le (l + 1)%Z j ltac:(lia) ltac:(lia)).
          rewrite (proj2 (rleb_true _ _)) by lra. reflexivity.
  Qed.
End Eval.
