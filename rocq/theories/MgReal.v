(** The radial interpolation in exact arithmetic. *)
From Coq Require Import ZArith List Bool Lia Reals Lra.
From Verif Require Import Base BaseLemmas Num MgModel MgSpec.
Import ListNotations.
Open Scope R_scope.

(** Interpolated value before the division by scalxc. *)
Definition mg_value (sch : scheme) (ns_old ns_new jNew : Z) (g : Z -> R) : R :=
  fold_left (fun v jw => v + snd jw * g (fst jw))
    (stencil (K := num_R) sqrt sch ns_old ns_new jNew) 0.

Definition fraction (ns_old ns_new jNew : Z) : R :=
  pos ns_new jNew * IZR (ns_old - 1) - IZR (js1 ns_old ns_new jNew).

Section R.
  Context (ns_old ns_new : Z).
  Hypothesis Ho : (3 <= ns_old)%Z.
  Hypothesis Hn : (3 <= ns_new)%Z.

  Lemma o1 : 0 < IZR (ns_old - 1).
  Proof. apply IZR_lt. lia. Qed.
  Lemma n1 : 0 < IZR (ns_new - 1).
  Proof. apply IZR_lt. lia. Qed.

  Lemma hs_R : hs_old (K := num_R) ns_old = / IZR (ns_old - 1).
  Proof. unfold hs_old. cbn. rewrite minus_IZR. unfold Rdiv. apply Rmult_1_l. Qed.
  Lemma sj_R j : sj (K := num_R) ns_new j = pos ns_new j.
  Proof. unfold sj, pos. cbn. rewrite minus_IZR. reflexivity. Qed.

  Lemma js1_div j : (0 <= j)%Z -> js1 ns_old ns_new j = (j * (ns_old - 1) / (ns_new - 1))%Z.
  Proof. intros. unfold js1. apply Z.quot_div_nonneg; nia. Qed.

  Lemma frac_val j : (0 <= j)%Z ->
    fraction ns_old ns_new j = IZR ((j * (ns_old - 1)) mod (ns_new - 1)) / IZR (ns_new - 1).
  Proof.
    intros Hj. pose proof n1. unfold fraction, pos. rewrite js1_div by assumption.
    assert (E : IZR (j * (ns_old - 1)) =
      IZR (ns_new - 1) * IZR (j * (ns_old - 1) / (ns_new - 1)) + IZR ((j * (ns_old - 1)) mod (ns_new - 1))).
    { rewrite <- mult_IZR, <- plus_IZR. f_equal. apply Z.div_mod. lia. }
    rewrite mult_IZR in E.
    replace (IZR j / IZR (ns_new - 1) * IZR (ns_old - 1)) with (IZR j * IZR (ns_old - 1) / IZR (ns_new - 1))
      by (field; lra).
    rewrite E. field. lra.
  Qed.

  Lemma frac_range j : (0 <= j)%Z -> 0 <= fraction ns_old ns_new j < 1.
  Proof.
    intros Hj. rewrite frac_val by assumption. pose proof n1.
    pose proof (Z.mod_pos_bound (j * (ns_old - 1)) (ns_new - 1) ltac:(lia)) as B.
    assert (B1 : 0 <= IZR ((j * (ns_old - 1)) mod (ns_new - 1))) by (apply IZR_le; lia).
    assert (B2 : IZR ((j * (ns_old - 1)) mod (ns_new - 1)) < IZR (ns_new - 1)) by (apply IZR_lt; lia).
    split.
    - apply Rmult_le_pos; [exact B1|]. left. apply Rinv_0_lt_compat. assumption.
    - apply Rmult_lt_reg_r with (IZR (ns_new - 1)); [assumption|].
      unfold Rdiv. rewrite Rmult_assoc, Rinv_l, Rmult_1_r, Rmult_1_l by lra. exact B2.
  Qed.

  Lemma frac_zero j i : (0 <= j)%Z -> (j * (ns_old - 1) = i * (ns_new - 1))%Z ->
    js1 ns_old ns_new j = i /\ fraction ns_old ns_new j = 0.
  Proof.
    intros Hj E. rewrite js1_div, frac_val by assumption. rewrite E.
    rewrite Z.div_mul, Z.mod_mul by lia. split; [reflexivity|]. unfold Rdiv. ring.
  Qed.

  Lemma linear_stencil j : (0 <= j)%Z ->
    stencil (K := num_R) sqrt kLinear ns_old ns_new j =
    [(js1 ns_old ns_new j, 1 - fraction ns_old ns_new j); (js2 ns_old ns_new j, fraction ns_old ns_new j)].
  Proof.
    intros Hj. unfold stencil. cbv zeta.
    set (x := ndiv _ _).
    assert (Ex : x = fraction ns_old ns_new j).
    { unfold x. rewrite hs_R, sj_R. cbn. unfold fraction. pose proof o1. field. lra. }
    rewrite Ex. pose proof (frac_range j Hj) as F.
    assert (Em : nmin (K := num_R) (nZ 1) (nmax (K := num_R) (nZ 0) (fraction ns_old ns_new j)) = fraction ns_old ns_new j).
    { unfold nmin, nmax. cbn. unfold Rltb.
      destruct (Rlt_dec 0 (fraction ns_old ns_new j)) as [P|P].
      - destruct (Rlt_dec (fraction ns_old ns_new j) 1); [reflexivity|lra].
      - destruct (Rlt_dec 0 1); lra. }
    rewrite Em. reflexivity.
  Qed.

  Lemma linear_value j g : (0 <= j)%Z -> 
    mg_value kLinear ns_old ns_new j g
    = (1 - fraction ns_old ns_new j) * g (js1 ns_old ns_new j) + fraction ns_old ns_new j * g (js2 ns_old ns_new j).
  Proof.
    intros Hj. unfold mg_value. rewrite linear_stencil by assumption. cbn [fold_left fst snd]. ring.
  Qed.

  (** Lagrange weights. *)
  Definition lag (x : Z -> R) (t : R) (k : Z) : R := lagrange (K := num_R) x t k.

  Lemma lag_0 x t : lag x t 0 = (t - x 1%Z) / (x 0%Z - x 1%Z) * ((t - x 2%Z) / (x 0%Z - x 2%Z)) * ((t - x 3%Z) / (x 0%Z - x 3%Z)).
  Proof. unfold lag, lagrange, for_up. change (zrange 0 4) with [0;1;2;3]%Z. cbn. ring. Qed.
  Lemma lag_1 x t : lag x t 1 = (t - x 0%Z) / (x 1%Z - x 0%Z) * ((t - x 2%Z) / (x 1%Z - x 2%Z)) * ((t - x 3%Z) / (x 1%Z - x 3%Z)).
  Proof. unfold lag, lagrange, for_up. change (zrange 0 4) with [0;1;2;3]%Z. cbn. ring. Qed.
  Lemma lag_2 x t : lag x t 2 = (t - x 0%Z) / (x 2%Z - x 0%Z) * ((t - x 1%Z) / (x 2%Z - x 1%Z)) * ((t - x 3%Z) / (x 2%Z - x 3%Z)).
  Proof. unfold lag, lagrange, for_up. change (zrange 0 4) with [0;1;2;3]%Z. cbn. ring. Qed.
  Lemma lag_3 x t : lag x t 3 = (t - x 0%Z) / (x 3%Z - x 0%Z) * ((t - x 1%Z) / (x 3%Z - x 1%Z)) * ((t - x 2%Z) / (x 3%Z - x 2%Z)).
  Proof. unfold lag, lagrange, for_up. change (zrange 0 4) with [0;1;2;3]%Z. cbn. ring. Qed.

  Definition distinct4 (x : Z -> R) : Prop := x 0%Z < x 1%Z /\ x 1%Z < x 2%Z /\ x 2%Z < x 3%Z.

  Lemma lag_cubic x t a b c d : distinct4 x ->
    lag x t 0 * cubic a b c d (x 0%Z) + lag x t 1 * cubic a b c d (x 1%Z)
    + lag x t 2 * cubic a b c d (x 2%Z) + lag x t 3 * cubic a b c d (x 3%Z) = cubic a b c d t.
  Proof.
    intros (D1 & D2 & D3). rewrite lag_0, lag_1, lag_2, lag_3. unfold cubic.
    generalize dependent (x 3%Z). generalize dependent (x 2%Z). generalize dependent (x 1%Z).
    generalize (x 0%Z). intros x0 x1 H1 x2 H2 x3 H3.
    field. repeat split; lra.
  Qed.

  Lemma lag_node x k l : distinct4 x -> (0 <= k < 4)%Z -> (0 <= l < 4)%Z ->
    lag x (x k) l = if (k =? l)%Z then 1 else 0.
  Proof.
    intros (D1 & D2 & D3) Hk Hl.
    assert (Hk' : (k = 0 \/ k = 1 \/ k = 2 \/ k = 3)%Z) by lia.
    assert (Hl' : (l = 0 \/ l = 1 \/ l = 2 \/ l = 3)%Z) by lia.
    destruct Hl' as [-> | [-> | [-> | ->]]]; rewrite ?lag_0, ?lag_1, ?lag_2, ?lag_3;
      destruct Hk' as [-> | [-> | [-> | ->]]]; cbn;
      field; repeat split; lra.
  Qed.

  Definition cbase (j : Z) : Z := Z.min (Z.max (js1 ns_old ns_new j - 1) 0) (ns_old - 4).
  Definition cnode (rho : bool) (j k : Z) : R :=
    if rho then sqrt (pos ns_old (cbase j + k)) else pos ns_old (cbase j + k).
  Definition ctarget (rho : bool) (j : Z) : R :=
    if rho then sqrt (pos ns_new j) else pos ns_new j.

  Lemma cubic_value (rho : bool) j g : (4 <= ns_old)%Z ->
    mg_value (if rho then kCubicRho else kCubic) ns_old ns_new j g
    = lag (cnode rho j) (ctarget rho j) 0 * g (cbase j + 0)%Z + lag (cnode rho j) (ctarget rho j) 1 * g (cbase j + 1)%Z
    + lag (cnode rho j) (ctarget rho j) 2 * g (cbase j + 2)%Z + lag (cnode rho j) (ctarget rho j) 3 * g (cbase j + 3)%Z.
  Proof.
    intros H4. unfold mg_value, stencil. cbv zeta.
    replace (ns_old <? 4)%Z with false by (symmetry; apply Z.ltb_ge; lia).
    rewrite hs_R, sj_R. fold (cbase j).
    transitivity (0 + lag (cnode rho j) (ctarget rho j) 0 * g (cbase j + 0)%Z + lag (cnode rho j) (ctarget rho j) 1 * g (cbase j + 1)%Z
    + lag (cnode rho j) (ctarget rho j) 2 * g (cbase j + 2)%Z + lag (cnode rho j) (ctarget rho j) 3 * g (cbase j + 3)%Z); [|ring].
    destruct rho; reflexivity.
  Qed.

  Lemma cnode_distinct rho j : (4 <= ns_old)%Z -> (0 <= j)%Z -> distinct4 (cnode rho j).
  Proof.
    intros H4 Hj. pose proof o1 as O.
    assert (B : (0 <= cbase j)%Z).
    { unfold cbase. lia. }
    assert (P : forall k, (0 <= k)%Z -> 0 <= pos ns_old (cbase j + k) < pos ns_old (cbase j + (k + 1))).
    { intros k Hk. unfold pos. split.
      - apply Rmult_le_pos; [apply IZR_le; lia|left; apply Rinv_0_lt_compat; exact O].
      - apply Rmult_lt_compat_r; [apply Rinv_0_lt_compat; exact O|]. apply IZR_lt. lia. }
    unfold distinct4, cnode. destruct rho; repeat split;
      try (apply sqrt_lt_1_alt); apply P; lia.
  Qed.

  Lemma cubic_exact (rho : bool) j a b c d : (4 <= ns_old)%Z -> (0 <= j)%Z ->
    mg_value (if rho then kCubicRho else kCubic) ns_old ns_new j
      (fun i => cubic a b c d (if rho then sqrt (pos ns_old i) else pos ns_old i))
    = cubic a b c d (ctarget rho j).
  Proof.
    intros H4 Hj. rewrite cubic_value by assumption.
    rewrite <- (lag_cubic (cnode rho j) (ctarget rho j) a b c d) by (apply cnode_distinct; assumption).
    reflexivity.
  Qed.

  Lemma pos_eq j i : (j * (ns_old - 1) = i * (ns_new - 1))%Z -> pos ns_new j = pos ns_old i.
  Proof.
    intros E. pose proof o1. pose proof n1. unfold pos.
    assert (E' : IZR j * IZR (ns_old - 1) = IZR i * IZR (ns_new - 1)) by (rewrite <- !mult_IZR; congruence).
    apply Rmult_eq_reg_r with (IZR (ns_new - 1) * IZR (ns_old - 1)); [|nra].
    field_simplify; [lra|lra|lra].
  Qed.

  Lemma coincide sch j i g : (0 <= j < ns_new)%Z -> (0 <= i < ns_old)%Z ->
    (j * (ns_old - 1) = i * (ns_new - 1))%Z -> mg_value sch ns_old ns_new j g = g i.
  Proof.
    intros Hj Hi E. destruct (frac_zero j i ltac:(lia) E) as [J F].
    assert (L : mg_value kLinear ns_old ns_new j g = g i).
    { rewrite linear_value by lia. rewrite J, F. ring. }
    assert (C : forall rho : bool, (4 <= ns_old)%Z ->
      mg_value (if rho then kCubicRho else kCubic) ns_old ns_new j g = g i).
    { intros rho H4. rewrite cubic_value by assumption.
      set (k := (i - cbase j)%Z).
      assert (Hk : (0 <= k < 4)%Z). { unfold k, cbase. rewrite J. lia. }
      assert (Et : ctarget rho j = cnode rho j k).
      { unfold ctarget, cnode, k. rewrite (pos_eq j i E). replace (cbase j + (i - cbase j))%Z with i by lia.
        reflexivity. }
      rewrite Et. rewrite !lag_node by (try lia; apply cnode_distinct; lia).
      assert (Ei : i = (cbase j + k)%Z) by (unfold k; lia).
      assert (Hk' : (k = 0 \/ k = 1 \/ k = 2 \/ k = 3)%Z) by lia.
      destruct Hk' as [Ek | [Ek | [Ek | Ek]]]; rewrite Ei, Ek; cbn; ring. }
    destruct sch.
    - exact L.
    - destruct (Z.ltb_spec ns_old 4) as [H4|H4].
      + unfold mg_value, stencil in *. cbv zeta in *.
        replace (ns_old <? 4)%Z with true by (symmetry; apply Z.ltb_lt; lia). exact L.
      + exact (C false H4).
    - destruct (Z.ltb_spec ns_old 4) as [H4|H4].
      + unfold mg_value, stencil in *. cbv zeta in *.
        replace (ns_old <? 4)%Z with true by (symmetry; apply Z.ltb_lt; lia). exact L.
      + exact (C true H4).
  Qed.

  Lemma linear_between j g lo hi : (0 <= j < ns_new)%Z ->
    (forall i, (0 <= i < ns_old)%Z -> lo <= g i <= hi) -> lo <= mg_value kLinear ns_old ns_new j g <= hi.
  Proof.
    intros Hj G. rewrite linear_value by lia.
    pose proof (frac_range j ltac:(lia)) as F.
    assert (J : (0 <= js1 ns_old ns_new j < ns_old)%Z).
    { rewrite js1_div by lia. split; [apply Z.div_pos; nia|].
      enough (j * (ns_old - 1) / (ns_new - 1) <= ns_old - 1)%Z by lia.
      apply Z.div_le_upper_bound; nia. }
    pose proof (G _ J) as G1. pose proof (G (js2 ns_old ns_new j) ltac:(unfold js2; lia)) as G2.
    split; nra.
  Qed.

  Lemma linear_exact j a b : (0 <= j < ns_new)%Z ->
    mg_value kLinear ns_old ns_new j (fun i => a + b * pos ns_old i) = a + b * pos ns_new j.
  Proof.
    intros Hj. rewrite linear_value by lia. pose proof o1 as O. pose proof n1.
    destruct (Z.eq_dec j (ns_new - 1)) as [-> | Hne].
    - destruct (frac_zero (ns_new - 1) (ns_old - 1) ltac:(lia) ltac:(ring)) as [J F].
      rewrite J, F. rewrite (pos_eq (ns_new - 1) (ns_old - 1)) by ring. ring.
    - assert (J : (js1 ns_old ns_new j + 1 <= ns_old - 1)%Z).
      { rewrite js1_div by lia. enough (j * (ns_old - 1) / (ns_new - 1) < ns_old - 1)%Z by lia.
        apply Z.div_lt_upper_bound; nia. }
      unfold js2. rewrite Z.min_l by lia.
      unfold fraction. unfold pos at 2 4. rewrite plus_IZR. field. lra.
  Qed.
End R.
