(** Exact arithmetic: the radial interpolation of the Python continuation. *)
From Coq Require Import String ZArith List Bool Lia Reals Lra.
From Verif Require Import Base BaseLemmas Num IndataModel IndataSpec IndataProofs IndataCheck PyCoefModel ContModel ContSpec ContProofs MgSpec.
Import ListNotations.
Open Scope Z_scope.

Lemma Rleb_true a b : Rleb a b = true <-> (a <= b)%R.
Proof. unfold Rleb. destruct (Rle_dec a b); split; intros; auto; discriminate. Qed.
Lemma Rltb_true a b : Rltb a b = true <-> (a < b)%R.
Proof. unfold Rltb. destruct (Rlt_dec a b); split; intros; auto; discriminate. Qed.

Lemma not_nan (x : R) : isnan (K := num_R) x = false.
Proof. unfold isnan. change (@neq num_R x x) with (Reqb x x). rewrite (proj2 (Reqb_true x x) eq_refl). reflexivity. Qed.

(** Position of [x] in an increasing list. *)
Lemma count_le_R (x : R) (l : list R) :
  let k := count_le (K := num_R) x l in
  0 <= k <= zlen l /\ (forall i, 0 <= i < k -> (znth l i 0 <= x)%R) /\ (k < zlen l -> (x < znth l k 0)%R).
Proof.
  induction l as [|a l IH]; cbv zeta; cbn [count_le].
  - unfold zlen. cbn. split; [lia|]. split; intros; lia.
  - change (@nle num_R a x) with (Rleb a x). destruct (Rleb a x) eqn:E.
    + apply Rleb_true in E. cbv zeta in IH. set (k := count_le (K := num_R) x l) in *. destruct IH as (H1 & H2 & H3).
      assert (Hl : zlen (a :: l) = 1 + zlen l) by (unfold zlen; cbn [length]; lia). rewrite Hl. split; [lia|]. split.
      * intros i Hi. unfold znth. destruct (Z.to_nat i) as [|n] eqn:En; [exact E|]. cbn [nth]. replace n with (Z.to_nat (i - 1)) by lia. apply H2. lia.
      * intros Hk. unfold znth. replace (Z.to_nat (1 + k)) with (S (Z.to_nat k)) by lia. cbn [nth]. apply H3. lia.
    + assert (Hx : (x < a)%R) by (apply Rnot_le_lt; intros C; apply Rleb_true in C; congruence). split; [unfold zlen; cbn [length]; lia|]. split; [intros; lia|]. intros _. exact Hx.
Qed.

Section Interp.
  Context (n : Z) (X : Z -> R) (xp fp : list R).
  Context (Hn : 2 <= n) (Hlen : zlen xp = n) (HX : forall i, 0 <= i < n -> znth xp i 0%R = X i).
  Context (Hmono : forall i j, 0 <= i < j -> j < n -> (X i < X j)%R).

  Lemma X_le i j : 0 <= i <= j -> j < n -> (X i <= X j)%R.
  Proof. intros H1 H2. destruct (Z.eq_dec i j) as [->|]; [lra|]. apply Rlt_le, Hmono; lia. Qed.

  Lemma np_interp_R (x : R) : (X 0 <= x <= X (n - 1))%R ->
    exists j, 0 <= j <= n - 1 /\ (X j <= x)%R /\ (j < n - 1 -> (x < X (j + 1))%R) /\
      np_interp (K := num_R) x xp fp =
        if j =? n - 1 then znth fp j 0%R else if Reqb (X j) x then znth fp j 0%R
        else ((znth fp (j + 1) 0 - znth fp j 0) / (X (j + 1) - X j) * (x - X j) + znth fp j 0)%R.
  Proof using Hn Hlen HX Hmono.
    intros (Hlo & Hhi). unfold np_interp. change (N num_R) with R. rewrite Hlen. rewrite not_nan.
    change (nZ 0 : num_R) with 0%R. rewrite (HX (n - 1)), (HX 0) by lia.
    change (@nlt num_R (X (n - 1)) x) with (Rltb (X (n - 1)) x). rewrite (proj2 (Rltb_false _ _)) by lra.
    change (@nlt num_R x (X 0)) with (Rltb x (X 0)). rewrite (proj2 (Rltb_false _ _)) by lra. cbv zeta.
    pose proof (count_le_R x (tl xp)) as C. cbv zeta in C. set (j := count_le (K := num_R) x (tl xp)) in *.
    assert (Ht : zlen (tl xp) = n - 1) by (destruct xp; unfold zlen in *; cbn [length tl] in *; lia).
    assert (Hnt : forall i, 0 <= i < n - 1 -> znth (tl xp) i 0%R = X (i + 1)).
    { intros i Hi. rewrite <- HX by lia. destruct xp as [|a l]; [unfold zlen in Hlen; cbn in Hlen; lia|]. unfold znth. replace (Z.to_nat (i + 1)) with (S (Z.to_nat i)) by lia. reflexivity. }
    rewrite Ht in C. destruct C as (C1 & C2 & C3). exists j. split; [lia|]. split; [|split].
    - destruct (Z.eq_dec j 0) as [->|Nz]; [exact Hlo|]. replace j with ((j - 1) + 1) by lia. rewrite <- Hnt by lia. apply C2. lia.
    - intros Hj. rewrite <- Hnt by lia. apply C3. exact Hj.
    - destruct (Z.eqb_spec j (n - 1)) as [E|E]; [reflexivity|]. rewrite (HX j), (HX (j + 1)) by lia.
      change (@neq num_R (X j) x) with (Reqb (X j) x). destruct (Reqb (X j) x); [reflexivity|]. rewrite not_nan. reflexivity.
  Qed.

  Lemma np_interp_node i : 0 <= i < n -> np_interp (K := num_R) (X i) xp fp = znth fp i 0%R.
  Proof using Hn Hlen HX Hmono.
    intros Hi. destruct (np_interp_R (X i)) as (j & Hj & H1 & H2 & ->); [split; apply X_le; lia|].
    assert (j = i).
    { destruct (Z.lt_trichotomy j i) as [L|[L|L]]; [|exact L|].
      - exfalso. specialize (H2 ltac:(lia)). pose proof (X_le (j + 1) i ltac:(lia) ltac:(lia)). lra.
      - exfalso. pose proof (Hmono i j ltac:(lia) ltac:(lia)). lra. }
    subst j. rewrite (proj2 (Reqb_true _ _) eq_refl). destruct (i =? n - 1); reflexivity.
  Qed.

  Lemma np_interp_bounds x lo hi : (X 0 <= x <= X (n - 1))%R -> (forall i, 0 <= i < n -> (lo <= znth fp i 0 <= hi)%R) ->
    (lo <= np_interp (K := num_R) x xp fp <= hi)%R.
  Proof using Hn Hlen HX Hmono.
    intros Hx Hb. destruct (np_interp_R x Hx) as (j & Hj & H1 & H2 & ->). destruct (Z.eqb_spec j (n - 1)) as [E|E]; [apply Hb; lia|].
    destruct (Reqb (X j) x); [apply Hb; lia|]. specialize (H2 ltac:(lia)).
    set (y0 := znth fp j 0%R). set (y1 := znth fp (j + 1) 0%R). assert (B0 := Hb j ltac:(lia)). assert (B1 := Hb (j + 1) ltac:(lia)). fold y0 in B0. fold y1 in B1.
    set (w := (X (j + 1) - X j)%R). assert (Hw : (0 < w)%R) by (unfold w; lra). set (t := ((x - X j) / w)%R).
    assert (Ht : (0 <= t <= 1)%R).
    { unfold t. split; [apply Rmult_le_pos; [lra|]; apply Rlt_le, Rinv_0_lt_compat, Hw|]. apply (Rmult_le_reg_r w); [exact Hw|]. unfold Rdiv. rewrite Rmult_assoc, Rinv_l by lra. unfold w. lra. }
    replace ((y1 - y0) / w * (x - X j) + y0)%R with ((1 - t) * y0 + t * y1)%R by (unfold t; field; lra). nra.
  Qed.
End Interp.

(** *** Grids. *)
Lemma linspace_R ns i : 2 <= ns -> 0 <= i < ns -> znth (linspace (K := num_R) ns) i 0%R = pos ns i.
Proof.
  intros Hn Hi. unfold linspace. cbv zeta. rewrite (znth_map_zrange _ ns i) by lia. rewrite (proj2 (Z.eqb_neq ns 1)) by lia.
  assert (P : (IZR (ns - 1) <> 0)%R) by (apply not_0_IZR; lia). unfold pos.
  destruct (Z.ltb_spec 1 ns); [|lia]. cbn [andb]. destruct (Z.eqb_spec i (ns - 1)) as [->|].
  - change (nZ 1 : num_R) with 1%R. change (@eq R 1 (IZR (ns - 1) / IZR (ns - 1)))%R. field. exact P.
  - change (@eq R (IZR i * (1 / IZR (ns - 1)) + 0) (IZR i / IZR (ns - 1)))%R. field. exact P.
Qed.
Lemma linspace_R_zlen ns : 0 <= ns -> zlen (linspace (K := num_R) ns) = ns.
Proof. apply (linspace_zlen (K := num_R)). Qed.

Lemma pos_mono ns i j : 2 <= ns -> i < j -> (pos ns i < pos ns j)%R.
Proof. intros Hn H. unfold pos, Rdiv. apply Rmult_lt_compat_r; [apply Rinv_0_lt_compat, IZR_lt; lia|apply IZR_lt; lia]. Qed.
Lemma pos_0 ns : pos ns 0 = 0%R.
Proof. unfold pos. lra. Qed.
Lemma pos_last ns : 2 <= ns -> pos ns (ns - 1) = 1%R.
Proof. intros H. unfold pos. field. apply not_0_IZR. lia. Qed.
Lemma pos_ge ns i : 2 <= ns -> 0 <= i -> (0 <= pos ns i)%R.
Proof. intros H Hi. rewrite <- (pos_0 ns). destruct (Z.eq_dec i 0) as [->|]; [lra|]. apply Rlt_le, pos_mono; lia. Qed.
Lemma pos_le1 ns i : 2 <= ns -> i < ns -> (pos ns i <= 1)%R.
Proof. intros H Hi. rewrite <- (pos_last ns H). destruct (Z.eq_dec i (ns - 1)) as [->|]; [lra|]. apply Rlt_le, pos_mono; lia. Qed.

(** sqrt(s). *)
Definition rho ns i := sqrt (pos ns i).
Lemma rho_mono ns i j : 2 <= ns -> 0 <= i < j -> (rho ns i < rho ns j)%R.
Proof. intros Hn H. apply sqrt_lt_1; [apply pos_ge; lia|apply pos_ge; lia|]. apply pos_mono; lia. Qed.
Lemma rho_0 ns : rho ns 0 = 0%R. Proof. unfold rho. rewrite pos_0. apply sqrt_0. Qed.
Lemma rho_last ns : 2 <= ns -> rho ns (ns - 1) = 1%R. Proof. intros. unfold rho. rewrite pos_last by lia. apply sqrt_1. Qed.
Lemma rho_pos ns i : 2 <= ns -> 0 < i -> (0 < rho ns i)%R.
Proof. intros Hn H. rewrite <- (rho_0 ns). apply rho_mono; lia. Qed.
Lemma rho_range ns i : 2 <= ns -> 0 <= i < ns -> (0 <= rho ns i <= 1)%R.
Proof. intros Hn H. split; [apply sqrt_pos|]. rewrite <- (rho_last ns Hn). destruct (Z.eq_dec i (ns - 1)) as [->|]; [lra|]. apply Rlt_le, rho_mono; lia. Qed.

Lemma sqrt_grid ns i : 2 <= ns -> 0 <= i < ns -> znth (map sqrt (linspace (K := num_R) ns)) i 0%R = rho ns i.
Proof. intros Hn Hi. rewrite (znth_map _ _ _ _ 0%R) by (rewrite linspace_R_zlen; lia). rewrite linspace_R by lia. reflexivity. Qed.
Lemma sqrt_grid_zlen ns : 0 <= ns -> zlen (map sqrt (linspace (K := num_R) ns)) = ns.
Proof. intros. rewrite zlen_map. apply linspace_R_zlen. lia. Qed.
Lemma inv_scale_R ns i : 2 <= ns -> 0 < i < ns -> znth (inv_scale (K := num_R) (map sqrt (linspace (K := num_R) ns))) i 0%R = (1 / rho ns i)%R.
Proof.
  intros Hn Hi. unfold inv_scale. rewrite sqrt_grid_zlen by lia. rewrite (znth_map_zrange _ ns i) by lia. rewrite (proj2 (Z.eqb_neq i 0)) by lia.
  change (nZ 0 : num_R) with 0%R. rewrite sqrt_grid by lia. reflexivity.
Qed.
Lemma inv_scale_R0 ns : 2 <= ns -> znth (inv_scale (K := num_R) (map sqrt (linspace (K := num_R) ns))) 0 0%R = (1 / rho ns 1)%R.
Proof.
  intros Hn. unfold inv_scale. rewrite sqrt_grid_zlen by lia. rewrite (znth_map_zrange _ ns 0) by lia. change (0 =? 0) with true. cbv iota.
  change (nZ 0 : num_R) with 0%R. rewrite sqrt_grid by lia. reflexivity.
Qed.

Section Row.
  Context (ns ns' m : Z) (row : list R) (Hns : 2 <= ns) (Hns' : 2 <= ns') (Hrow : Z.of_nat (length row) = ns).

  (** The quantity that is interpolated. *)
  Definition scaled : list R :=
    let r := map (fun i => (znth row i 0 * znth (inv_scale (K := num_R) (map sqrt (linspace (K := num_R) ns))) i 0)%R) (zrange 0 ns) in
    if ns >=? 3 then set_nth 0 (2 * znth r 1 0 - znth r 2 0)%R r else r.
  Definition radial : list R := if Z.odd m then scaled else row.

  Lemma scaled_at i : 0 < i < ns -> znth scaled i 0%R = (znth row i 0 / rho ns i)%R.
  Proof using Hns.
    intros Hi. unfold scaled. cbv zeta.
    assert (E : znth (map (fun i => (znth row i 0 * znth (inv_scale (K := num_R) (map sqrt (linspace (K := num_R) ns))) i 0)%R) (zrange 0 ns)) i 0%R = (znth row i 0 / rho ns i)%R).
    { rewrite znth_map_zrange by lia. rewrite inv_scale_R by lia. unfold Rdiv. rewrite Rmult_1_l. reflexivity. }
    destruct (ns >=? 3); [|exact E]. unfold znth at 1. rewrite nth_set_nth_neq by lia. exact E.
  Qed.

  Lemma row_even : Z.odd m = false -> geometry_row (K := num_R) sqrt m ns ns' row = map (fun x => np_interp (K := num_R) x (map sqrt (linspace (K := num_R) ns)) row) (map sqrt (linspace (K := num_R) ns')).
  Proof using. intros O. unfold geometry_row. cbv zeta. rewrite Zmod_odd, O. reflexivity. Qed.
  Lemma at_even j : Z.odd m = false -> 0 <= j < ns' -> at_surface (geometry_row (K := num_R) sqrt m ns ns' row) j = np_interp (K := num_R) (rho ns' j) (map sqrt (linspace (K := num_R) ns)) row.
  Proof using Hns'.
    intros O Hj. rewrite row_even by exact O. change (at_surface ?l j) with (znth l j 0%R). rewrite (znth_map _ _ _ _ 0%R) by (rewrite sqrt_grid_zlen; lia). rewrite sqrt_grid by lia. reflexivity.
  Qed.
  Lemma at_odd j : Z.odd m = true -> 0 < j < ns' -> at_surface (geometry_row (K := num_R) sqrt m ns ns' row) j = (np_interp (K := num_R) (rho ns' j) (map sqrt (linspace (K := num_R) ns)) scaled * rho ns' j)%R.
  Proof using Hns'.
    intros O Hj. unfold geometry_row. cbv zeta. rewrite Zmod_odd, O. change (1 =? 1) with true. cbv iota.
    change (at_surface ?l j) with (znth l j 0%R). unfold znth at 1. rewrite nth_set_nth_neq by lia.
    match goal with |- nth (Z.to_nat j) (map ?f (zrange 0 ns')) _ = _ => change (znth (map f (zrange 0 ns')) j 0%R = (np_interp (K := num_R) (rho ns' j) (map sqrt (linspace (K := num_R) ns)) scaled * rho ns' j)%R) end.
    rewrite znth_map_zrange by lia. change (nZ 0 : num_R) with 0%R. rewrite inv_scale_R by lia. rewrite (znth_map _ _ _ _ 0%R) by (rewrite sqrt_grid_zlen; lia). rewrite sqrt_grid by lia.
    change (@ndiv num_R ?a ?b) with (a / b)%R. fold scaled. pose proof (rho_pos ns' j Hns' ltac:(lia)). 
    set (v := np_interp (K := num_R) (rho ns' j) _ _). change (@eq R (v / (1 / rho ns' j)) (v * rho ns' j))%R. field. lra.
  Qed.

  Lemma in_range j : 0 <= j < ns' -> (rho ns 0 <= rho ns' j <= rho ns (ns - 1))%R.
  Proof using Hns Hns'. clear Hrow. intros Hj. rewrite rho_0, rho_last by lia. apply rho_range; lia. Qed.

  Lemma same_rho i j : 0 <= i -> 0 <= j -> pos ns' j = pos ns i -> rho ns' j = rho ns i.
  Proof using. intros. unfold rho. congruence. Qed.
  Lemma pos_zero_iff k i : 2 <= k -> 0 <= i -> (pos k i = 0%R <-> i = 0).
  Proof using.
    clear Hrow Hns Hns'. intros Hk Hi. split; [|intros ->; apply pos_0]. intros E. destruct (Z.eq_dec i 0) as [|N]; [auto|]. pose proof (pos_mono k 0 i Hk ltac:(lia)) as H. rewrite pos_0 in H. lra.
  Qed.

  Theorem geometry_row_kept : profile_kept ns ns' m row (geometry_row (K := num_R) sqrt m ns ns' row).
  Proof using Hns Hns' Hrow.
    assert (Co : forall i j, 0 <= i < ns -> 0 <= j < ns' -> pos ns' j = pos ns i -> (Z.even m = true \/ 0 < i) -> at_surface (geometry_row (K := num_R) sqrt m ns ns' row) j = at_surface row i).
    { intros i j Hi Hj E H. destruct (Z.odd m) eqn:O.
      - assert (0 < i) by (destruct H as [H|H]; [rewrite <- Z.negb_odd, O in H; discriminate|exact H]).
        assert (j <> 0) by (intros ->; rewrite pos_0 in E; symmetry in E; apply pos_zero_iff in E; lia).
        rewrite at_odd by (auto; lia). rewrite (same_rho i j) by (auto; lia).
        rewrite (np_interp_node ns (rho ns) _ scaled Hns (sqrt_grid_zlen ns ltac:(lia)) (fun k => sqrt_grid ns k Hns) (fun a b Ha _ => rho_mono ns a b Hns Ha) i Hi).
        rewrite scaled_at by lia. pose proof (rho_pos ns i Hns ltac:(lia)). change (at_surface row i) with (znth row i 0%R). field. lra.
      - rewrite at_even by (auto; lia). rewrite (same_rho i j) by (auto; lia).
        apply (np_interp_node ns (rho ns) _ row Hns (sqrt_grid_zlen ns ltac:(lia)) (fun k => sqrt_grid ns k Hns) (fun a b Ha _ => rho_mono ns a b Hns Ha) i Hi). }
    constructor.
    - apply (geometry_row_zlen (K := num_R) sqrt m ns ns' row). lia.
    - apply Co; try lia. rewrite !pos_last by lia. reflexivity.
    - exact Co.
    - intros O _. apply (geometry_row_axis (K := num_R) sqrt m ns ns' row Hns' O).
    - intros Ev lo hi Hb j Hj. assert (O : Z.odd m = false) by (rewrite <- Z.negb_even, Ev; reflexivity). rewrite at_even by auto.
      apply (np_interp_bounds ns (rho ns) _ row Hns (sqrt_grid_zlen ns ltac:(lia)) (fun k => sqrt_grid ns k Hns) (fun a b Ha _ => rho_mono ns a b Hns Ha)); [apply in_range; exact Hj|]. exact Hb.
  Qed.
End Row.

Lemma profile_kept_same ns m row : 2 <= ns -> Z.of_nat (length row) = ns -> profile_kept ns ns m row row.
Proof.
  intros Hn Hl. constructor; auto. intros i j Hi Hj E _. assert (i = j); [|congruence].
  destruct (Z.lt_trichotomy i j) as [L|[L|L]]; [|exact L|]; pose proof (pos_mono ns _ _ Hn L); lra.
Qed.

(** A row of zeros stays zero. *)
Lemma zeros_at n i : znth (zeros (K := num_R) n) i 0%R = 0%R.
Proof. unfold znth. apply (nth_zeros (K := num_R)). Qed.
Lemma zero_row ns ns' m : 2 <= ns -> 2 <= ns' -> geometry_row (K := num_R) sqrt m ns ns' (zeros (K := num_R) ns) = zeros (K := num_R) ns'.
Proof.
  intros H H'. assert (Hl : Z.of_nat (length (zeros (K := num_R) ns)) = ns) by (apply (zlen_zeros (K := num_R)); lia).
  assert (L1 : zlen (geometry_row (K := num_R) sqrt m ns ns' (zeros (K := num_R) ns)) = ns') by (apply geometry_row_zlen; lia).
  assert (L2 : zlen (zeros (K := num_R) ns') = ns') by (apply (zlen_zeros (K := num_R)); lia).
  apply (nth_ext _ _ 0%R 0%R); [apply Nat2Z.inj; exact (eq_trans L1 (eq_sym L2))|]. intros k Hk. apply Nat2Z.inj_lt in Hk. unfold zlen in L1. change (N num_R) with R in L1, Hk. rewrite L1 in Hk.
  pose (j := Z.of_nat k). replace k with (Z.to_nat j) by (unfold j; lia). assert (Hj : 0 <= j < ns') by (unfold j; lia). refine (eq_trans _ (eq_sym (zeros_at ns' j))).
  change (at_surface (geometry_row (K := num_R) sqrt m ns ns' (zeros (K := num_R) ns)) j = 0%R).
  destruct (Z.odd m) eqn:O.
  - destruct (Z.eq_dec j 0) as [->|Nj]; [apply (geometry_row_axis (K := num_R) sqrt m ns ns' _ H' O)|]. rewrite at_odd by (auto; lia).
    assert (S : forall i, 0 <= i < ns -> znth (scaled ns (zeros (K := num_R) ns)) i 0%R = 0%R).
    { intros i Hi. destruct (Z.eq_dec i 0) as [->|Ni]; [|rewrite scaled_at by lia; rewrite zeros_at; unfold Rdiv; ring].
      unfold scaled. cbv zeta. destruct (Z.geb_spec ns 3).
      - rewrite set_nth0_znth; [|intros E; apply map_eq_nil in E; pose proof (zlen_zrange ns ltac:(lia)) as Z; rewrite E in Z; cbn in Z; lia].
        rewrite !znth_map_zrange by lia. rewrite !zeros_at. ring.
      - rewrite znth_map_zrange by lia. rewrite zeros_at. ring. }
    assert (B := np_interp_bounds ns (rho ns) _ (scaled ns (zeros (K := num_R) ns)) H (sqrt_grid_zlen ns ltac:(lia)) (fun k => sqrt_grid ns k H) (fun a b Ha _ => rho_mono ns a b H Ha) (rho ns' j) 0%R 0%R (in_range ns ns' H H' j Hj)).
    destruct B as (B1 & B2); [intros i Hi; rewrite S by exact Hi; lra|]. replace (np_interp (K := num_R) _ _ _) with 0%R by lra. ring.
  - rewrite at_even by auto.
    assert (B := np_interp_bounds ns (rho ns) _ (zeros (K := num_R) ns) H (sqrt_grid_zlen ns ltac:(lia)) (fun k => sqrt_grid ns k H) (fun a b Ha _ => rho_mono ns a b H Ha) (rho ns' j) 0%R 0%R (in_range ns ns' H H' j Hj)).
    destruct B as (B1 & B2); [intros i Hi; rewrite zeros_at; lra|]. lra.
Qed.

Theorem interpolate_exact (w : wout num_R) ns mpol ntor : complete w -> 2 <= ns -> 0 <= mpol -> 0 <= ntor ->
  exists w', interpolate_solution (K := num_R) sqrt w ns mpol ntor = Ok w' /\ at_resolution w w' ns mpol ntor /\
    fields_related (remapped (K := num_R) (profile_kept (w_ns w) ns) w w') (w_geometry w) (w_geometry w') /\
    fields_related (axis_remapped ntor) (w_axis w) (w_axis w').
Proof.
  intros C Hns Hm Hn. pose proof (c_ns w C) as Ho. apply (interpolate_related (K := num_R)); auto.
  - intros m row Hrow _. destruct (Z.eqb_spec (w_ns w) ns) as [<-|]; [apply profile_kept_same; auto|]. apply geometry_row_kept; auto.
  - intros m _ _. apply zero_row; auto.
Qed.

(** *** The auxiliary arrays. *)
Lemma arrays_result (K : num) (nsqrt : K -> K) (w w' : wout K) ns mpol ntor : interpolate_solution nsqrt w ns mpol ntor = Ok w' ->
  w_arrays w' = map (fun p => (fst p, if size (snd p) =? 0 then snd p else if last_dim (snd p) =? w_ns w then radial_interpolate (snd p) ns else snd p)) (w_arrays w).
Proof.
  intros E. unfold interpolate_solution in E. cbv zeta in E. apply obind_ok in E. destruct E as (g & _ & E). apply obind_ok in E. destruct E as (a & _ & E). inversion E. reflexivity.
Qed.

Lemma array_shaped (K : num) (v : mat K) ns : 0 <= ns -> shaped v (m_rows v) (m_cols v) -> 
  match radial_interpolate (A2 v) ns with A2 v' => shaped v' (m_rows v') (m_cols v') | A1 _ => True end.
Proof.
  intros Hn S. cbn. destruct (m_cols v =? ns) eqn:E; [exact S|]. destruct S as (_ & S2 & S3 & S4). repeat split; cbn [m_body m_rows m_cols].
  - rewrite map_length. exact S3.
  - intros row H. apply in_map_iff in H. destruct H as (r & <- & Hr). unfold radial_interpolate_row. cbv zeta. unfold zlen. rewrite (S4 r Hr), E.
    change (zlen (map (fun x : K => np_interp x (linspace (m_cols v)) r) (linspace ns)) = ns). rewrite zlen_map. apply (linspace_zlen (K := K)). exact Hn.
Qed.

Lemma fields_related_In {A} (P : A -> A -> Prop) l l' name b : fields_related P l l' -> In (name, Some b) l' -> exists a, In (name, Some a) l /\ P a b.
Proof.
  intros F. induction F as [|p q l l' (E & M) F IH]; intros H; [destruct H|]. destruct H as [->|H].
  - destruct p as (nm, [a|]); cbn in E, M; [|contradiction]. subst nm. exists a. split; [left; reflexivity|exact M].
  - destruct (IH H) as (a & H1 & H2). exists a. split; [right; exact H1|exact H2].
Qed.

Theorem result_complete (w w' : wout num_R) ns mpol ntor : complete w -> 2 <= ns -> 0 <= mpol -> 0 <= ntor ->
  interpolate_solution (K := num_R) sqrt w ns mpol ntor = Ok w' -> complete w'.
Proof.
  intros C Hns Hm Hn E. destruct (interpolate_exact w ns mpol ntor C Hns Hm Hn) as (w2 & E2 & (A1' & A2' & A3 & A4 & A5 & A6 & A7) & G & X). rewrite E in E2. injection E2 as <-.
  constructor.
  - rewrite A1'. apply C.
  - lia.
  - lia.
  - lia.
  - rewrite A1', A3, A4. exact A5.
  - exact A6.
  - exact A7.
  - intros name v H. destruct (fields_related_In _ _ _ name v G H) as (a & _ & S & _). exact S.
  - intros name a H. destruct (fields_related_In _ _ _ name a X H) as (a' & _ & S & _). rewrite A4. exact S.
  - intros name v H. rewrite (arrays_result _ _ _ _ _ _ _ E) in H. apply in_map_iff in H. destruct H as ((nm, a) & Eq & H). cbn [fst snd] in Eq. injection Eq as -> Eq.
    destruct (size a =? 0); [subst a; exact (c_arrays w C name v H)|]. destruct (last_dim a =? w_ns w); [|subst a; exact (c_arrays w C name v H)].
    destruct a as [a|a]; [discriminate Eq|]. pose proof (array_shaped num_R a ns ltac:(lia) (c_arrays w C name a H)) as Q. rewrite Eq in Q. exact Q.
Qed.
