(** The axis guess: the function maximised by the search is the Jacobian. *)
From Coq Require Import ZArith List Bool Reals Lia Lra.
From Coquelicot Require Import Coquelicot.
From Verif Require Import Base BaseLemmas SumLemmas TrigSums SizesModel FourierModel FourierSpec FourierProofs DftTables BoundaryModel BoundarySpec BoundaryProofs AxisModel AxisSpec AxisProofs AxisSearch.
Import ListNotations.
Open Scope R_scope.

Lemma zsum_is_derive lo hi (f : Z -> R -> R) (g : Z -> R) x : (forall j, is_derive (f j) x (g j)) ->
  is_derive (fun y => zsum lo hi (fun j => f j y)) x (zsum lo hi g).
Proof.
  intros H. unfold zsum. generalize (zrange lo hi) as L. induction L as [|j L IH].
  - cbn [rsum]. apply @is_derive_const.
  - cbn [rsum]. apply @is_derive_plus; [apply H|exact IH].
Qed.

Section Jac.
  Context (s : sizes) (OK : sz_ok s) (b0 : basis_tables) (b : bdy) (M2 : (2 <= sz_mpol s)%Z).
  Context (raxis_c raxis_s zaxis_s zaxis_c : Z -> R) (ns sj : Z) (NS : (2 <= ns)%Z).
  Context (LA : sz_lasym s = false).
  Local Notation t := (tab s b0).
  Local Notation lthreed := (sz_lthreed s).
  Local Notation mpol := (sz_mpol s).
  Local Notation ntor := (sz_ntor s).
  Local Notation nZ := (sz_nZeta s).
  Local Notation nT := (sz_nThetaEven s).
  Local Notation nTR := (sz_nThetaReduced s).

  (** A transform with angular functions f1, f2 of opposite parity, on the full grid. *)
  Definition ser (f1 f2 : Z -> R -> R) (c : quad) (th ze : R) : R :=
    zsum 0 mpol (fun m => zsum 0 (ntor + 1) (fun n =>
      q_a c m n * (f1 m th * cos (IZR n * ze)) + (if lthreed then q_3 c m n * (f2 m th * sin (IZR n * ze)) else 0))).

  Lemma transform_ser P1 P2 f1 f2 c k l : (0 <= k < nZ)%Z -> (0 <= l < nTR)%Z ->
    (forall m, (0 <= m < mpol)%Z -> P1 (m * nTR + l)%Z = f1 m (ang nT l) * s2 m) ->
    (forall m, (0 <= m < mpol)%Z -> P2 (m * nTR + l)%Z = f2 m (ang nT l) * s2 m) ->
    transform s t P1 P2 c k l = ser f1 f2 c (ang nT l) (ang nZ k).
  Proof using OK LA.
    intros Hk Hl H1 H2. rewrite (transform_eq s OK b0 P1 P2 (fun m => f1 m (ang nT l)) (fun m => f2 m (ang nT l)) c k l Hk Hl H1 H2).
    rewrite LA. unfold ser. apply zsum_ext; intros m Hm. apply zsum_ext; intros n Hn. ring.
  Qed.

  Lemma zsum_neg lo hi f : zsum lo hi (fun j => - f j) = - zsum lo hi f.
  Proof using. clear. transitivity (-1 * zsum lo hi f); [|ring]. rewrite <- zsum_scale. apply zsum_ext. intros. ring. Qed.

  Lemma ser_refl sg f1 f2 c k l : sg = 1 \/ sg = -1 -> (0 <= k < nZ)%Z -> (0 < l < nT)%Z ->
    (forall m, f1 m (ang nT (nT - l)) = sg * f1 m (ang nT l)) -> (forall m, f2 m (ang nT (nT - l)) = - sg * f2 m (ang nT l)) ->
    ser f1 f2 c (ang nT (nT - l)) (ang nZ ((nZ - k) mod nZ)) = sg * ser f1 f2 c (ang nT l) (ang nZ k).
  Proof using OK.
    intros Hs Hk Hl H1 H2. unfold ser. rewrite <- zsum_scale. apply zsum_ext; intros m Hm. rewrite <- zsum_scale. apply zsum_ext; intros n Hn.
    pose proof (so_nZeta s OK). rewrite ang_refl_cos, ang_refl_sin by lia. rewrite H1, H2. destruct lthreed; ring.
  Qed.

  Lemma on_full sg (f : Z -> Z -> R) (F : R -> R -> R) k l : sg = 1 \/ sg = -1 ->
    (forall k l, (0 <= k < nZ)%Z -> (0 <= l < nTR)%Z -> f k l = F (ang nT l) (ang nZ k)) ->
    (forall k l, (0 <= k < nZ)%Z -> (0 < l < nT)%Z -> F (ang nT (nT - l)) (ang nZ ((nZ - k) mod nZ)) = sg * F (ang nT l) (ang nZ k)) ->
    (0 <= k < nZ)%Z -> (0 <= l < nT)%Z -> mirror s sg (on_grid s f) k l = F (ang nT l) (ang nZ k).
  Proof using OK LA.
    intros Hs Hf HF Hk Hl. rewrite mirror_at by assumption.
    pose proof (so_nT s OK) as HT. pose proof (so_nTR s OK) as HR. pose proof (so_nZeta s OK) as HZ.
    assert (G : forall k l, (0 <= k < nZ)%Z -> (0 <= l < nTR)%Z -> on_grid s f k l = f k l).
    { intros k' l' A B. rewrite on_grid_at. destruct (Z.leb_spec 0 k'), (Z.ltb_spec k' nZ), (Z.leb_spec 0 l'), (Z.ltb_spec l' nTR); try lia. reflexivity. }
    destruct (Z.ltb_spec l nTR) as [L|L].
    - rewrite G by lia. apply Hf; lia.
    - assert (Hr : (0 <= (nZ - k) mod nZ < nZ)%Z) by (apply Z.mod_pos_bound; lia).
      rewrite G by lia. rewrite Hf by lia. rewrite HF by lia. destruct Hs as [-> | ->]; ring.
  Qed.

  Lemma th_cos m l : (0 < l < nT)%Z -> cos (IZR m * ang nT (nT - l)) = cos (IZR m * ang nT l).
  Proof using. clear. intros H. rewrite <- (ang_refl_cos nT m l) by lia. rewrite Z.mod_small by lia. reflexivity. Qed.
  Lemma th_sin m l : (0 < l < nT)%Z -> sin (IZR m * ang nT (nT - l)) = - sin (IZR m * ang nT l).
  Proof using. clear. intros H. rewrite <- (ang_refl_sin nT m l) by lia. rewrite Z.mod_small by lia. reflexivity. Qed.

  Definition Rq (c : quad) := ser (fun m th => cos (IZR m * th)) (fun m th => sin (IZR m * th)) c.
  Definition Zq (c : quad) := ser (fun m th => sin (IZR m * th)) (fun m th => cos (IZR m * th)) c.
  Definition Rtq (c : quad) := ser (fun m th => IZR (- m) * sin (IZR m * th)) (fun m th => IZR m * cos (IZR m * th)) c.
  Definition Ztq (c : quad) := ser (fun m th => IZR m * cos (IZR m * th)) (fun m th => IZR (- m) * sin (IZR m * th)) c.

  Lemma Rq_full c k l : (0 <= k < nZ)%Z -> (0 <= l < nT)%Z ->
    mirror s 1 (on_grid s (transform s t (bt_cosmu t) (bt_sinmu t) c)) k l = Rq c (ang nT l) (ang nZ k).
  Proof using OK LA.
    apply (on_full 1 _ (Rq c)); [auto| |].
    - intros. apply transform_ser; [assumption..| |]; intros; cbv beta; [apply t_cosmu|apply t_sinmu]; assumption.
    - intros. apply ser_refl; [auto|assumption..| |]; intros; cbv beta; rewrite ?th_cos, ?th_sin by assumption; ring.
  Qed.
  Lemma Zq_full c k l : (0 <= k < nZ)%Z -> (0 <= l < nT)%Z ->
    mirror s (-1) (on_grid s (transform s t (bt_sinmu t) (bt_cosmu t) c)) k l = Zq c (ang nT l) (ang nZ k).
  Proof using OK LA.
    apply (on_full (-1) _ (Zq c)); [auto| |].
    - intros. apply transform_ser; [assumption..| |]; intros; cbv beta; [apply t_sinmu|apply t_cosmu]; assumption.
    - intros. apply ser_refl; [auto|assumption..| |]; intros; cbv beta; rewrite ?th_cos, ?th_sin by assumption; ring.
  Qed.
  Lemma Rtq_full c d k l : (0 <= k < nZ)%Z -> (0 <= l < nT)%Z ->
    mirror s (-1) (on_grid s (fun k l => (transform s t (bt_sinmum t) (bt_cosmum t) c k l + transform s t (bt_sinmum t) (bt_cosmum t) d k l) / 2)) k l
    = (Rtq c (ang nT l) (ang nZ k) + Rtq d (ang nT l) (ang nZ k)) / 2.
  Proof using OK LA.
    apply (on_full (-1) _ (fun th ze => (Rtq c th ze + Rtq d th ze) / 2)); [auto| |].
    - intros. f_equal. f_equal; (apply transform_ser; [assumption..| |]; intros; cbv beta; [rewrite t_sinmum by assumption|rewrite t_cosmum by assumption]; ring).
    - intros. assert (E : forall q, Rtq q (ang nT (nT - l0)) (ang nZ ((nZ - k0) mod nZ)) = -1 * Rtq q (ang nT l0) (ang nZ k0)); [|rewrite !E; field].
      intros q. apply ser_refl; [auto|assumption..| |]; intros; cbv beta; rewrite ?th_cos, ?th_sin by assumption; ring.
  Qed.
  Lemma Ztq_full c d k l : (0 <= k < nZ)%Z -> (0 <= l < nT)%Z ->
    mirror s 1 (on_grid s (fun k l => (transform s t (bt_cosmum t) (bt_sinmum t) c k l + transform s t (bt_cosmum t) (bt_sinmum t) d k l) / 2)) k l
    = (Ztq c (ang nT l) (ang nZ k) + Ztq d (ang nT l) (ang nZ k)) / 2.
  Proof using OK LA.
    apply (on_full 1 _ (fun th ze => (Ztq c th ze + Ztq d th ze) / 2)); [auto| |].
    - intros. f_equal. f_equal; (apply transform_ser; [assumption..| |]; intros; cbv beta; [rewrite t_cosmum by assumption|rewrite t_sinmum by assumption]; ring).
    - intros. assert (E : forall q, Ztq q (ang nT (nT - l0)) (ang nZ ((nZ - k0) mod nZ)) = 1 * Ztq q (ang nT l0) (ang nZ k0)); [|rewrite !E; field].
      intros q. apply ser_refl; [auto|assumption..| |]; intros; cbv beta; rewrite ?th_cos, ?th_sin by assumption; ring.
  Qed.

  (** Poloidal derivatives. *)
  Lemma Rtq_derive c th ze : Derive (fun th => Rq c th ze) th = Rtq c th ze.
  Proof using.
    apply is_derive_unique. apply zsum_is_derive. intros m. apply zsum_is_derive. intros n.
    destruct lthreed; auto_derive; [trivial| |trivial|]; rewrite ?opp_IZR; ring.
  Qed.
  Lemma Ztq_derive c th ze : Derive (fun th => Zq c th ze) th = Ztq c th ze.
  Proof using.
    apply is_derive_unique. apply zsum_is_derive. intros m. apply zsum_is_derive. intros n.
    destruct lthreed; auto_derive; [trivial| |trivial|]; rewrite ?opp_IZR; ring.
  Qed.

  (** The geometry in terms of the specification. *)
  Local Notation coef a := (fun m n => a (surf s b) (m * (ntor + 1) + n)%Z).
  Definition w12 : R := IZR (Z.quot (ns + 1) 2 - 1) / IZR (ns - 1).
  Definition Rbd := Rser lthreed mpol ntor (coef rbcc) (coef rbss).
  Definition Zbd := Zser lthreed mpol ntor (coef zbsc) (coef zbcs).
  Definition Rmd := Rser lthreed mpol ntor (blend w12 raxis_c (coef rbcc)) (blend w12 (fun _ => 0) (coef rbss)).
  Definition Zmd := Zser lthreed mpol ntor (blend w12 (fun _ => 0) (coef zbsc)) (blend w12 (fun n => - zaxis_s n) (coef zbcs)).

  Lemma sub_ns : IZR ns - 1 = IZR (ns - 1). Proof using. clear. rewrite minus_IZR. reflexivity. Qed.
  Lemma w12_range : 0 <= w12 < 1.
  Proof using NS.
    clear - NS. unfold w12. assert (Q := Z.quot_rem' (ns + 1) 2). assert (Rm := Z.rem_bound_pos (ns + 1) 2 ltac:(lia) ltac:(lia)).
    assert (P : 0 < IZR (ns - 1)) by (apply IZR_lt; lia). split.
    - apply Rmult_le_pos; [apply IZR_le; lia|]. apply Rlt_le, Rinv_0_lt_compat, P.
    - apply (Rmult_lt_reg_r (IZR (ns - 1))); [exact P|]. unfold Rdiv. rewrite Rmult_assoc, Rinv_l by lra. rewrite Rmult_1_r, Rmult_1_l. apply IZR_lt. lia.
  Qed.
  Lemma half_eq ax c m n : half1 ns ax c m n = blend w12 ax c m n.
  Proof using NS.
    clear - NS. unfold half1, blend, sqrtSF12, ns12. rewrite sub_ns. fold w12. pose proof w12_range. cbv zeta.
    rewrite sqrt_sqrt by lra. reflexivity.
  Qed.
  Lemma ds_eq : delta_s ns = 1 - w12.
  Proof using NS.
    clear - NS. unfold delta_s, ns12, w12. rewrite sub_ns. rewrite (minus_IZR (ns - 1)). assert (IZR (ns - 1) <> 0) by (apply not_0_IZR; lia). field. assumption.
  Qed.

  Lemma blend_ext w ax ax' c d m n : ax n = ax' n -> c m n = d m n -> blend w ax c m n = blend w ax' d m n.
  Proof using. clear. intros E F. unfold blend. rewrite E, F. reflexivity. Qed.

  Lemma Rb_eq th ze : Rq (r_bdy s b) th ze = Rbd th ze.
  Proof using OK M2.
    unfold Rq, Rbd, ser, Rser. apply zsum_ext; intros m Hm. apply zsum_ext; intros n Hn.
    destruct (surf_at s OK b M2 m n Hm ltac:(lia)) as (E1 & E2 & E3 & _). rewrite E1. destruct lthreed; [|reflexivity]. rewrite (proj1 (E3 eq_refl)). reflexivity.
  Qed.
  Lemma Zb_eq th ze : Zq (z_bdy s b) th ze = Zbd th ze.
  Proof using OK M2.
    unfold Zq, Zbd, ser, Zser. apply zsum_ext; intros m Hm. apply zsum_ext; intros n Hn.
    destruct (surf_at s OK b M2 m n Hm ltac:(lia)) as (E1 & E2 & E3 & _). rewrite E2. destruct lthreed; [|reflexivity]. rewrite (proj2 (E3 eq_refl)). reflexivity.
  Qed.
  Lemma Rm_eq th ze : Rq (r_half_c s b raxis_c raxis_s ns) th ze = Rmd th ze.
  Proof using OK M2 NS.
    unfold Rq, Rmd, ser, Rser. apply zsum_ext; intros m Hm. apply zsum_ext; intros n Hn. unfold r_half_c. cbn [q_a q_3].
    destruct (surf_at s OK b M2 m n Hm ltac:(lia)) as (E1 & E2 & E3 & _). rewrite !half_eq.
    rewrite (blend_ext w12 raxis_c raxis_c _ (coef rbcc) m n eq_refl (eq_sym E1)). destruct lthreed; [|reflexivity].
    rewrite (blend_ext w12 noax (fun _ => 0) _ (coef rbss) m n eq_refl (eq_sym (proj1 (E3 eq_refl)))). reflexivity.
  Qed.
  Lemma Zm_eq th ze : Zq (z_half_c s b zaxis_s zaxis_c ns) th ze = Zmd th ze.
  Proof using OK M2 NS.
    unfold Zq, Zmd, ser, Zser. apply zsum_ext; intros m Hm. apply zsum_ext; intros n Hn. unfold z_half_c. cbn [q_a q_3].
    destruct (surf_at s OK b M2 m n Hm ltac:(lia)) as (E1 & E2 & E3 & _). rewrite !half_eq.
    rewrite (blend_ext w12 noax (fun _ => 0) _ (coef zbsc) m n eq_refl (eq_sym E2)). destruct lthreed; [|reflexivity].
    rewrite (blend_ext w12 (fun n => - zaxis_s n) (fun n => - zaxis_s n) _ (coef zbcs) m n eq_refl (eq_sym (proj2 (E3 eq_refl)))). reflexivity.
  Qed.

  Lemma ax_term x p w n : p = w * s2 n -> x * p * (1 / (mscale 0 * nscale n)) = x * w.
  Proof using.
    clear. intros ->. change (mscale 0) with (s2 0). change (nscale n) with (s2 n).
    assert (S0 : s2 0 = 1) by reflexivity. rewrite S0. pose proof (s2_pos n). field. lra.
  Qed.
  Lemma ra_eq k : (0 <= k < nZ)%Z -> r_axis s t raxis_c raxis_s k = axis_R false ntor raxis_c raxis_s (ang nZ k).
  Proof using OK LA.
    intros Hk. unfold r_axis, axis_R. rewrite LA. rewrite Rplus_0_r.
    rewrite (for_up_acc _ (fun n => raxis_c n * cos (IZR n * ang nZ k))); [ring|].
    intros n x Hn. cbv zeta. rewrite (ax_term (raxis_c n) _ (cos (IZR n * ang nZ k)) n); [reflexivity|]. apply t_cosnv; [exact OK|exact Hk|lia].
  Qed.
  Lemma za_eq k : (0 <= k < nZ)%Z -> z_axis s t zaxis_s zaxis_c k = axis_Z false ntor zaxis_s zaxis_c (ang nZ k).
  Proof using OK LA.
    intros Hk. unfold z_axis, axis_Z. rewrite LA. rewrite Rplus_0_r.
    rewrite (for_up_acc _ (fun n => - zaxis_s n * sin (IZR n * ang nZ k))); [ring|].
    intros n x Hn. cbv zeta. rewrite (ax_term (zaxis_s n) _ (sin (IZR n * ang nZ k)) n); [ring|]. apply t_sinnv; [exact OK|exact Hk|lia].
  Qed.

  (** The Jacobian of the specification, at poloidal grid point l of plane k. *)
  Definition J (k : Z) (r z th : R) : R :=
    jacobian (IZR sj) w12 (fun th => Rbd th (ang nZ k)) (fun th => Zbd th (ang nZ k)) (fun th => Rmd th (ang nZ k)) (fun th => Zmd th (ang nZ k))
      (axis_R false ntor raxis_c raxis_s (ang nZ k)) (axis_Z false ntor zaxis_s zaxis_c (ang nZ k)) r z th.

  Lemma tau_eq k l r z : (0 <= k < nZ)%Z -> (0 <= l < nT)%Z ->
    IZR sj * (tau0 s t b raxis_c raxis_s zaxis_s zaxis_c ns k l - ru_half s t b raxis_c raxis_s ns k l * z + zu_half s t b zaxis_s zaxis_c ns k l * r) = J k r z (ang nT l).
  Proof using OK M2 NS LA.
    intros Hk Hl. unfold tau0, J, jacobian. cbv zeta.
    unfold ru_half, zu_half, r_lcfs, z_lcfs, r_half, z_half.
    rewrite Rtq_full, Ztq_full, !Rq_full, !Zq_full by assumption. rewrite ra_eq, za_eq by assumption. rewrite ds_eq.
    rewrite !Rb_eq, !Zb_eq, !Rm_eq, !Zm_eq.
    assert (D1 : Derive (fun th => Rbd th (ang nZ k)) (ang nT l) = Rtq (r_bdy s b) (ang nT l) (ang nZ k)) by (rewrite <- Rtq_derive; apply Derive_ext; intros; symmetry; apply Rb_eq).
    assert (D2 : Derive (fun th => Zbd th (ang nZ k)) (ang nT l) = Ztq (z_bdy s b) (ang nT l) (ang nZ k)) by (rewrite <- Ztq_derive; apply Derive_ext; intros; symmetry; apply Zb_eq).
    assert (D3 : Derive (fun th => Rmd th (ang nZ k)) (ang nT l) = Rtq (r_half_c s b raxis_c raxis_s ns) (ang nT l) (ang nZ k)) by (rewrite <- Rtq_derive; apply Derive_ext; intros; symmetry; apply Rm_eq).
    assert (D4 : Derive (fun th => Zmd th (ang nZ k)) (ang nT l) = Ztq (z_half_c s b zaxis_s zaxis_c ns) (ang nT l) (ang nZ k)) by (rewrite <- Ztq_derive; apply Derive_ext; intros; symmetry; apply Zm_eq).
    rewrite D1, D2, D3, D4. unfold Rdiv. ring.
  Qed.

  Lemma tau_min_spec k r z : (0 <= k < nZ)%Z -> let v := tau_min s t b raxis_c raxis_s zaxis_s zaxis_c ns sj k r z in
    (exists l, (0 <= l < nT)%Z /\ J k r z (ang nT l) = v) /\ (forall l, (0 <= l < nT)%Z -> v <= J k r z (ang nT l)).
  Proof using OK M2 NS LA.
    intros Hk v. unfold v, tau_min. set (f := fun l : Z => IZR sj * _). destruct (min_elem_spec s f (nT_1 s OK)) as ((l & Hl & E) & A). split.
    - exists l. split; [exact Hl|]. rewrite E. unfold f. symmetry. apply tau_eq; assumption.
    - intros j Hj. rewrite <- tau_eq by assumption. apply A, Hj.
  Qed.

  (** ** What the search finds *)
  Local Notation tm := (tau_min s t b raxis_c raxis_s zaxis_s zaxis_c ns sj).
  Local Notation search := (search s t b raxis_c raxis_s zaxis_s zaxis_c ns sj).
  Local Notation min_r := (min_r s t b).
  Local Notation max_r := (max_r s t b).
  Local Notation min_z := (min_z s t b).
  Local Notation max_z := (max_z s t b).
  Definition gr (k i : Z) : R := grid (min_r k) (max_r k) i.
  Definition gz (k j : Z) : R := if sym_plane s k then 0 else grid (min_z k) (max_z k) j.
  Definition nzg (k : Z) : Z := if sym_plane s k then 1%Z else 61%Z.

  Definition inv (k : Z) (vis : Z -> Z -> Prop) (st : R * (R * R)) : Prop :=
    let '(best, (nr, nz)) := st in
    0 <= best /\ (forall i j, vis i j -> tm k (gr k i) (gz k j) <= best) /\
    ((best = 0 /\ nr = (max_r k + min_r k) / 2) \/ (0 < best /\ exists i j, vis i j /\ nr = gr k i /\ tm k nr (gz k j) = best)) /\
    ((best = 0 /\ nz = (max_z k + min_z k) / 2) \/ (exists i j, vis i j /\ nz = gz k j /\ tm k (gr k i) nz = best)).

  Lemma visit_inv k vis i j st : inv k vis st ->
    inv k (fun i' j' => vis i' j' \/ (i' = i /\ j' = j)) (visit s t b raxis_c raxis_s zaxis_s zaxis_c ns sj k (gr k i) (gz k j) st).
  Proof using.
    clear. destruct st as (best & (nr & nz)). unfold inv, visit. intros (B0 & B1 & B2 & B3). cbv zeta.
    destruct (Rlt_dec best (tm k (gr k i) (gz k j))) as [L|L].
    - repeat split.
      + lra.
      + intros i' j' [V|(-> & ->)]; [pose proof (B1 _ _ V)|]; lra.
      + right. split; [lra|]. exists i, j. auto.
      + right. exists i, j. auto.
    - assert (B1' : forall i' j', vis i' j' \/ (i' = i /\ j' = j) -> tm k (gr k i') (gz k j') <= best) by (intros i' j' [V|(-> & ->)]; [apply B1, V|lra]).
      assert (B2' : (best = 0 /\ nr = (max_r k + min_r k) / 2) \/ (0 < best /\ exists i' j', (vis i' j' \/ (i' = i /\ j' = j)) /\ nr = gr k i' /\ tm k nr (gz k j') = best)).
      { destruct B2 as [?|(? & i' & j' & V & ?)]; [left; assumption|right]. split; [assumption|]. exists i', j'. auto. }
      assert (B3' : (best = 0 /\ nz = (max_z k + min_z k) / 2) \/ (exists i' j', (vis i' j' \/ (i' = i /\ j' = j)) /\ nz = gz k j' /\ tm k (gr k i') nz = best)).
      { destruct B3 as [?|(i' & j' & V & ?)]; [left; assumption|right]. exists i', j'. auto. }
      destruct (Req_EM_T _ _) as [E|E]; [destruct (Rlt_dec _ _)|]; (split; [exact B0|split; [exact B1'|split; [exact B2'|]]]); try exact B3'.
      right. exists i, j. auto.
  Qed.

  Lemma inv_ext k v v' st : (forall i j, v i j <-> v' i j) -> inv k v st -> inv k v' st.
  Proof using.
    clear. intros E. destruct st as (best & (nr & nz)). unfold inv. intros (B0 & B1 & B2 & B3). repeat split.
    - exact B0.
    - intros i j V. apply B1, E, V.
    - destruct B2 as [?|(? & i & j & V & ?)]; [left; assumption|right; split; [assumption|]]. exists i, j. split; [apply E, V|assumption].
    - destruct B3 as [?|(i & j & V & ?)]; [left; assumption|right]. exists i, j. split; [apply E, V|assumption].
  Qed.

  Lemma gr_eq k i : min_r k + IZR i * delta_r s t b k = gr k i.
  Proof using. clear. unfold gr, grid, delta_r. replace (61 - 1) with 60 by lra. reflexivity. Qed.
  Lemma gz_eq k j : (if sym_plane s k then 0 else min_z k + IZR j * delta_z s t b k) = gz k j.
  Proof using. clear. unfold gz, grid, delta_z. replace (61 - 1) with 60 by lra. reflexivity. Qed.

  Lemma search_inv k : inv k (fun i j => (0 <= i < 61)%Z /\ (0 <= j < nzg k)%Z) (search k).
  Proof using.
    clear. unfold AxisModel.search. fold (nzg k).
    pose proof (for_up_ind (fun jz st => inv k (fun i j => (0 <= i < 61)%Z /\ (0 <= j < jz)%Z) st)
      (fun iz st => let z := if sym_plane s k then 0 else min_z k + IZR iz * delta_z s t b k in
         for_up 0 61 (fun ir st => visit s t b raxis_c raxis_s zaxis_s zaxis_c ns sj k (min_r k + IZR ir * delta_r s t b k) z st) st) 0 (nzg k)
      (0, ((max_r k + min_r k) / 2, (max_z k + min_z k) / 2)) ltac:(unfold nzg; destruct (sym_plane s k); lia)) as G.
    apply G; clear G.
    - unfold inv. split; [lra|split; [intros; lia|split; left; auto]].
    - intros jz st Hj I. cbv zeta. rewrite gz_eq.
      pose proof (for_up_ind (fun ii st => inv k (fun i j => ((0 <= i < 61)%Z /\ (0 <= j < jz)%Z) \/ ((0 <= i < ii)%Z /\ j = jz)) st)
        (fun ir st => visit s t b raxis_c raxis_s zaxis_s zaxis_c ns sj k (min_r k + IZR ir * delta_r s t b k) (gz k jz) st) 0 61 st ltac:(lia)) as G.
      eapply inv_ext; [|apply G; clear G].
      + intros. cbv beta. lia.
      + eapply inv_ext; [|exact I]. intros. cbv beta. lia.
      + intros ii st' Hi I'. rewrite gr_eq. eapply inv_ext; [|apply visit_inv, I']. intros. cbv beta. lia.
  Qed.

  (** On a symmetry plane: the best point of the line Z = 0. *)
  Theorem search_sym k : (0 <= k < nZ)%Z -> sym_plane s k = true -> ((nZ - k) mod nZ = k)%Z ->
    let r := fst (snd (search k)) in
    snd (snd (search k)) = 0 /\ exists best, 0 <= best /\
    (forall i, (0 <= i < 61)%Z -> exists l, (0 <= l < nT)%Z /\ J k (grid (min_r k) (max_r k) i) 0 (ang nT l) <= best) /\
    (0 < best -> forall l, (0 <= l < nT)%Z -> best <= J k r 0 (ang nT l)) /\
    (best = 0 -> r = (max_r k + min_r k) / 2).
  Proof using OK M2 NS LA.
    intros Hk Hs Hf. pose proof (search_inv k) as I. destruct (search k) as (best & (nr & nz)). unfold inv in I. cbn [fst snd].
    destruct I as (B0 & B1 & B2 & B3). pose proof (sym_box s OK b0 b M2 k LA Hk Hf) as SB.
    assert (G0 : forall j, gz k j = 0) by (intros; unfold gz; rewrite Hs; reflexivity).
    assert (NZ0 : nz = 0).
    { destruct B3 as [(_ & ->)|(i & j & _ & -> & _)]; [rewrite SB; lra|apply G0]. }
    split; [exact NZ0|]. exists best. split; [exact B0|]. split; [|split].
    - intros i Hi. destruct (tau_min_spec k (gr k i) 0 Hk) as ((l & Hl & E) & _). exists l. split; [exact Hl|]. fold (gr k i). rewrite E.
      specialize (B1 i 0%Z). rewrite G0 in B1. apply B1. unfold nzg. rewrite Hs. lia.
    - intros BP l Hl. destruct B2 as [(E & _)|(_ & i & j & _ & E1 & E2)]; [lra|]. rewrite G0 in E2. rewrite <- E2. destruct (tau_min_spec k nr 0 Hk) as (_ & A). apply A, Hl.
    - intros E. destruct B2 as [(_ & E1)|(C & _)]; [exact E1|lra].
  Qed.

  (** Elsewhere: R and Z come from maximisers, possibly not from the same one. *)
  Theorem search_gen k : (0 <= k < nZ)%Z -> sym_plane s k = false ->
    let r := fst (snd (search k)) in let z := snd (snd (search k)) in
    exists best, 0 <= best /\
    (forall i j, (0 <= i < 61)%Z -> (0 <= j < 61)%Z -> exists l, (0 <= l < nT)%Z /\ J k (grid (min_r k) (max_r k) i) (grid (min_z k) (max_z k) j) (ang nT l) <= best) /\
    (0 < best -> exists i j, (0 <= i < 61)%Z /\ (0 <= j < 61)%Z /\
       (forall l, (0 <= l < nT)%Z -> best <= J k r (grid (min_z k) (max_z k) j) (ang nT l)) /\
       (forall l, (0 <= l < nT)%Z -> best <= J k (grid (min_r k) (max_r k) i) z (ang nT l))).
  Proof using OK M2 NS LA.
    intros Hk Hs. pose proof (search_inv k) as I. destruct (search k) as (best & (nr & nz)). unfold inv in I. cbn [fst snd]. cbv zeta.
    destruct I as (B0 & B1 & B2 & B3). unfold nzg in *. rewrite Hs in *.
    assert (G0 : forall j, gz k j = grid (min_z k) (max_z k) j) by (intros; unfold gz; rewrite Hs; reflexivity).
    exists best. split; [exact B0|]. split.
    - intros i j Hi Hj. destruct (tau_min_spec k (gr k i) (gz k j) Hk) as ((l & Hl & E) & _). exists l. split; [exact Hl|]. fold (gr k i). rewrite <- G0, E. apply B1. auto.
    - intros BP. destruct B2 as [(E & _)|(_ & i & j & (V1 & V2) & E1 & E2)]; [lra|]. destruct B3 as [(E & _)|(i' & j' & (V1' & V2') & E1' & E2')]; [lra|].
      exists i', j. split; [lia|]. split; [lia|]. split; intros l Hl.
      + rewrite <- G0, <- E2. destruct (tau_min_spec k nr (gz k j) Hk) as (_ & A). apply A, Hl.
      + fold (gr k i'). rewrite <- E2'. destruct (tau_min_spec k (gr k i') nz Hk) as (_ & A). apply A, Hl.
  Qed.
End Jac.

(** The axis relative to which the search measures, for both symmetries. *)
Lemma old_axis s (OK : sz_ok s) b0 rc rs zs zc k : (0 <= k < sz_nZeta s)%Z ->
  r_axis s (tab s b0) rc rs k = axis_R (sz_lasym s) (sz_ntor s) rc rs (ang (sz_nZeta s) k) /\
  z_axis s (tab s b0) zs zc k = axis_Z (sz_lasym s) (sz_ntor s) zs zc (ang (sz_nZeta s) k).
Proof.
  intros Hk. unfold r_axis, axis_R, z_axis, axis_Z. set (ze := ang (sz_nZeta s) k).
  assert (AC : forall n x, (0 <= n < sz_ntor s + 1)%Z -> x * bt_cosnv (tab s b0) (k * (sz_nnyq2 s + 1) + n) * (1 / (mscale 0 * nscale n)) = x * cos (IZR n * ze)).
  { intros n x Hn. apply ax_term, t_cosnv; [exact OK|exact Hk|lia]. }
  assert (AS : forall n x, (0 <= n < sz_ntor s + 1)%Z -> x * bt_sinnv (tab s b0) (k * (sz_nnyq2 s + 1) + n) * (1 / (mscale 0 * nscale n)) = x * sin (IZR n * ze)).
  { intros n x Hn. apply ax_term, t_sinnv; [exact OK|exact Hk|lia]. }
  split.
  - rewrite (for_up_acc _ (fun n => rc n * cos (IZR n * ze) + (if sz_lasym s then - rs n * sin (IZR n * ze) else 0))).
    + rewrite zsum_plus. destruct (sz_lasym s); [ring|]. rewrite (zsum_zero 0 (sz_ntor s + 1) (fun _ => 0)) by reflexivity. ring.
    + intros n x Hn. cbv zeta. rewrite AC, AS by exact Hn. destruct (sz_lasym s); ring.
  - rewrite (for_up_acc _ (fun n => - zs n * sin (IZR n * ze) + (if sz_lasym s then zc n * cos (IZR n * ze) else 0))).
    + rewrite zsum_plus. destruct (sz_lasym s); [ring|]. rewrite (zsum_zero 0 (sz_ntor s + 1) (fun _ => 0)) by reflexivity. ring.
    + intros n x Hn. cbv zeta. rewrite AC, AS by exact Hn. destruct (sz_lasym s); ring.
Qed.
