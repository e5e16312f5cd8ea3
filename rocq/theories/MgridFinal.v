(** The statements about whole calls. *)
From Coq Require Import ZArith Reals List Bool Lia Lra Psatz.
From Flocq Require Import Core BinarySingleNaN.
From Verif Require Import Base BaseLemmas GridLemmas Num NumB64 MgridModel MgridSpec MgridProofs MgridMore MgridB64.
Import ListNotations.
Open Scope Z_scope.

Lemma plane_of kl nZeta : 0 <= kl -> 1 <= nZeta -> 0 <= Z.rem kl nZeta < nZeta.
Proof. intros. apply Z.rem_bound_pos; lia. Qed.

(** ** Doubles. *)
Section B.
  Context (lg : b64 -> b64).
  Notation K := (num_b64 lg).

  Definition b64_grid_ok (g : mgrid K) : Prop :=
    axis_ok (minR g) (maxR g) (numR g) /\ axis_ok (minZ g) (maxZ g) (numZ g) /\ 1 <= numPhi g /\
    deltaR g = delta (minR g) (maxR g) (numR g) /\ deltaZ g = delta (minZ g) (maxZ g) (numZ g) /\
    len g = numPhi g * numZ g * numR g /\ has_mgrid_loaded g = true /\ has_fixed_field g = false.

  Lemma cells_b64 (g : mgrid K) rL zL : b64_grid_ok g ->
    exists ir jz, floor_int (ndiv (nsub (crop (minR g) (maxR g) rL) (minR g)) (deltaR g)) = Some ir /\
      floor_int (ndiv (nsub (crop (minZ g) (maxZ g) zL) (minZ g)) (deltaZ g)) = Some jz /\
      0 <= ir < numR g /\ 0 <= jz < numZ g.
  Proof.
    intros (AR & AZ & HP & DR & DZ & HL & _).
    destruct (cell_b64 lg (minR g) (maxR g) rL (numR g) AR) as (ir & E1 & I1).
    destruct (cell_b64 lg (minZ g) (maxZ g) zL (numZ g) AZ) as (jz & E2 & I2).
    exists ir, jz. rewrite DR, DZ. auto.
  Qed.

  Lemma b64_in_range (g : mgrid K) ztMin ztMax rL zL o :
    b64_grid_ok g -> 0 <= ztMin <= ztMax ->
    exists o', interpolate g ztMin ztMax (numPhi g) rL zL o = Some o'.
  Proof.
    intros Hg Hz. pose proof Hg as (AR & AZ & HP & DR & DZ & HL & Ld & Fx).
    pose (v := fun kl => match interpolate_point g (Z.rem kl (numPhi g)) (rL kl) (zL kl) with Some x => x | None => (nZ 0 : K, nZ 0 : K, nZ 0 : K) end).
    destruct (interpolate_ok g ztMin ztMax (numPhi g) rL zL o v Ld Fx ltac:(lia)) as (o' & E & _); [|eauto].
    intros kl Hkl. unfold v. destruct (cells_b64 g (rL kl) (zL kl) Hg) as (ir & jz & E1 & E2 & I1 & I2).
    rewrite (point_some g (Z.rem kl (numPhi g)) (rL kl) (zL kl) ir jz E1 E2 I1 I2 (plane_of kl _ ltac:(lia) HP) HL). reflexivity.
  Qed.

  Lemma b64_plane_only (g g' : mgrid K) ztMin ztMax rL zL o o1 o2 :
    b64_grid_ok g -> b64_grid_ok g' -> 0 <= ztMin <= ztMax ->
    interpolate g ztMin ztMax (numPhi g) rL zL o = Some o1 ->
    interpolate g' ztMin ztMax (numPhi g') rL zL o = Some o2 ->
    forall kl, ztMin <= kl < ztMax -> same_plane (Z.rem kl (numPhi g)) g g' ->
      fst (fst o1) (kl - ztMin) = fst (fst o2) (kl - ztMin) /\
      snd (fst o1) (kl - ztMin) = snd (fst o2) (kl - ztMin) /\
      snd o1 (kl - ztMin) = snd o2 (kl - ztMin).
  Proof.
    intros Hg Hg' Hz R1 R2 kl Hkl SP.
    pose proof Hg as (AR & AZ & HP & DR & DZ & HL & Ld & Fx). pose proof Hg' as (AR' & AZ' & HP' & DR' & DZ' & HL' & Ld' & Fx').
    assert (Pt : forall (h : mgrid K) k, b64_grid_ok h -> 0 <= k ->
      exists x, interpolate_point h (Z.rem k (numPhi h)) (rL k) (zL k) = Some x).
    { intros h k Hh Hk. destruct (cells_b64 h (rL k) (zL k) Hh) as (ir & jz & E1 & E2 & I1 & I2).
      pose proof Hh as (_ & _ & HPh & _ & _ & HLh & _).
      rewrite (point_some h (Z.rem k (numPhi h)) (rL k) (zL k) ir jz E1 E2 I1 I2 (plane_of k _ Hk HPh) HLh). eauto. }
    pose (v := fun (h : mgrid K) k => match interpolate_point h (Z.rem k (numPhi h)) (rL k) (zL k) with Some x => x | None => (nZ 0 : K, nZ 0 : K, nZ 0 : K) end).
    assert (V : forall h, b64_grid_ok h -> forall k, ztMin <= k < ztMax -> interpolate_point h (Z.rem k (numPhi h)) (rL k) (zL k) = Some (v h k)).
    { intros h Hh k Hk. unfold v. destruct (Pt h k Hh ltac:(lia)) as (x & ->). reflexivity. }
    destruct (interpolate_ok g ztMin ztMax (numPhi g) rL zL o (v g) Ld Fx ltac:(lia) (V g Hg)) as (a & Ea & A & _).
    destruct (interpolate_ok g' ztMin ztMax (numPhi g') rL zL o (v g') Ld' Fx' ltac:(lia) (V g' Hg')) as (b & Eb & B & _).
    rewrite R1 in Ea. injection Ea as <-. rewrite R2 in Eb. injection Eb as <-.
    specialize (A kl Hkl). specialize (B kl Hkl).
    assert (S : v g kl = v g' kl).
    { unfold v. assert (N : numPhi g' = numPhi g) by (symmetry; apply SP). rewrite N.
      destruct (cells_b64 g (rL kl) (zL kl) Hg) as (ir & jz & E1 & E2 & I1 & I2).
      rewrite (point_plane g g' (Z.rem kl (numPhi g)) (rL kl) (zL kl) ir jz E1 E2 I1 I2 (plane_of kl _ ltac:(lia) HP) HL SP). reflexivity. }
    rewrite S, <- B in A. injection A as A1 A2 A3. auto.
  Qed.
End B.

(** ** Exact arithmetic. *)
Section R.
  Context (g : mgrid num_R).
  Hypothesis Hg : grid_ok g.
  Hypothesis Ld : has_mgrid_loaded g = true.
  Hypothesis Fx : has_fixed_field g = false.

  Definition value_at (k : Z) (r z : R) : R * R * R :=
    match interpolate_point g k r z with Some v => v | None => (0%R, 0%R, 0%R) end.

  Lemma value_some k r z : 0 <= k < numPhi g -> interpolate_point g k r z = Some (value_at k r z).
  Proof. intros Hk. unfold value_at. destruct (point_R g Hg k r z Hk) as (ir & jz & p & q & _ & _ & _ & _ & _ & _ & _ & _ & ->). reflexivity. Qed.

  Lemma real_call ztMin ztMax rL zL o : 0 <= ztMin <= ztMax ->
    exists o', interpolate g ztMin ztMax (numPhi g) rL zL o = Some o' /\
      (forall kl, ztMin <= kl < ztMax ->
         (fst (fst o') (kl - ztMin), snd (fst o') (kl - ztMin), snd o' (kl - ztMin)) = value_at (Z.rem kl (numPhi g)) (rL kl) (zL kl)) /\
      (forall i, ~ 0 <= i < ztMax - ztMin -> fst (fst o') i = fst (fst o) i /\ snd (fst o') i = snd (fst o) i /\ snd o' i = snd o i).
  Proof.
    intros Hz. apply interpolate_ok; [exact Ld|exact Fx|lia|].
    intros kl Hkl. apply value_some. destruct Hg as (_ & _ & HP & _). apply plane_of; lia.
  Qed.

  Lemma value_node k j i : 0 <= k < numPhi g -> 0 <= j < numZ g -> 0 <= i < numR g ->
    value_at k (grid_node (minR g) (maxR g) (numR g) i) (grid_node (minZ g) (maxZ g) (numZ g) j)
    = (bR g (at_ (numZ g) (numR g) k j i), bP g (at_ (numZ g) (numR g) k j i), bZ g (at_ (numZ g) (numR g) k j i)).
  Proof. intros. unfold value_at. rewrite (node_value g Hg) by assumption. reflexivity. Qed.

  Lemma value_nearest k r z : value_at k r z = value_at k (nearest (minR g) (maxR g) r) (nearest (minZ g) (maxZ g) z).
  Proof.
    destruct Hg as (_ & _ & _ & HmR & HmZ & _).
    assert (N : forall lo hi x, (lo < hi)%R -> @crop num_R lo hi x = @crop num_R lo hi (nearest lo hi x)).
    { intros lo hi x H. rewrite !crop_R. symmetry. apply nearest_id. apply nearest_in. exact H. }
    unfold value_at, interpolate_point. rewrite (N _ _ r HmR), (N _ _ z HmZ). reflexivity.
  Qed.

  Lemma value_blend k r z : 0 <= k < numPhi g ->
    exists ir jz p q, 0 <= ir < numR g /\ 0 <= jz < numZ g /\ (0 <= p < 1)%R /\ (0 <= q < 1)%R /\
      (nearest (minR g) (maxR g) r = minR g + (IZR ir + p) * deltaR g)%R /\
      (nearest (minZ g) (maxZ g) z = minZ g + (IZR jz + q) * deltaZ g)%R /\
      (ir = numR g - 1 -> p = 0%R) /\ (jz = numZ g - 1 -> q = 0%R) /\
      value_at k r z = (blend g k ir jz p q (bR g), blend g k ir jz p q (bP g), blend g k ir jz p q (bZ g)).
  Proof.
    intros Hk. destruct (point_R g Hg k r z Hk) as (ir & jz & p & q & A & B & C & D & E & F & G & H & P).
    exists ir, jz, p, q. unfold value_at. rewrite P. auto 10.
  Qed.

  Lemma value_bilinear k r z (fr fp fz : R -> R -> R) cr cp cz :
    0 <= k < numPhi g -> (minR g <= r <= maxR g)%R -> (minZ g <= z <= maxZ g)%R ->
    let bil (f : R -> R -> R) (c : R * R * R * R) := forall r z, f r z = (fst (fst (fst c)) + snd (fst (fst c)) * r + snd (fst c) * z + snd c * r * z)%R in
    bil fr cr -> bil fp cp -> bil fz cz ->
    (forall j i, 0 <= j < numZ g -> 0 <= i < numR g ->
       let l := at_ (numZ g) (numR g) k j i in
       let rn := grid_node (minR g) (maxR g) (numR g) i in let zn := grid_node (minZ g) (maxZ g) (numZ g) j in
       bR g l = fr rn zn /\ bP g l = fp rn zn /\ bZ g l = fz rn zn) ->
    value_at k r z = (fr r z, fp r z, fz r z).
  Proof.
    intros Hk Hr Hz bil B1 B2 B3 HB.
    destruct (value_blend k r z Hk) as (ir & jz & p & q & A & B & C & D & E & F & G & H & ->).
    rewrite nearest_id in E by exact Hr. rewrite nearest_id in F by exact Hz.
    destruct cr as [[[? ?] ?] ?], cp as [[[? ?] ?] ?], cz as [[[? ?] ?] ?]. unfold bil in *. cbn [fst snd] in *.
    f_equal; [f_equal|]; eapply (bilinear g Hg); try eassumption; intros j i Hj Hi; apply HB; assumption.
  Qed.

  Lemma value_bounds k r z lo hi (pick : R * R * R -> R) (b : Z -> R) :
    0 <= k < numPhi g ->
    (pick = (fun v => fst (fst v)) /\ b = bR g \/ pick = (fun v => snd (fst v)) /\ b = bP g \/ pick = (fun v => snd v) /\ b = bZ g) ->
    (forall j i, 0 <= j < numZ g -> 0 <= i < numR g -> (lo <= b (at_ (numZ g) (numR g) k j i) <= hi)%R) ->
    (lo <= pick (value_at k r z) <= hi)%R.
  Proof.
    intros Hk Hp Hb. destruct (value_blend k r z Hk) as (ir & jz & p & q & A & B & C & D & _ & _ & _ & _ & ->).
    destruct Hp as [(-> & ->)|[(-> & ->)|(-> & ->)]]; cbn [fst snd]; apply blend_bound; assumption.
  Qed.

  Lemma nearest_dist lo hi x y : (lo < hi)%R -> (Rabs (nearest lo hi x - nearest lo hi y) <= Rabs (x - y))%R.
  Proof.
    intros H. unfold nearest, Rmax, Rmin.
    destruct (Rle_dec x hi); destruct (Rle_dec y hi); repeat destruct (Rle_dec lo _); unfold Rabs; repeat destruct (Rcase_abs _); lra.
  Qed.

  Lemma value_lipschitz k r z r' z' L (pick : R * R * R -> R) (b : Z -> R) :
    0 <= k < numPhi g ->
    (pick = (fun v => fst (fst v)) /\ b = bR g \/ pick = (fun v => snd (fst v)) /\ b = bP g \/ pick = (fun v => snd v) /\ b = bZ g) ->
    (forall j i, 0 <= j < numZ g -> 0 <= i < numR g - 1 -> (Rabs (b (at_ (numZ g) (numR g) k j (i + 1)%Z) - b (at_ (numZ g) (numR g) k j i)) <= L)%R) ->
    (forall j i, 0 <= j < numZ g - 1 -> 0 <= i < numR g -> (Rabs (b (at_ (numZ g) (numR g) k (j + 1)%Z i) - b (at_ (numZ g) (numR g) k j i)) <= L)%R) ->
    (Rabs (pick (value_at k r' z') - pick (value_at k r z)) <= L * (Rabs (r' - r) / deltaR g + Rabs (z' - z) / deltaZ g))%R.
  Proof.
    intros Hk Hp HR HZ. pose proof Hg as (NR & NZ & _ & HmR & HmZ & HdR & HdZ & _).
    assert (DR : (0 < deltaR g)%R). { rewrite HdR. apply Rdiv_lt_0_compat; [lra|apply IZR_lt; lia]. }
    assert (DZ : (0 < deltaZ g)%R). { rewrite HdZ. apply Rdiv_lt_0_compat; [lra|apply IZR_lt; lia]. }
    destruct (value_blend k r z Hk) as (ir & jz & p & q & I & J & P & Q & E & F & G & H & ->).
    destruct (value_blend k r' z' Hk) as (ir' & jz' & p' & q' & I' & J' & P' & Q' & E' & F' & G' & H' & ->).
    assert (L0 : (0 <= L)%R). { pose proof (HR 0 0 ltac:(lia) ltac:(lia)). pose proof (Rabs_pos (b (at_ (numZ g) (numR g) k 0 (0 + 1)) - b (at_ (numZ g) (numR g) k 0 0))). lra. }
    assert (X : (Rabs (blend g k ir' jz' p' q' b - blend g k ir jz p q b)
     <= L * (Rabs ((IZR ir' + p') - (IZR ir + p)) + Rabs ((IZR jz' + q') - (IZR jz + q))))%R) by (apply blend_lip; assumption).
    assert (A1 : (Rabs ((IZR ir' + p') - (IZR ir + p)) <= Rabs (r' - r) / deltaR g)%R).
    { apply Rmult_le_reg_r with (deltaR g); [exact DR|]. unfold Rdiv. rewrite Rmult_assoc, Rinv_l, Rmult_1_r by lra.
      rewrite <- (Rabs_pos_eq (deltaR g)) at 1 by lra. rewrite <- Rabs_mult.
      replace ((IZR ir' + p' - (IZR ir + p)) * deltaR g)%R with (nearest (minR g) (maxR g) r' - nearest (minR g) (maxR g) r)%R by (rewrite E, E'; ring).
      apply nearest_dist. exact HmR. }
    assert (A2 : (Rabs ((IZR jz' + q') - (IZR jz + q)) <= Rabs (z' - z) / deltaZ g)%R).
    { apply Rmult_le_reg_r with (deltaZ g); [exact DZ|]. unfold Rdiv. rewrite Rmult_assoc, Rinv_l, Rmult_1_r by lra.
      rewrite <- (Rabs_pos_eq (deltaZ g)) at 1 by lra. rewrite <- Rabs_mult.
      replace ((IZR jz' + q' - (IZR jz + q)) * deltaZ g)%R with (nearest (minZ g) (maxZ g) z' - nearest (minZ g) (maxZ g) z)%R by (rewrite F, F'; ring).
      apply nearest_dist. exact HmZ. }
    assert (Y : (Rabs (blend g k ir' jz' p' q' b - blend g k ir jz p q b) <= L * (Rabs (r' - r) / deltaR g + Rabs (z' - z) / deltaZ g))%R).
    { eapply Rle_trans; [exact X|]. apply Rmult_le_compat_l; [exact L0|]. lra. }
    destruct Hp as [(-> & ->)|[(-> & ->)|(-> & ->)]]; cbn [fst snd]; exact Y.
  Qed.
End R.

(** ** Loading. *)
Section Load.
  Context {K : num}.

  Definition table_sized (t : table K) : Prop := 0 <= t_rows t /\ 0 <= t_numPhi t /\ 0 <= t_numZ t /\ 0 <= t_numR t.

  (** One point of the field does not depend on what was loaded before. *)
  Lemma load_replaces (t : table K) I g1 g2 : table_sized t ->
    forall ztMin ztMax nZeta rL zL o,
      interpolate (snd (LoadFields t (t_rows t) I g1)) ztMin ztMax nZeta rL zL o
      = interpolate (snd (LoadFields t (t_rows t) I g2)) ztMin ztMax nZeta rL zL o.
  Proof.
    intros _ ztMin ztMax nZeta rL zL o. unfold LoadFields. rewrite Z.eqb_refl. cbn [negb snd].
    unfold interpolate. cbn [has_mgrid_loaded has_fixed_field negb]. reflexivity.
  Qed.

  Lemma load_file_replaces (f : mgrid_file K) ncur I g1 g2 : fst (LoadFile f ncur I g1) = true ->
    fst (LoadFile f ncur I g2) = true /\
    forall ztMin ztMax nZeta rL zL o,
      interpolate (snd (LoadFile f ncur I g1)) ztMin ztMax nZeta rL zL o
      = interpolate (snd (LoadFile f ncur I g2)) ztMin ztMax nZeta rL zL o.
  Proof.
    unfold LoadFile. destruct (negb (ncur =? f_nextcur f)); [discriminate|].
    set (loop := for_up 0 (f_nextcur f) _ _). destruct loop as [ok [[br bp] bz]]. destruct ok; [|discriminate].
    intros _. split; [reflexivity|]. intros. reflexivity.
  Qed.

  Lemma index_split nphi nz nr l : 0 <= nphi -> 0 <= nz -> 0 <= nr -> 0 <= l < nphi * nz * nr ->
    exists p j i, 0 <= p < nphi /\ 0 <= j < nz /\ 0 <= i < nr /\ l = at_ nz nr p j i.
  Proof.
    intros Hp Hz Hr Hl. assert (Hr0 : 0 < nr) by nia. assert (Hz0 : 0 < nz) by nia.
    exists (l / nr / nz), ((l / nr) mod nz), (l mod nr).
    pose proof (Z.mod_pos_bound l nr Hr0). pose proof (Z.mod_pos_bound (l / nr) nz Hz0).
    pose proof (Z.div_mod l nr ltac:(lia)). pose proof (Z.div_mod (l / nr) nz ltac:(lia)).
    assert (0 <= l / nr < nphi * nz) by nia.
    assert (0 <= l / nr / nz < nphi) by nia.
    repeat split; try lia. unfold at_. nia.
  Qed.

  Lemma file_like_table (t : table K) I g1 g2 : table_sized t ->
    exists h1 h2, LoadFields t (t_rows t) I g1 = (true, h1) /\ LoadFile (file_of t) (t_rows t) I g2 = (true, h2) /\
    forall ztMin ztMax nZeta rL zL o,
      interpolate h1 ztMin ztMax nZeta rL zL o = interpolate h2 ztMin ztMax nZeta rL zL o.
  Proof.
    intros (S0 & S1 & S2 & S3).
    destruct (load_fields t (t_rows t) I g1 eq_refl S0 S1 S2 S3) as (h1 & E1 & Z1 & B1).
    destruct (load_file t (t_rows t) I g2 eq_refl S0 S1 S2 S3) as (h2 & E2 & Z2 & B2).
    exists h1, h2. split; [exact E1|]. split; [exact E2|]. intros.
    destruct Z1 as (a1 & a2 & a3 & a4 & a5 & a6 & a7 & a8 & a9 & a10 & a11 & a12).
    destruct Z2 as (b1 & b2 & b3 & b4 & b5 & b6 & b7 & b8 & b9 & b10 & b11 & b12).
    unfold interpolate. rewrite a11, a12, b11, b12. cbn [negb].
    assert (P : forall k r z, interpolate_point h1 k r z = interpolate_point h2 k r z).
    { intros. apply point_ext; try congruence. intros l Hl. rewrite a10 in Hl.
      destruct (index_split _ _ _ l S1 S2 S3 Hl) as (p & j & i & Hp & Hj & Hi & ->).
      destruct (B2 p j i Hp Hj Hi) as (-> & -> & ->). apply B1. exact Hl. }
    unfold for_up. revert o. generalize (zrange ztMin ztMax). intros l o. generalize (Some o). clear o.
    induction l as [|x l IH]; intros o; [reflexivity|]. cbn [fold_left]. rewrite IH. f_equal.
    destruct o as [[[a b] c]|]; [|reflexivity]. cbn [bind]. rewrite P. reflexivity.
  Qed.
End Load.

(** Combining two current vectors. *)
Lemma field_linear (t : table num_R) (I J : Z -> R) a b g k r z :
  0 <= t_rows t -> 2 <= t_numR t < 2 ^ 31 -> 2 <= t_numZ t < 2 ^ 31 -> 1 <= t_numPhi t ->
  (t_minR t < t_maxR t)%R -> (t_minZ t < t_maxZ t)%R -> 0 <= k < t_numPhi t ->
  let f c := interpolate_point (snd (LoadFields t (t_rows t) c g)) k r z in
  exists ir ip iz jr jp jz, f I = Some (ir, ip, iz) /\ f J = Some (jr, jp, jz) /\
    f (fun c => a * I c + b * J c)%R = Some (a * ir + b * jr, a * ip + b * jp, a * iz + b * jz)%R.
Proof.
  intros S0 SR SZ SP LR LZ Hk f. unfold f.
  destruct (load_fields t (t_rows t) I g eq_refl S0 ltac:(lia) ltac:(lia) ltac:(lia)) as (h1 & E1 & Z1 & B1).
  destruct (load_fields t (t_rows t) J g eq_refl S0 ltac:(lia) ltac:(lia) ltac:(lia)) as (h2 & E2 & Z2 & B2).
  destruct (load_fields t (t_rows t) (fun c => a * I c + b * J c)%R g eq_refl S0 ltac:(lia) ltac:(lia) ltac:(lia)) as (h3 & E3 & Z3 & B3).
  rewrite E1, E2, E3. cbn [snd].
  pose proof (grid_ok_loaded t h1 Z1 SR SZ SP LR LZ) as G1. pose proof (grid_ok_loaded t h2 Z2 SR SZ SP LR LZ) as G2. pose proof (grid_ok_loaded t h3 Z3 SR SZ SP LR LZ) as G3.
  destruct Z1 as (a1 & a2 & a3 & a4 & a5 & a6 & a7 & a8 & a9 & a10 & a11 & a12).
  destruct Z2 as (b1 & b2 & b3 & b4 & b5 & b6 & b7 & b8 & b9 & b10 & b11 & b12).
  destruct Z3 as (c1 & c2 & c3 & c4 & c5 & c6 & c7 & c8 & c9 & c10 & c11 & c12).
  destruct (value_blend h1 G1 k r z ltac:(lia)) as (ir & jz & p & q & A & B & C & D & E & F & G & H & _).
  assert (X : forall (h : mgrid num_R), grid_ok h -> numR h = t_numR t -> numZ h = t_numZ t -> numPhi h = t_numPhi t -> minR h = t_minR t -> maxR h = t_maxR t ->
    minZ h = t_minZ t -> maxZ h = t_maxZ t -> deltaR h = deltaR h1 -> deltaZ h = deltaZ h1 ->
    interpolate_point h k r z = Some (blend h k ir jz p q (bR h), blend h k ir jz p q (bP h), blend h k ir jz p q (bZ h))).
  { intros h Gh n1 n2 n3 n4 n5 n6 n7 n8 n9. destruct (point_R h Gh k r z ltac:(lia)) as (ir' & jz' & p' & q' & A' & B' & C' & D' & E' & F' & G' & H' & ->).
    assert (DR : (0 < deltaR h)%R). { destruct Gh as (? & ? & ? & HmR & HmZ & -> & _). apply Rdiv_lt_0_compat; [lra|apply IZR_lt; lia]. }
    assert (DZ : (0 < deltaZ h)%R). { destruct Gh as (? & ? & ? & HmR & HmZ & _ & -> & _). apply Rdiv_lt_0_compat; [lra|apply IZR_lt; lia]. }
    assert (Uq : forall i i' (x x' : R), (0 <= x < 1)%R -> (0 <= x' < 1)%R -> (IZR i + x = IZR i' + x')%R -> i = i' /\ x = x').
    { intros i i' x x' Hx Hx' EE. assert (Y : (IZR (i - i') = x' - x)%R) by (rewrite minus_IZR; lra).
      assert (-1 < i - i' < 1). { split; apply lt_IZR; rewrite Y; lra. }
      assert (i = i') by lia. split; [assumption|]. subst. lra. }
    destruct (Uq ir ir' p p' C C') as (<- & <-).
    { apply Rmult_eq_reg_r with (deltaR h); [|lra]. rewrite n4, n5 in E'. rewrite a2, a3, <- n8 in E. lra. }
    destruct (Uq jz jz' q q' D D') as (<- & <-).
    { apply Rmult_eq_reg_r with (deltaZ h); [|lra]. rewrite n6, n7 in F'. rewrite a5, a6, <- n9 in F. lra. }
    reflexivity. }
  rewrite (X h1 G1), (X h2 G2), (X h3 G3) by congruence.
  do 6 eexists. split; [reflexivity|]. split; [reflexivity|].
  assert (Y : forall (u1 u2 u3 : Z -> R) (w : Z -> Z -> R),
    (forall l, 0 <= l < t_numPhi t * t_numZ t * t_numR t -> u1 l = superposed (K := num_R) (t_rows t) (fun i => w i l) I) ->
    (forall l, 0 <= l < t_numPhi t * t_numZ t * t_numR t -> u2 l = superposed (K := num_R) (t_rows t) (fun i => w i l) J) ->
    (forall l, 0 <= l < t_numPhi t * t_numZ t * t_numR t -> u3 l = superposed (K := num_R) (t_rows t) (fun i => w i l) (fun c => a * I c + b * J c)%R) ->
    blend h3 k ir jz p q u3 = (a * blend h1 k ir jz p q u1 + b * blend h2 k ir jz p q u2)%R).
  { intros u1 u2 u3 w H1 H2 H3. unfold blend. rewrite a1, a4, b1, b4, c1, c4. cbv zeta.
    assert (Q : forall jj ii, 0 <= jj < t_numZ t -> 0 <= ii < t_numR t -> u3 (at_ (t_numZ t) (t_numR t) k jj ii) = (a * u1 (at_ (t_numZ t) (t_numR t) k jj ii) + b * u2 (at_ (t_numZ t) (t_numR t) k jj ii))%R).
    { intros jj ii Hj Hi. assert (Rg : 0 <= at_ (t_numZ t) (t_numR t) k jj ii < t_numPhi t * t_numZ t * t_numR t).
      { replace (at_ (t_numZ t) (t_numR t) k jj ii) with ((k * t_numZ t + jj) * t_numR t + ii) by (unfold at_; ring). apply plane_bound; assumption. }
      rewrite H1, H2, H3 by exact Rg. apply superposed_linear. exact S0. }
    rewrite !Q by lia. ring. }
  f_equal. f_equal; [f_equal|]; eapply Y; intros l Hl; first [apply (B1 l Hl)|apply (B2 l Hl)|apply (B3 l Hl)].
Qed.

(** ** A failed load. *)
Lemma failed_load_fields {K : num} (t : table K) ncur I g : fst (LoadFields t ncur I g) = false -> snd (LoadFields t ncur I g) = g.
Proof. unfold LoadFields. destruct (negb _); [reflexivity|discriminate]. Qed.
