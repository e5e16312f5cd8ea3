From Coq Require Import ZArith List Bool Reals Lia Lra.
From Coquelicot Require Import Coquelicot.
From Verif Require Import Base BaseLemmas SumLemmas TrigSums SizesModel FourierModel FourierSpec PartModel KernelProofs DftModel DftTables DftForces DftSpec DftFold DftProps AxisProofs BsubProofs TrigPoly GeoModel GeoSpec GeoProofs GeoFinal.
Import ListNotations.
Open Scope R_scope.

Lemma max_fold (f : Z -> R) n : (0 <= n)%Z -> forall a, let M := for_up 0 n (fun l m => Rmax m (f l)) a in
  a <= M /\ (forall l, (0 <= l < n)%Z -> f l <= M) /\ (M = a \/ exists l, (0 <= l < n)%Z /\ M = f l).
Proof.
  intros Hn a. cbv zeta.
  refine (for_up_ind (fun k M => a <= M /\ (forall l, (0 <= l < k)%Z -> f l <= M) /\ (M = a \/ exists l, (0 <= l < k)%Z /\ M = f l)) _ _ _ _ Hn _ _).
  - split; [lra|]. split; [intros; lia|]. left. reflexivity.
  - intros k M Hk (A & B & C). split; [apply Rle_trans with (1 := A), Rmax_l|]. split.
    + intros l Hl. destruct (Z.eq_dec l k) as [->|N]; [apply Rmax_r|]. apply Rle_trans with (1 := B l ltac:(lia)), Rmax_l.
    + unfold Rmax. destruct (Rle_dec M (f k)).
      * right. exists k. split; [lia|reflexivity].
      * destruct C as [C|(l & Hl & C)]; [left; exact C|right; exists l; split; [lia|exact C]].
Qed.
Lemma min_fold (f : Z -> R) n : (0 <= n)%Z -> forall a, let M := for_up 0 n (fun l m => Rmin m (f l)) a in
  M <= a /\ (forall l, (0 <= l < n)%Z -> M <= f l) /\ (M = a \/ exists l, (0 <= l < n)%Z /\ M = f l).
Proof.
  intros Hn a. cbv zeta.
  refine (for_up_ind (fun k M => M <= a /\ (forall l, (0 <= l < k)%Z -> M <= f l) /\ (M = a \/ exists l, (0 <= l < k)%Z /\ M = f l)) _ _ _ _ Hn _ _).
  - split; [lra|]. split; [intros; lia|]. left. reflexivity.
  - intros k M Hk (A & B & C). split; [apply Rle_trans with (2 := A), Rmin_l|]. split.
    + intros l Hl. destruct (Z.eq_dec l k) as [->|N]; [apply Rmin_r|]. apply Rle_trans with (2 := B l ltac:(lia)), Rmin_l.
    + unfold Rmin. destruct (Rle_dec M (f k)).
      * destruct C as [C|(l & Hl & C)]; [left; exact C|right; exists l; split; [lia|exact C]].
      * right. exists k. split; [lia|reflexivity].
Qed.

Section E.
Variables (s : sizes) (ns : Z) (g : full_geo).
Hypothesis OK : sz_ok s.
Local Notation NZ := (sz_nZeta s).
Local Notation NT := (sz_nThetaEven s).
Local Notation nZnT := (sz_nZnT s).
Local Notation nTE := (sz_nThetaEff s).
Let r kl := r_e g ((ns - 1) * nZnT + kl)%Z + r_o g ((ns - 1) * nZnT + kl)%Z.
Let z kl := z_e g ((ns - 1) * nZnT + kl)%Z + z_o g ((ns - 1) * nZnT + kl)%Z.

Lemma extremes_eq big : extremes s ns g big =
  (for_up 0 nZnT (fun l m => Rmax m (r l)) 0, for_up 0 nZnT (fun l m => Rmin m (r l)) big, for_up 0 nZnT (fun l m => Rmax m (z l)) 0).
Proof.
  unfold extremes, for_up. generalize (zrange 0 nZnT). intros l. generalize 0 at 1 3. generalize 0. revert big.
  induction l as [|a l IH]; intros b x y; [reflexivity|]. cbn [fold_left fst snd]. rewrite IH. reflexivity.
Qed.

Variables (Rb Zb : R -> R -> R).
Hypothesis VR : edge_values s ns (fun i => r_e g i + r_o g i) Rb.
Hypothesis VZ : edge_values s ns (fun i => z_e g i + z_o g i) Zb.

Lemma kl_split kl : (0 <= kl < nZnT)%Z -> exists k l, (0 <= k < NZ)%Z /\ (0 <= l < nTE)%Z /\ kl = (k * nTE + l)%Z.
Proof.
  intros H. rewrite (so_nZnT s OK) in H. pose proof (nTE_pos s OK). exists (kl / nTE)%Z, (kl mod nTE)%Z.
  split; [|split].
  - split; [apply Z.div_pos; lia|]. apply Z.div_lt_upper_bound; lia.
  - apply Z.mod_pos_bound. lia.
  - rewrite (Z.div_mod kl nTE) at 1 by lia. ring.
Qed.
Lemma kl_range k l : (0 <= k < NZ)%Z -> (0 <= l < nTE)%Z -> (0 <= k * nTE + l < nZnT)%Z.
Proof. intros. rewrite (so_nZnT s OK). nia. Qed.

Hypothesis PR : tpoly (sz_nfp s) (sz_mpol s - 1) (sz_ntor s) Rb.
Hypothesis EvR : sz_lasym s = false -> forall th ph, Rb (- th) (- ph) = Rb th ph.

(** Every point of the whole grid has the R of a stored point. *)
Lemma stored_R k l : (0 <= k < NZ)%Z -> (0 <= l < NT)%Z ->
  exists k' l', (0 <= k' < NZ)%Z /\ (0 <= l' < nTE)%Z /\ Rb (theta_pt s l) (phi_pt s k) = Rb (theta_pt s l') (phi_pt s k').
Proof.
  intros Hk Hl. pose proof (so_nTE s OK) as TE. pose proof (so_nT s OK). destruct (sz_lasym s) eqn:LA.
  - exists k, l. rewrite TE. tauto.
  - destruct (Z_lt_le_dec l nTE) as [L|L]; [exists k, l; tauto|].
    exists (rk s k), (rl s l). split; [apply rk_range; exact OK|]. split.
    + unfold rl. rewrite Z.mod_small by lia. lia.
    + destruct PR as (L0 & D & H0). rewrite (H0 (theta_pt s (rl s l))), (ev_refl s OK) by assumption. rewrite <- H0. symmetry. apply EvR. reflexivity.
Qed.
Lemma rmax_ok big : (forall k l, (0 <= k < NZ)%Z -> (0 <= l < nTE)%Z -> 0 < Rb (theta_pt s l) (phi_pt s k)) ->
  (exists k l, (0 <= k < NZ)%Z /\ (0 <= l < NT)%Z /\ rmax_surf s ns g big = Rb (theta_pt s l) (phi_pt s k)) /\
  (forall k l, (0 <= k < NZ)%Z -> (0 <= l < NT)%Z -> Rb (theta_pt s l) (phi_pt s k) <= rmax_surf s ns g big).
Proof.
  intros POS. unfold rmax_surf. rewrite extremes_eq. cbn [fst snd].
  destruct (max_fold r nZnT (znt_pos s OK) 0) as (A & B & C). pose proof (so_nZeta s OK). pose proof (nTE_pos s OK). pose proof (so_nT s OK). pose proof (so_nTE s OK) as TE. pose proof (so_nTR s OK).
  assert (nTE <= NT)%Z by (rewrite TE; destruct (sz_lasym s); lia).
  split.
  - destruct C as [C|(kl & Hkl & C)].
    + specialize (B (0 * nTE + 0)%Z (kl_range 0 0 ltac:(lia) ltac:(lia))). pose proof (VR 0%Z 0%Z ltac:(lia) ltac:(lia)) as V. cbv beta in V. fold (r (0 * nTE + 0)%Z) in V.
      specialize (POS 0%Z 0%Z ltac:(lia) ltac:(lia)). rewrite C in B. lra.
    + destruct (kl_split kl Hkl) as (k & l & Hk & Hl & ->). exists k, l. split; [exact Hk|]. split; [lia|]. rewrite C. apply (VR k l Hk Hl).
  - intros k l Hk Hl. destruct (stored_R k l Hk Hl) as (k' & l' & Hk' & Hl' & ->). rewrite <- (VR k' l' Hk' Hl'). apply (B _ (kl_range k' l' Hk' Hl')).
Qed.
Lemma rmin_ok big : (forall k l, (0 <= k < NZ)%Z -> (0 <= l < nTE)%Z -> Rb (theta_pt s l) (phi_pt s k) <= big) ->
  (exists k l, (0 <= k < NZ)%Z /\ (0 <= l < NT)%Z /\ rmin_surf s ns g big = Rb (theta_pt s l) (phi_pt s k)) /\
  (forall k l, (0 <= k < NZ)%Z -> (0 <= l < NT)%Z -> rmin_surf s ns g big <= Rb (theta_pt s l) (phi_pt s k)).
Proof.
  intros POS. unfold rmin_surf. rewrite extremes_eq. cbn [fst snd].
  destruct (min_fold r nZnT (znt_pos s OK) big) as (A & B & C). pose proof (so_nZeta s OK). pose proof (nTE_pos s OK). pose proof (so_nT s OK). pose proof (so_nTE s OK) as TE. pose proof (so_nTR s OK).
  assert (nTE <= NT)%Z by (rewrite TE; destruct (sz_lasym s); lia).
  split.
  - destruct C as [C|(kl & Hkl & C)].
    + specialize (B (0 * nTE + 0)%Z (kl_range 0 0 ltac:(lia) ltac:(lia))). pose proof (VR 0%Z 0%Z ltac:(lia) ltac:(lia)) as V. cbv beta in V. fold (r (0 * nTE + 0)%Z) in V.
      specialize (POS 0%Z 0%Z ltac:(lia) ltac:(lia)). exists 0%Z, 0%Z. split; [lia|]. split; [lia|]. rewrite <- V in *. rewrite C in *. lra.
    + destruct (kl_split kl Hkl) as (k & l & Hk & Hl & ->). exists k, l. split; [exact Hk|]. split; [lia|]. rewrite C. apply (VR k l Hk Hl).
  - intros k l Hk Hl. destruct (stored_R k l Hk Hl) as (k' & l' & Hk' & Hl' & ->). rewrite <- (VR k' l' Hk' Hl'). apply (B _ (kl_range k' l' Hk' Hl')).
Qed.
(** Z: over the stored points only, and never below 0 *)
Lemma zmax_ok big : 0 <= zmax_surf s ns g big /\
  (zmax_surf s ns g big = 0 \/ exists k l, (0 <= k < NZ)%Z /\ (0 <= l < nTE)%Z /\ zmax_surf s ns g big = Zb (theta_pt s l) (phi_pt s k)) /\
  (forall k l, (0 <= k < NZ)%Z -> (0 <= l < nTE)%Z -> Zb (theta_pt s l) (phi_pt s k) <= zmax_surf s ns g big).
Proof.
  unfold zmax_surf. rewrite extremes_eq. cbn [fst snd]. destruct (max_fold z nZnT (znt_pos s OK) 0) as (A & B & C).
  split; [exact A|]. split.
  - destruct C as [C|(kl & Hkl & C)]; [left; exact C|]. right.
    destruct (kl_split kl Hkl) as (k & l & Hk & Hl & ->). exists k, l. split; [exact Hk|]. split; [exact Hl|]. rewrite C. apply (VZ k l Hk Hl).
  - intros k l Hk Hl. rewrite <- (VZ k l Hk Hl). apply (B _ (kl_range k l Hk Hl)).
Qed.

(** *** Waist and height in the symmetry planes *)
Lemma idx k l : (((ns - 1) * NZ + k) * nTE + l)%Z = ((ns - 1) * nZnT + (k * nTE + l))%Z.
Proof. rewrite (so_nZnT s OK). ring. Qed.
Definition plane_height (k : Z) : R := for_up 0 nTE (fun l h => Rmax h (Zb (theta_pt s l) (phi_pt s k))) 0 * 2.
Definition plane_waist (k : Z) : R := Rb 0 (phi_pt s k) - Rb PI (phi_pt s k).

Lemma body_plane k st : (0 <= k < NZ)%Z -> sz_lasym s = false -> (k = 0 \/ k = Z.quot NZ 2)%Z ->
  (if (negb (k =? 0) && negb (k =? Z.quot (sz_nZeta s) 2))%Z then st else
      let '(waist, height, index) := st in
      let index_outboard := (((ns - 1) * sz_nZeta s + k) * nTE + 0)%Z in
      let r_outboard := r_e g index_outboard + r_o g index_outboard in
      let index_inboard := (((ns - 1) * sz_nZeta s + k) * sz_nThetaReduced s + (sz_nThetaReduced s - 1))%Z in
      let r_inboard := r_e g index_inboard + r_o g index_inboard in
      let h := for_up 0 nTE (fun l h =>
        let i := (((ns - 1) * sz_nZeta s + k) * nTE + l)%Z in
        Rmax h (z_e g i + z_o g i)) 0 in
      (put (symmetry_planes_count s) index (r_outboard - r_inboard) waist,
       put (symmetry_planes_count s) index (h * 2) height, (index + 1)%Z)) =
  (put (symmetry_planes_count s) (snd st) (plane_waist k) (fst (fst st)), put (symmetry_planes_count s) (snd st) (plane_height k) (snd (fst st)), (snd st + 1)%Z).
Proof.
  intros Hk LA K.
  assert (E : (negb (k =? 0) && negb (k =? Z.quot NZ 2))%Z = false).
  { destruct K as [-> | ->]; [reflexivity|]. rewrite Z.eqb_refl. apply andb_false_r. }
  rewrite E. destruct st as ((w & h) & i). cbn [fst snd]. pose proof (so_nTE s OK) as TE. rewrite LA in TE. pose proof (so_nTR s OK).
  cbv zeta. rewrite <- TE.
  assert (E1 : r_e g (((ns - 1) * NZ + k) * nTE + 0)%Z + r_o g (((ns - 1) * NZ + k) * nTE + 0)%Z = Rb 0 (phi_pt s k)).
  { rewrite idx. pose proof (VR k 0%Z Hk ltac:(lia)) as V. cbv beta in V. rewrite V. f_equal. unfold theta_pt. rewrite Rmult_0_r. unfold Rdiv. apply Rmult_0_l. }
  assert (E2 : r_e g (((ns - 1) * NZ + k) * nTE + (nTE - 1))%Z + r_o g (((ns - 1) * NZ + k) * nTE + (nTE - 1))%Z = Rb PI (phi_pt s k)).
  { rewrite idx. pose proof (VR k (nTE - 1)%Z Hk ltac:(lia)) as V. cbv beta in V. rewrite V. f_equal. unfold theta_pt. rewrite (so_nT s OK), TE, mult_IZR.
    field. apply not_0_IZR. lia. }
  rewrite E1, E2. unfold plane_waist, plane_height. f_equal. f_equal. f_equal. f_equal. apply for_up_ext. intros l h0 Hl. rewrite idx. f_equal. apply (VZ k l Hk Hl).
Qed.

Lemma waist_symmetric : sz_lasym s = false -> supported s ->
  exists w h, waist s ns g = Some w /\ height s ns g = Some h /\ w 0%Z = plane_waist 0 /\ h 0%Z = plane_height 0 /\
  ((0 < sz_ntor s)%Z -> w 1%Z = plane_waist (Z.quot NZ 2) /\ h 1%Z = plane_height (Z.quot NZ 2)).
Proof.
  intros LA SU. pose proof (so_nZeta s OK). pose proof (so_tor s OK). pose proof (so_ntor s OK).
  set (q := Z.quot NZ 2). set (z0 := fun _ : Z => 0).
  assert (Q : (0 <= q < NZ)%Z) by (unfold q; rewrite Z.quot_div_nonneg by lia; split; [apply Z.div_pos; lia|apply Z.div_lt_upper_bound; lia]).
  assert (SP : (0 < symmetry_planes_count s)%Z) by (unfold symmetry_planes_count; destruct (sz_ntor s >? 0)%Z; lia).
  destruct (Z_lt_le_dec 0 (sz_ntor s)) as [N|N].
  - assert (Q1 : (1 <= q)%Z) by (unfold q; rewrite Z.quot_div_nonneg by lia; apply Z.div_le_lower_bound; lia).
    assert (SC : symmetry_planes_count s = 2%Z) by (unfold symmetry_planes_count; destruct (Z.gtb_spec (sz_ntor s) 0); [reflexivity|lia]).
    set (s1 := (Some (upd z0 0 (plane_waist 0)), Some (upd z0 0 (plane_height 0)), 1%Z)).
    set (s2 := (Some (upd (upd z0 0 (plane_waist 0)) 1 (plane_waist q)), Some (upd (upd z0 0 (plane_height 0)) 1 (plane_height q)), 2%Z)).
    assert (E : waist_height s ns g = s2).
    { unfold waist_height. assert (QQ : (0 <= q + 1)%Z) by lia.
      assert (I := for_up_ind (fun k st => (k = 0%Z -> st = (Some z0, Some z0, 0%Z)) /\ ((1 <= k <= q)%Z -> st = s1) /\ (k = (q + 1)%Z -> st = s2))).
      match goal with |- for_up _ _ ?b ?i = _ => destruct (I b 0%Z (q + 1)%Z i QQ) as (_ & _ & R) end.
      - split; [reflexivity|]. split; [intros; lia|intros; lia].
      - intros k st Hk (A & B & C). destruct (Z.eq_dec k 0) as [->|K0].
        + split; [intros; lia|]. split; [|intros; lia]. intros _. etransitivity; [exact (body_plane 0 st ltac:(lia) LA (or_introl eq_refl))|]. rewrite A by reflexivity. cbn [fst snd]. unfold put. rewrite SC. reflexivity.
        + destruct (Z.eq_dec k q) as [K1|K1].
          * split; [intros; lia|]. split; [intros; lia|]. intros _. etransitivity; [exact (body_plane k st ltac:(lia) LA (or_intror K1))|]. rewrite B by lia. cbn [fst snd]. unfold put. rewrite SC, K1. reflexivity.
          * split; [intros; lia|]. split; [|intros; lia]. intros _. rewrite <- B by lia.
            replace (negb (k =? 0) && negb (k =? Z.quot NZ 2))%Z with true; [reflexivity|]. symmetry. apply andb_true_intro. fold q.
            split; apply negb_true_iff, Z.eqb_neq; assumption.
      - apply R. reflexivity. }
    unfold waist, height. rewrite E. eexists. eexists. split; [reflexivity|]. split; [reflexivity|].
    rewrite !(upd_neq _ 1 0) by lia. rewrite !upd_eq. tauto.
  - assert (N1 : NZ = 1%Z) by (destruct SU; [lia|assumption]).
    assert (SC : symmetry_planes_count s = 1%Z) by (unfold symmetry_planes_count; destruct (Z.gtb_spec (sz_ntor s) 0); [lia|reflexivity]).
    assert (E : waist_height s ns g = (Some (upd z0 0 (plane_waist 0)), Some (upd z0 0 (plane_height 0)), 1%Z)).
    { unfold waist_height. replace (Z.quot NZ 2 + 1)%Z with 1%Z by (rewrite N1; reflexivity). unfold for_up. change (zrange 0 1) with [0%Z]. cbn [fold_left].
      match goal with |- _ = ?x => transitivity (put (symmetry_planes_count s) 0 (plane_waist 0) (Some z0), put (symmetry_planes_count s) 0 (plane_height 0) (Some z0), (0 + 1)%Z) end.
      - exact (body_plane 0 (Some z0, Some z0, 0%Z) ltac:(lia) LA (or_introl eq_refl)).
      - unfold put. rewrite SC. reflexivity. }
    unfold waist, height. rewrite E. eexists. eexists. split; [reflexivity|]. split; [reflexivity|]. rewrite !upd_eq. split; [reflexivity|]. split; [reflexivity|]. intros; lia.
Qed.
Lemma half_period : Z.even NZ = true -> phi_pt s (Z.quot NZ 2) = PI / IZR (sz_nfp s).
Proof.
  intros EV. pose proof (so_nZeta s OK). pose proof (so_nfp s OK). rewrite Z.quot_div_nonneg by lia. apply Z.even_spec in EV. destruct EV as (q & E).
  unfold phi_pt. rewrite E. replace (2 * q / 2)%Z with q by (rewrite Z.mul_comm, Z.div_mul; lia). rewrite mult_IZR. field. split; apply not_0_IZR; lia.
Qed.
End E.

(** *** An axisymmetric run with several toroidal planes: write past the end *)
Lemma waist_overrun s ns g : sz_ntor s = 0%Z -> (2 <= sz_nZeta s)%Z -> waist s ns g = None /\ height s ns g = None.
Proof.
  intros N0 NZ.
  assert (Q : (1 <= Z.quot (sz_nZeta s) 2)%Z) by (rewrite Z.quot_div_nonneg by lia; apply Z.div_le_lower_bound; lia).
  set (q := Z.quot (sz_nZeta s) 2) in *.
  assert (SC : symmetry_planes_count s = 1%Z) by (unfold symmetry_planes_count; rewrite N0; reflexivity).
  assert (PN : forall v a, put 1 1 v a = None) by (intros v [a|]; reflexivity).
  assert (E : fst (waist_height s ns g) = (None, None)).
  { unfold waist_height. fold q. assert (QQ : (0 <= q + 1)%Z) by lia.
    assert (I := for_up_ind (fun k (st : option (Z -> R) * option (Z -> R) * Z) => (k = 0%Z -> snd st = 0%Z) /\ ((1 <= k <= q)%Z -> snd st = 1%Z) /\ (k = (q + 1)%Z -> fst st = (None, None)))).
    match goal with |- fst (for_up _ _ ?b ?i) = _ => destruct (I b 0%Z (q + 1)%Z i QQ) as (_ & _ & R) end.
    - split; [reflexivity|]. split; [intros; lia|intros; lia].
    - intros k ((w & h) & i) Hk (A & B & C). cbn [fst snd] in A, B, C. destruct (Z.eqb_spec k 0) as [K0|K0].
      + cbn [negb andb snd fst]. split; [intros; lia|]. split; [|intros; lia]. intros _. rewrite (A K0). reflexivity.
      + destruct (Z.eqb_spec k q) as [K1|K1]; cbn [negb andb snd fst].
        * split; [intros; lia|]. split; [intros; lia|]. intros _. rewrite B by lia. rewrite SC, !PN. reflexivity.
        * split; [intros; lia|]. split; [intros; apply B; lia|intros; lia].
    - apply R. reflexivity. }
  unfold waist, height. rewrite E. split; reflexivity.
Qed.

(** *** Extremes of the field strength *)
Lemma bmax_ok s h B2 jH l : sz_ok s -> (0 <= l < sz_nThetaReduced s)%Z ->
  (forall k, (0 <= k < sz_nZeta s)%Z -> total_pressure h (jH * sz_nZnT s + (k * sz_nThetaEff s + l))%Z = presH h jH + B2 k / 2) ->
  (exists k, (0 <= k < sz_nZeta s)%Z /\ bmax s h jH l = sqrt (B2 k)) /\ (forall k, (0 <= k < sz_nZeta s)%Z -> sqrt (B2 k) <= bmax s h jH l).
Proof.
  intros OK Hl TP. pose proof (so_nZeta s OK).
  assert (E : forall k, (0 <= k < sz_nZeta s)%Z -> mod_b s h jH k l = sqrt (B2 k)).
  { intros k Hk. unfold mod_b. rewrite TP by exact Hk. f_equal. field. }
  unfold bmax. destruct (max_fold (fun k => mod_b s h jH k l) (sz_nZeta s) ltac:(lia) 0) as (A & B & C). split.
  - destruct C as [C|(k & Hk & C)].
    + exists 0%Z. split; [lia|]. rewrite C. specialize (B 0%Z ltac:(lia)). rewrite C in B. rewrite E in B by lia. pose proof (sqrt_pos (B2 0%Z)). lra.
    + exists k. split; [exact Hk|]. rewrite C. apply E. exact Hk.
  - intros k Hk. rewrite <- E by exact Hk. apply B. exact Hk.
Qed.
Lemma bmin_ok s h B2 big jH l : sz_ok s -> (0 <= l < sz_nThetaReduced s)%Z ->
  (forall k, (0 <= k < sz_nZeta s)%Z -> total_pressure h (jH * sz_nZnT s + (k * sz_nThetaEff s + l))%Z = presH h jH + B2 k / 2) ->
  (forall k, (0 <= k < sz_nZeta s)%Z -> sqrt (B2 k) <= big) ->
  (exists k, (0 <= k < sz_nZeta s)%Z /\ bmin s h big jH l = sqrt (B2 k)) /\ (forall k, (0 <= k < sz_nZeta s)%Z -> bmin s h big jH l <= sqrt (B2 k)).
Proof.
  intros OK Hl TP BIG. pose proof (so_nZeta s OK).
  assert (E : forall k, (0 <= k < sz_nZeta s)%Z -> mod_b s h jH k l = sqrt (B2 k)).
  { intros k Hk. unfold mod_b. rewrite TP by exact Hk. f_equal. field. }
  unfold bmin. destruct (min_fold (fun k => mod_b s h jH k l) (sz_nZeta s) ltac:(lia) big) as (A & B & C). split.
  - destruct C as [C|(k & Hk & C)].
    + exists 0%Z. split; [lia|]. rewrite C. specialize (B 0%Z ltac:(lia)). rewrite C in B. rewrite E in B by lia. specialize (BIG 0%Z ltac:(lia)). lra.
    + exists k. split; [exact Hk|]. rewrite C. apply E. exact Hk.
  - intros k Hk. rewrite <- E by exact Hk. apply B. exact Hk.
Qed.

(** *** Without stellarator symmetry *)
Definition gw : full_geo :=
  let th i := 2 * PI * IZR (i mod 10) / 10 in
  let a i := IZR (i / 10) / 2 in
  let z := fun _ : Z => 0 in
  mkGeo (fun i => 10 + a i * cos (th i)) z (fun i => -5 + a i * sin (th i)) z z z z z z z z z.
Lemma asym_witness : exists s g, make_sizes true 1 2 0 0 0 2 0 = Some s /\
  (forall j l, (0 <= j < 3)%Z -> (0 <= l < sz_nThetaEff s)%Z ->
    let i := at_pt s j 0 l in r_e g i + r_o g i = 10 + IZR j / 2 * cos (theta_pt s l) /\ z_e g i + z_o g i = -5 + IZR j / 2 * sin (theta_pt s l)) /\
  (exists w, waist s 3 g = Some w /\ w 0%Z <= 3 / 2) /\
  (exists h, height s 3 g = Some h /\ h 0%Z = 0) /\
  (forall big, zmax_surf s 3 g big = 0).
Proof.
  assert (exists s, make_sizes true 1 2 0 0 0 2 0 = Some s) as (s & ES) by (eexists; reflexivity).
  assert (OK := make_sizes_ok _ _ _ _ _ _ _ _ _ ES).
  assert (K : sz_nThetaEven s = 10%Z /\ sz_nThetaReduced s = 6%Z /\ sz_nZeta s = 1%Z /\ sz_nThetaEff s = 10%Z /\ sz_nZnT s = 10%Z /\ sz_ntor s = 0%Z) by (injection ES as <-; repeat split).
  destruct K as (NT & TR & NZ & TE & ZT & NTO).
  assert (V : forall j l, (0 <= j < 3)%Z -> (0 <= l < sz_nThetaEff s)%Z ->
    let i := at_pt s j 0 l in r_e gw i + r_o gw i = 10 + IZR j / 2 * cos (theta_pt s l) /\ z_e gw i + z_o gw i = -5 + IZR j / 2 * sin (theta_pt s l)).
  { intros j l Hj Hl i. unfold gw. cbn [r_e r_o z_e z_o]. unfold i, at_pt, theta_pt. rewrite NZ, TE, NT in *.
    replace ((j * 1 + 0) * 10 + l)%Z with (l + j * 10)%Z by ring. rewrite Z_mod_plus_full, Z.div_add, Z.mod_small, Z.div_small, Z.add_0_l by lia. rewrite !Rplus_0_r. split; reflexivity. }
  assert (ZN : forall i, (0 <= i < 30)%Z -> z_e gw i + z_o gw i <= 0).
  { intros i Hi. unfold gw. cbn [z_e z_o]. pose proof (SIN_bound (2 * PI * IZR (i mod 10) / 10)).
    assert (D : (0 <= i / 10 <= 2)%Z) by (split; [apply Z.div_pos; lia|]; assert (i / 10 < 3)%Z by (apply Z.div_lt_upper_bound; lia); lia).
    assert (0 <= IZR (i / 10) <= 2) by (split; apply IZR_le; lia). nra. }
  exists s, gw. split; [exact ES|]. split; [exact V|].
  assert (H0 : for_up 0 10 (fun l h => Rmax h (z_e gw ((2 * 1 + 0) * 10 + l)%Z + z_o gw ((2 * 1 + 0) * 10 + l)%Z)) 0 = 0).
  { destruct (max_fold (fun l => z_e gw ((2 * 1 + 0) * 10 + l)%Z + z_o gw ((2 * 1 + 0) * 10 + l)%Z) 10 ltac:(lia) 0) as (A & B & C).
    destruct C as [C|(l & Hl & C)]; [exact C|]. apply Rle_antisym; [|exact A]. rewrite C. apply ZN. lia. }
  assert (W : waist_height s 3 gw = (Some (upd (fun _ => 0) 0 (10 + IZR 2 / 2 * cos 0 - (r_e gw 17%Z + r_o gw 17%Z))), Some (upd (fun _ => 0) 0 (0 * 2)), 1%Z)).
  { unfold waist_height. unfold symmetry_planes_count. rewrite NZ, TE, TR, NTO. change (Z.quot 1 2 + 1)%Z with 1%Z. unfold for_up at 1. change (zrange 0 1) with [0%Z]. cbn [fold_left].
    change (negb (0 =? 0)%Z && negb (0 =? Z.quot 1 2)%Z) with false. cbv iota zeta.
    change (3 - 1)%Z with 2%Z. rewrite H0. unfold put. change ((0 <=? 0)%Z && (0 <? (if (0 >? 0)%Z then 2 else 1))%Z) with true. cbv iota.
    assert (E : r_e gw ((2 * 1 + 0) * 10 + 0)%Z + r_o gw ((2 * 1 + 0) * 10 + 0)%Z = 10 + IZR 2 / 2 * cos 0).
    { pose proof (V 2%Z 0%Z ltac:(lia) ltac:(lia)) as (V1 & _). unfold at_pt, theta_pt in V1. rewrite NZ, TE in V1. rewrite V1. do 3 f_equal. rewrite Rmult_0_r. unfold Rdiv. apply Rmult_0_l. }
    rewrite E. reflexivity. }
  split; [|split].
  - unfold waist. rewrite W. eexists. split; [reflexivity|]. rewrite upd_eq. unfold gw. cbn [r_e r_o].
    change (17 / 10)%Z with 1%Z. pose proof (COS_bound (2 * PI * IZR (17 mod 10) / 10)). rewrite cos_0. lra.
  - unfold height. rewrite W. eexists. split; [reflexivity|]. rewrite upd_eq. ring.
  - intros big. unfold zmax_surf. rewrite extremes_eq. cbn [snd]. rewrite ZT.
    destruct (max_fold (fun l => z_e gw ((3 - 1) * 10 + l)%Z + z_o gw ((3 - 1) * 10 + l)%Z) 10 ltac:(lia) 0) as (A & B & C).
    destruct C as [C|(l & Hl & C)]; [exact C|]. apply Rle_antisym; [|exact A]. rewrite C. apply ZN. lia.
Qed.
