From Coq Require Import ZArith Reals List Bool Lia Lra Psatz.
From Verif Require Import Base BaseLemmas GridLemmas Num MgridModel MgridSpec.
Import ListNotations.
Open Scope Z_scope.

Section Any.
  Context {K : num}.

  Lemma rd_ok n (a : Z -> K) i : 0 <= i < n -> rd n a i = Some (a i).
  Proof. intros H. unfold rd. rewrite (proj2 (Z.leb_le _ _)), (proj2 (Z.ltb_lt _ _)) by lia. reflexivity. Qed.

  Lemma plane_bound nphi nz nr k j i : 0 <= k < nphi -> 0 <= j < nz -> 0 <= i < nr ->
    0 <= (k * nz + j) * nr + i < nphi * nz * nr.
  Proof. intros. assert (0 <= k * nz + j < nphi * nz) by nia. nia. Qed.

  Definition combine_ (g : mgrid K) (k ir jz : Z) (r z : K) (b : Z -> K) : K :=
    let ir1 := Z.min (numR g - 1) (ir + 1) in
    let jz1 := Z.min (numZ g - 1) (jz + 1) in
    let ri := nadd (minR g) (nmul (nZ ir) (deltaR g)) in
    let zj := nadd (minZ g) (nmul (nZ jz) (deltaZ g)) in
    let pr := ndiv (nsub r ri) (deltaR g) in
    let qz := ndiv (nsub z zj) (deltaZ g) in
    let w22 := nmul pr qz in
    let w21 := nsub pr w22 in
    let w12 := nsub qz w22 in
    let w11 := nsub (nadd (nZ 1) w22) (nadd pr qz) in
    nadd (nadd (nadd (nmul w11 (b (at_ (numZ g) (numR g) k jz ir))) (nmul w12 (b (at_ (numZ g) (numR g) k jz1 ir))))
               (nmul w21 (b (at_ (numZ g) (numR g) k jz ir1)))) (nmul w22 (b (at_ (numZ g) (numR g) k jz1 ir1))).

  Lemma point_some (g : mgrid K) k rL zL ir jz :
    floor_int (ndiv (nsub (crop (minR g) (maxR g) rL) (minR g)) (deltaR g)) = Some ir ->
    floor_int (ndiv (nsub (crop (minZ g) (maxZ g) zL) (minZ g)) (deltaZ g)) = Some jz ->
    0 <= ir < numR g -> 0 <= jz < numZ g -> 0 <= k < numPhi g -> len g = numPhi g * numZ g * numR g ->
    let c b := combine_ g k ir jz (crop (minR g) (maxR g) rL) (crop (minZ g) (maxZ g) zL) b in
    interpolate_point g k rL zL = Some (c (bR g), c (bP g), c (bZ g)).
  Proof.
    intros E1 E2 Hi Hj Hk Hl c. unfold interpolate_point. rewrite E1, E2. cbn [bind].
    pose proof (plane_bound (numPhi g) (numZ g) (numR g) k) as B.
    rewrite Hl.
    rewrite !rd_ok by (apply B; lia). cbn [bind].
    unfold c, combine_. 
    replace (at_ (numZ g) (numR g) k jz ir) with ((k * numZ g + jz) * numR g + ir) by (unfold at_; ring).
    replace (at_ (numZ g) (numR g) k (Z.min (numZ g - 1) (jz + 1)) ir) with ((k * numZ g + Z.min (numZ g - 1) (jz + 1)) * numR g + ir) by (unfold at_; ring).
    replace (at_ (numZ g) (numR g) k jz (Z.min (numR g - 1) (ir + 1))) with ((k * numZ g + jz) * numR g + Z.min (numR g - 1) (ir + 1)) by (unfold at_; ring).
    replace (at_ (numZ g) (numR g) k (Z.min (numZ g - 1) (jz + 1)) (Z.min (numR g - 1) (ir + 1)))
      with ((k * numZ g + Z.min (numZ g - 1) (jz + 1)) * numR g + Z.min (numR g - 1) (ir + 1)) by (unfold at_; ring).
    reflexivity.
  Qed.

  (** The loop over the boundary points. *)
  Lemma interpolate_ok (g : mgrid K) ztMin ztMax nZeta rL zL o v :
    has_mgrid_loaded g = true -> has_fixed_field g = false -> ztMin <= ztMax ->
    (forall kl, ztMin <= kl < ztMax -> interpolate_point g (Z.rem kl nZeta) (rL kl) (zL kl) = Some (v kl)) ->
    exists o', interpolate g ztMin ztMax nZeta rL zL o = Some o' /\
      (forall kl, ztMin <= kl < ztMax ->
         (fst (fst o') (kl - ztMin), snd (fst o') (kl - ztMin), snd o' (kl - ztMin)) = v kl) /\
      (forall i, ~ 0 <= i < ztMax - ztMin -> fst (fst o') i = fst (fst o) i /\ snd (fst o') i = snd (fst o) i /\ snd o' i = snd o i).
  Proof.
    intros Hl Hf Hz Hp. unfold interpolate. rewrite Hl, Hf. cbn [negb].
    apply (for_up_ind (fun m s => exists o', s = Some o' /\
      (forall kl, ztMin <= kl < m -> (fst (fst o') (kl - ztMin), snd (fst o') (kl - ztMin), snd o' (kl - ztMin)) = v kl) /\
      (forall i, ~ 0 <= i < m - ztMin -> fst (fst o') i = fst (fst o) i /\ snd (fst o') i = snd (fst o) i /\ snd o' i = snd o i))); [exact Hz| |].
    - exists o. split; [reflexivity|]. split; [intros; lia|]. auto.
    - intros m s Hm (o' & -> & A & B). destruct o' as [[br bp] bz]. cbn [bind fst snd] in *.
      rewrite (Hp m Hm). cbn [bind]. destruct (v m) as [[vr vp] vz] eqn:Ev.
      eexists. split; [reflexivity|]. cbn [fst snd]. split.
      + intros kl Hkl. destruct (Z.eq_dec kl m) as [->|N].
        * rewrite !upd_eq. auto.
        * rewrite !upd_neq by lia. apply A. lia.
      + intros i Hi. rewrite !upd_neq by lia. apply B. lia.
  Qed.

  Lemma interpolate_fixed (g : mgrid K) ztMin ztMax nZeta rL zL o :
    has_mgrid_loaded g = true -> has_fixed_field g = true -> ztMin <= ztMax ->
    exists o', interpolate g ztMin ztMax nZeta rL zL o = Some o' /\
      (forall kl, ztMin <= kl < ztMax ->
         fst (fst o') (kl - ztMin) = fixed_br g kl /\ snd (fst o') (kl - ztMin) = fixed_bp g kl /\ snd o' (kl - ztMin) = fixed_bz g kl).
  Proof.
    intros Hl Hf Hz. unfold interpolate. rewrite Hl, Hf. cbn [negb]. eexists. split; [reflexivity|].
    apply (for_up_ind (fun m o' => forall kl, ztMin <= kl < m ->
       fst (fst o') (kl - ztMin) = fixed_br g kl /\ snd (fst o') (kl - ztMin) = fixed_bp g kl /\ snd o' (kl - ztMin) = fixed_bz g kl)); [exact Hz| |].
    - intros; lia.
    - intros m [[br bp] bz] Hm A kl Hkl. cbn [fst snd] in *. destruct (Z.eq_dec kl m) as [->|N].
      + rewrite !upd_eq. auto.
      + rewrite !upd_neq by lia. apply A. lia.
  Qed.

  (** ** Loading. *)
  Lemma row_add n (t : Z -> K) x b : 0 <= n ->
    (forall l, 0 <= l < n -> for_up 0 n (fun l b => upd b l (nadd (b l) (nmul (t l) x))) b l = nadd (b l) (nmul (t l) x)) /\
    (forall l, ~ 0 <= l < n -> for_up 0 n (fun l b => upd b l (nadd (b l) (nmul (t l) x))) b l = b l).
  Proof.
    intros Hn. apply (for_up_ind (fun m b' => (forall l, 0 <= l < m -> b' l = nadd (b l) (nmul (t l) x)) /\ (forall l, ~ 0 <= l < m -> b' l = b l))); [exact Hn| |].
    - split; [intros; lia|reflexivity].
    - intros m b' Hm (A & B). split.
      + intros l Hl. destruct (Z.eq_dec l m) as [->|]; [rewrite upd_eq, B by lia; reflexivity|]. rewrite upd_neq by lia. apply A. lia.
      + intros l Hl. rewrite upd_neq by lia. apply B. lia.
  Qed.

  Lemma fold_zrange_snoc {A} (f : A -> Z -> A) n a : 0 <= n -> fold_left f (zrange 0 (n + 1)) a = f (fold_left f (zrange 0 n) a) n.
  Proof. intros H. rewrite zrange_snoc by lia. rewrite fold_left_app. reflexivity. Qed.

  Lemma accumulate_linear_spec n ncur t (I : Z -> K) l : 0 <= ncur -> 0 <= n -> 0 <= l < n ->
    accumulate_linear n ncur t I l = superposed ncur (fun i => t i l) I.
  Proof.
    intros Hc Hn Hl. unfold accumulate_linear, superposed.
    apply (for_up_ind (fun m b => b l = fold_left (fun s i => nadd s (nmul (t i l) (I i))) (zrange 0 m) (nZ 0))); [exact Hc|reflexivity|].
    intros m b Hm IH. rewrite fold_zrange_snoc by lia. rewrite <- IH.
    apply (proj1 (row_add n (t m) (I m) b Hn)). exact Hl.
  Qed.

  Lemma at_inj nz nr p j i p' j' i' : 0 <= j < nz -> 0 <= i < nr -> 0 <= j' < nz -> 0 <= i' < nr ->
    (p * nz + j) * nr + i = (p' * nz + j') * nr + i' -> p = p' /\ j = j' /\ i = i'.
  Proof.
    intros Hj Hi Hj' Hi' E.
    assert (A : p * nz + j = p' * nz + j') by nia. assert (p = p') by nia. nia.
  Qed.

  Lemma add_contribution_spec nphi nz nr c x (b : Z -> K) : 0 <= nphi -> 0 <= nz -> 0 <= nr ->
    forall p j i, 0 <= p < nphi -> 0 <= j < nz -> 0 <= i < nr ->
      add_contribution nphi nz nr c x b ((p * nz + j) * nr + i) = nadd (b ((p * nz + j) * nr + i)) (nmul (c p j i) x).
  Proof.
    intros Hp Hz Hr p0 j0 i0 H1 H2 H3.
    assert (Row : forall p j bb, 0 <= j < nz ->
      let b' := for_up 0 nr (fun i b => let l := (p * nz + j) * nr + i in upd b l (nadd (b l) (nmul (c p j i) x))) bb in
      (forall i, 0 <= i < nr -> b' ((p * nz + j) * nr + i) = nadd (bb ((p * nz + j) * nr + i)) (nmul (c p j i) x)) /\
      (forall l, ~ (p * nz + j) * nr <= l < (p * nz + j) * nr + nr -> b' l = bb l)).
    { intros p j bb Hj b'. unfold b'.
      apply (for_up_ind (fun m b' => (forall i, 0 <= i < m -> b' ((p * nz + j) * nr + i) = nadd (bb ((p * nz + j) * nr + i)) (nmul (c p j i) x)) /\
         (forall l, ~ (p * nz + j) * nr <= l < (p * nz + j) * nr + m -> b' l = bb l))); [exact Hr| |].
      - split; [intros; lia|reflexivity].
      - intros m b2 Hm (A & B). split.
        + intros i Hi. cbv zeta. destruct (Z.eq_dec i m) as [->|N]; [rewrite upd_eq, B by lia; reflexivity|]. rewrite upd_neq by lia. apply A. lia.
        + intros l Hl. cbv zeta. rewrite upd_neq by lia. apply B. lia. }
    assert (Plane : forall p bb,
      let b' := for_up 0 nz (fun j b => for_up 0 nr (fun i b => let l := (p * nz + j) * nr + i in upd b l (nadd (b l) (nmul (c p j i) x))) b) bb in
      (forall j i, 0 <= j < nz -> 0 <= i < nr -> b' ((p * nz + j) * nr + i) = nadd (bb ((p * nz + j) * nr + i)) (nmul (c p j i) x)) /\
      (forall l, ~ (p * nz) * nr <= l < (p * nz + nz) * nr -> b' l = bb l)).
    { intros p bb b'. unfold b'.
      apply (for_up_ind (fun m b' => (forall j i, 0 <= j < m -> 0 <= i < nr -> b' ((p * nz + j) * nr + i) = nadd (bb ((p * nz + j) * nr + i)) (nmul (c p j i) x)) /\
         (forall l, ~ (p * nz) * nr <= l < (p * nz + m) * nr -> b' l = bb l))); [exact Hz| |].
      - split; [intros; lia|reflexivity].
      - intros m b2 Hm (A & B). destruct (Row p m b2 Hm) as (C & D). cbv zeta in C, D. split.
        + intros j i Hj Hi. destruct (Z.eq_dec j m) as [->|N].
          * rewrite C by exact Hi. rewrite B by nia. reflexivity.
          * rewrite D by nia. apply A; lia.
        + intros l Hl. rewrite D by nia. apply B. nia. }
    assert (All : (forall p j i, 0 <= p < nphi -> 0 <= j < nz -> 0 <= i < nr ->
        add_contribution nphi nz nr c x b ((p * nz + j) * nr + i) = nadd (b ((p * nz + j) * nr + i)) (nmul (c p j i) x)) /\
      (forall l, ~ 0 <= l < (nphi * nz) * nr -> add_contribution nphi nz nr c x b l = b l)).
    { unfold add_contribution.
      apply (for_up_ind (fun m b' => (forall p j i, 0 <= p < m -> 0 <= j < nz -> 0 <= i < nr -> b' ((p * nz + j) * nr + i) = nadd (b ((p * nz + j) * nr + i)) (nmul (c p j i) x)) /\
         (forall l, ~ 0 <= l < (m * nz) * nr -> b' l = b l))); [exact Hp| |].
      - split; [intros; lia|reflexivity].
      - intros m b2 Hm (A & B). destruct (Plane m b2) as (C & D). cbv zeta in C, D. split.
        + intros p j i H1' Hj Hi. destruct (Z.eq_dec p m) as [->|N].
          * rewrite C by assumption. rewrite B by nia. reflexivity.
          * rewrite D; [apply A; lia|]. assert (p * nz + j < m * nz) by nia. nia.
        + intros l Hl. rewrite D by nia. apply B. nia. }
    apply (proj1 All); assumption.
  Qed.
End Any.

(** ** Exact arithmetic. *)
Lemma trunc_R_pos (x : R) : (0 <= x)%R -> @ntrunc num_R x = Int_part x.
Proof. intros H. cbn. destruct (Rlt_dec x 0); [lra|reflexivity]. Qed.

Lemma floor_int_R (x : R) (i : Z) : (IZR i <= x < IZR i + 1)%R -> 0 <= i < 2 ^ 31 -> @floor_int num_R x = Some i.
Proof.
  intros Hx Hi.
  assert (P : (0 <= x)%R) by (apply Rle_trans with (IZR i); [apply IZR_le; lia|lra]).
  assert (E : Int_part x = i).
  { destruct (base_Int_part x) as (A & B). apply Z.le_antisymm.
    - apply Z.lt_succ_r. apply lt_IZR. rewrite succ_IZR. lra.
    - apply Z.lt_succ_r. apply lt_IZR. rewrite succ_IZR. lra. }
  assert (F : @nfloor num_R x = i).
  { unfold nfloor. rewrite trunc_R_pos, E by exact P. cbn. unfold Rltb. destruct (Rlt_dec x (IZR i)); [lra|reflexivity]. }
  unfold floor_int. rewrite F. cbn [nfinite num_R andb].
  rewrite (proj2 (Z.leb_le _ _)), (proj2 (Z.ltb_lt _ _)) by lia. reflexivity.
Qed.

Lemma crop_R (lo hi x : R) : @crop num_R lo hi x = nearest lo hi x.
Proof.
  unfold crop, nearest, nmax, nmin. cbn. unfold Rltb.
  destruct (Rlt_dec hi x); destruct (Rlt_dec lo _) as [H|H]; unfold Rmax, Rmin; destruct (Rle_dec x hi); destruct (Rle_dec lo _); lra.
Qed.

(** Existence of the cell. *)
Lemma cell_R (lo hi : R) n (x : R) : (lo < hi)%R -> 2 <= n < 2 ^ 31 -> (lo <= x <= hi)%R ->
  let d := ((hi - lo) / IZR (n - 1))%R in
  exists i, @floor_int num_R ((x - lo) / d)%R = Some i /\ 0 <= i < n /\
    (IZR i <= (x - lo) / d < IZR i + 1)%R /\ (i = n - 1 -> x = hi).
Proof.
  intros Hl Hn Hx d.
  assert (Hm : (0 < IZR (n - 1))%R) by (apply IZR_lt; lia).
  assert (Hd : (0 < d)%R) by (apply Rdiv_lt_0_compat; lra).
  assert (Hq : (0 <= (x - lo) / d <= IZR (n - 1))%R).
  { split; [apply Rmult_le_pos; [lra|left; apply Rinv_0_lt_compat; exact Hd]|].
    apply Rmult_le_reg_r with d; [exact Hd|]. unfold Rdiv at 1. rewrite Rmult_assoc, Rinv_l by lra.
    unfold d. replace (IZR (n - 1) * ((hi - lo) / IZR (n - 1)))%R with (hi - lo)%R by (field; lra). lra. }
  set (q := ((x - lo) / d)%R) in *.
  exists (Int_part q). destruct (base_Int_part q) as (A & B).
  assert (I0 : 0 <= Int_part q).
  { apply Z.lt_succ_r. apply lt_IZR. rewrite succ_IZR. lra. }
  assert (I1 : Int_part q <= n - 1) by (apply le_IZR; lra).
  split; [apply floor_int_R; [lra|lia]|]. split; [lia|]. split; [lra|].
  intros E. rewrite E in A. assert (Q : q = IZR (n - 1)) by lra.
  assert (x - lo = q * d)%R by (unfold q; field; lra).
  rewrite Q in H. unfold d in H. replace (IZR (n - 1) * ((hi - lo) / IZR (n - 1)))%R with (hi - lo)%R in H by (field; lra). lra.
Qed.

Lemma nearest_in lo hi x : (lo < hi)%R -> (lo <= nearest lo hi x <= hi)%R.
Proof. intros H. unfold nearest, Rmax, Rmin. destruct (Rle_dec x hi); destruct (Rle_dec lo _); lra. Qed.

Lemma nearest_id lo hi x : (lo <= x <= hi)%R -> nearest lo hi x = x.
Proof. intros H. unfold nearest, Rmax, Rmin. destruct (Rle_dec x hi); destruct (Rle_dec lo _); lra. Qed.

Section Real.
  Context (g : mgrid num_R) (Hg : grid_ok g).

  (** The value in terms of the position within the cell. *)
  Definition blend (k ir jz : Z) (p q : R) (b : Z -> R) : R :=
    let ir1 := Z.min (numR g - 1) (ir + 1) in
    let jz1 := Z.min (numZ g - 1) (jz + 1) in
    let f := fun j i => b (at_ (numZ g) (numR g) k j i) in
    ((1 - p) * (1 - q) * f jz ir + (1 - p) * q * f jz1 ir + p * (1 - q) * f jz ir1 + p * q * f jz1 ir1)%R.

  Lemma point_R k rL zL : 0 <= k < numPhi g ->
    exists ir jz p q,
      0 <= ir < numR g /\ 0 <= jz < numZ g /\ (0 <= p < 1)%R /\ (0 <= q < 1)%R /\
      (nearest (minR g) (maxR g) rL = minR g + (IZR ir + p) * deltaR g)%R /\
      (nearest (minZ g) (maxZ g) zL = minZ g + (IZR jz + q) * deltaZ g)%R /\
      (ir = numR g - 1 -> p = 0%R) /\ (jz = numZ g - 1 -> q = 0%R) /\
      interpolate_point g k rL zL = Some (blend k ir jz p q (bR g), blend k ir jz p q (bP g), blend k ir jz p q (bZ g)).
  Proof.
    intros Hk. destruct Hg as (HR & HZ & HP & HmR & HmZ & HdR & HdZ & HL).
    destruct (cell_R (minR g) (maxR g) (numR g) (nearest (minR g) (maxR g) rL) HmR HR (nearest_in _ _ _ HmR)) as (ir & F1 & I1 & B1 & L1).
    destruct (cell_R (minZ g) (maxZ g) (numZ g) (nearest (minZ g) (maxZ g) zL) HmZ HZ (nearest_in _ _ _ HmZ)) as (jz & F2 & I2 & B2 & L2).
    rewrite <- HdR in F1, B1. rewrite <- HdZ in F2, B2.
    assert (DR : (0 < deltaR g)%R). { rewrite HdR. apply Rdiv_lt_0_compat; [lra|apply IZR_lt; lia]. }
    assert (DZ : (0 < deltaZ g)%R). { rewrite HdZ. apply Rdiv_lt_0_compat; [lra|apply IZR_lt; lia]. }
    set (r := nearest (minR g) (maxR g) rL) in *. set (z := nearest (minZ g) (maxZ g) zL) in *.
    exists ir, jz, ((r - minR g) / deltaR g - IZR ir)%R, ((z - minZ g) / deltaZ g - IZR jz)%R.
    split; [exact I1|]. split; [exact I2|]. split; [lra|]. split; [lra|].
    split; [field; lra|]. split; [field; lra|].
    split.
    { intros E. pose proof (L1 E) as E1. rewrite E1, E, HdR. field. split; [apply not_eq_sym, Rlt_not_eq, IZR_lt; lia|lra]. }
    split.
    { intros E. pose proof (L2 E) as E1. rewrite E1, E, HdZ. field. split; [apply not_eq_sym, Rlt_not_eq, IZR_lt; lia|lra]. }
    pose proof (point_some (K := num_R) g k rL zL ir jz) as P.
    rewrite !crop_R in P. fold r z in P. specialize (P F1 F2 I1 I2 Hk HL). cbv zeta in P. rewrite P.
    assert (C : forall b, combine_ (K := num_R) g k ir jz r z b = blend k ir jz ((r - minR g) / deltaR g - IZR ir)%R ((z - minZ g) / deltaZ g - IZR jz)%R b).
    { intros b. unfold combine_, blend. cbn [nadd nsub nmul ndiv nZ num_R].
      replace ((r - (minR g + IZR ir * deltaR g)) / deltaR g)%R with ((r - minR g) / deltaR g - IZR ir)%R by (field; lra).
      replace ((z - (minZ g + IZR jz * deltaZ g)) / deltaZ g)%R with ((z - minZ g) / deltaZ g - IZR jz)%R by (field; lra).
      match goal with |- @eq _ ?a ?b => change (@eq R a b) end. ring. }
    rewrite !C. reflexivity.
  Qed.

  Lemma nodeR_delta i : grid_node (minR g) (maxR g) (numR g) i = (minR g + IZR i * deltaR g)%R.
  Proof. destruct Hg as (HR & HZ & HP & HmR & HmZ & HdR & HdZ & HL). rewrite HdR. unfold grid_node. field. apply not_eq_sym, Rlt_not_eq, IZR_lt; lia. Qed.
  Lemma nodeZ_delta i : grid_node (minZ g) (maxZ g) (numZ g) i = (minZ g + IZR i * deltaZ g)%R.
  Proof. destruct Hg as (HR & HZ & HP & HmR & HmZ & HdR & HdZ & HL). rewrite HdZ. unfold grid_node. field. apply not_eq_sym, Rlt_not_eq, IZR_lt; lia. Qed.

  Lemma node_in lo hi n i : (lo < hi)%R -> 2 <= n -> 0 <= i < n -> (lo <= grid_node lo hi n i <= hi)%R.
  Proof.
    intros H Hn Hi. unfold grid_node.
    assert (0 <= IZR i / IZR (n - 1) <= 1)%R.
    { assert (0 < IZR (n - 1))%R by (apply IZR_lt; lia). split.
      - apply Rmult_le_pos; [apply IZR_le; lia|left; apply Rinv_0_lt_compat; assumption].
      - apply Rmult_le_reg_r with (IZR (n - 1)); [assumption|]. unfold Rdiv. rewrite Rmult_assoc, Rinv_l by lra. rewrite Rmult_1_r, Rmult_1_l. apply IZR_le. lia. }
    nra.
  Qed.

  Lemma same_cell (i i' : Z) (p : R) : (0 <= p < 1)%R -> (IZR i' = IZR i + p)%R -> i = i' /\ p = 0%R.
  Proof.
    intros Hp E. assert (A : (IZR (i' - i) = p)%R) by (rewrite minus_IZR; lra).
    assert (0 <= i' - i < 1). { split; [apply le_IZR; lra|apply lt_IZR; lra]. }
    assert (D : i' - i = 0) by lia. rewrite D in A. split; [lia|symmetry; exact A].
  Qed.

  Lemma node_value k j i : 0 <= k < numPhi g -> 0 <= j < numZ g -> 0 <= i < numR g ->
    interpolate_point g k (grid_node (minR g) (maxR g) (numR g) i) (grid_node (minZ g) (maxZ g) (numZ g) j)
    = Some (bR g (at_ (numZ g) (numR g) k j i), bP g (at_ (numZ g) (numR g) k j i), bZ g (at_ (numZ g) (numR g) k j i)).
  Proof.
    intros Hk Hj Hi. pose proof Hg as (HR & HZ & HP & HmR & HmZ & HdR & HdZ & HL).
    destruct (point_R k (grid_node (minR g) (maxR g) (numR g) i) (grid_node (minZ g) (maxZ g) (numZ g) j) Hk)
      as (ir & jz & p & q & I1 & I2 & P1 & Q1 & E1 & E2 & _ & _ & ->).
    rewrite nearest_id in E1 by (apply node_in; [exact HmR|lia|exact Hi]). rewrite nearest_id in E2 by (apply node_in; [exact HmZ|lia|exact Hj]).
    rewrite nodeR_delta in E1. rewrite nodeZ_delta in E2.
    assert (DR : (0 < deltaR g)%R). { rewrite HdR. apply Rdiv_lt_0_compat; [lra|apply IZR_lt; lia]. }
    assert (DZ : (0 < deltaZ g)%R). { rewrite HdZ. apply Rdiv_lt_0_compat; [lra|apply IZR_lt; lia]. }
    destruct (same_cell ir i p P1) as (-> & ->). { apply Rmult_eq_reg_r with (deltaR g); lra. }
    destruct (same_cell jz j q Q1) as (-> & ->). { apply Rmult_eq_reg_r with (deltaZ g); lra. }
    assert (X : forall b : Z -> R, blend k i j 0 0 b = b (at_ (numZ g) (numR g) k j i)) by (intros b; unfold blend; ring).
    rewrite !X. reflexivity.
  Qed.

  Lemma bilinear k (f : R -> R -> R) a b c d rL zL (B : Z -> R) :
    0 <= k < numPhi g -> (minR g <= rL <= maxR g)%R -> (minZ g <= zL <= maxZ g)%R ->
    (forall r z, f r z = a + b * r + c * z + d * r * z)%R ->
    (forall j i, 0 <= j < numZ g -> 0 <= i < numR g ->
       B (at_ (numZ g) (numR g) k j i) = f (grid_node (minR g) (maxR g) (numR g) i) (grid_node (minZ g) (maxZ g) (numZ g) j)) ->
    forall ir jz p q, 0 <= ir < numR g -> 0 <= jz < numZ g ->
      (rL = minR g + (IZR ir + p) * deltaR g)%R -> (zL = minZ g + (IZR jz + q) * deltaZ g)%R ->
      (ir = numR g - 1 -> p = 0%R) -> (jz = numZ g - 1 -> q = 0%R) ->
      blend k ir jz p q B = f rL zL.
  Proof.
    intros Hk Hr Hz Hf HB ir jz p q Hi Hj Er Ez Li Lj. unfold blend. cbv zeta.
    rewrite !HB by lia. rewrite !nodeR_delta, !nodeZ_delta, !Hf.
    destruct (Z.eq_dec ir (numR g - 1)) as [Ei|Ni]; destruct (Z.eq_dec jz (numZ g - 1)) as [Ej|Nj].
    - rewrite (Li Ei), (Lj Ej) in *. rewrite Er, Ez. ring.
    - rewrite (Li Ei) in *. rewrite (Z.min_r (numZ g - 1)) by lia. rewrite plus_IZR, Er, Ez. ring.
    - rewrite (Lj Ej) in *. rewrite (Z.min_r (numR g - 1)) by lia. rewrite plus_IZR, Er, Ez. ring.
    - rewrite !Z.min_r by lia. rewrite !plus_IZR, Er, Ez. ring.
  Qed.
End Real.
