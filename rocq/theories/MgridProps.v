(** C40, C41, C63, C64: the vacuum field on the plasma boundary. *)
From Coq Require Import ZArith Reals List Bool Lia Lra Psatz SpecFloat.
From Flocq Require Import Core BinarySingleNaN.
From Verif Require Import Base Num NumB64 MgridModel MgridSpec MgridProofs MgridB64 MgridMore MgridFinal.
Import ListNotations.
Open Scope Z_scope.

(** *** C40 *)

(** For every double (also NaN and the infinities) as position of the boundary
    the call reads inside the arrays: no undefined behaviour.  Grid: at least
    2 x 2 points, finite bounds, extent at least 2^-900 and not overflowing. *)
Theorem C40_reads_in_range :
  forall (lg : b64 -> b64) (g : mgrid (num_b64 lg)) ztMin ztMax rL zL o,
    b64_grid_ok lg g -> 0 <= ztMin <= ztMax ->
    exists o', interpolate g ztMin ztMax (numPhi g) rL zL o = Some o'.
Proof. exact b64_in_range. Qed.
Print Assumptions C40_reads_in_range.

(** The value at a point depends on the values of its own toroidal plane only. *)
Theorem C40_reads_own_plane :
  forall (lg : b64 -> b64) (g g' : mgrid (num_b64 lg)) ztMin ztMax rL zL o o1 o2,
    b64_grid_ok lg g -> b64_grid_ok lg g' -> 0 <= ztMin <= ztMax ->
    interpolate g ztMin ztMax (numPhi g) rL zL o = Some o1 ->
    interpolate g' ztMin ztMax (numPhi g') rL zL o = Some o2 ->
    forall kl, ztMin <= kl < ztMax -> same_plane (Z.rem kl (numPhi g)) g g' ->
      fst (fst o1) (kl - ztMin) = fst (fst o2) (kl - ztMin) /\
      snd (fst o1) (kl - ztMin) = snd (fst o2) (kl - ztMin) /\
      snd o1 (kl - ztMin) = snd o2 (kl - ztMin).
Proof. exact b64_plane_only. Qed.
Print Assumptions C40_reads_own_plane.

(** Exact arithmetic from here on. A call writes the value at the position of
    each point of the range, and nothing else. *)
Theorem C40_call :
  forall (g : mgrid num_R), grid_ok g -> has_mgrid_loaded g = true -> has_fixed_field g = false ->
  forall ztMin ztMax rL zL o, 0 <= ztMin <= ztMax ->
    exists o', interpolate g ztMin ztMax (numPhi g) rL zL o = Some o' /\
      (forall kl, ztMin <= kl < ztMax ->
         (fst (fst o') (kl - ztMin), snd (fst o') (kl - ztMin), snd o' (kl - ztMin)) = value_at g (Z.rem kl (numPhi g)) (rL kl) (zL kl)) /\
      (forall i, ~ 0 <= i < ztMax - ztMin -> fst (fst o') i = fst (fst o) i /\ snd (fst o') i = snd (fst o) i /\ snd o' i = snd o i).
Proof. exact real_call. Qed.
Print Assumptions C40_call.

Theorem C40_value_at_nodes :
  forall (g : mgrid num_R), grid_ok g ->
  forall k j i, 0 <= k < numPhi g -> 0 <= j < numZ g -> 0 <= i < numR g ->
    value_at g k (grid_node (minR g) (maxR g) (numR g) i) (grid_node (minZ g) (maxZ g) (numZ g) j)
    = (bR g (at_ (numZ g) (numR g) k j i), bP g (at_ (numZ g) (numR g) k j i), bZ g (at_ (numZ g) (numR g) k j i)).
Proof. exact value_node. Qed.
Print Assumptions C40_value_at_nodes.

Theorem C40_bilinear_exact :
  forall (g : mgrid num_R), grid_ok g ->
  forall k r z (fr fp fz : R -> R -> R) cr cp cz,
    0 <= k < numPhi g -> (minR g <= r <= maxR g)%R -> (minZ g <= z <= maxZ g)%R ->
    let bil (f : R -> R -> R) (c : R * R * R * R) := forall r z, f r z = (fst (fst (fst c)) + snd (fst (fst c)) * r + snd (fst c) * z + snd c * r * z)%R in
    bil fr cr -> bil fp cp -> bil fz cz ->
    (forall j i, 0 <= j < numZ g -> 0 <= i < numR g ->
       let l := at_ (numZ g) (numR g) k j i in
       let rn := grid_node (minR g) (maxR g) (numR g) i in let zn := grid_node (minZ g) (maxZ g) (numZ g) j in
       bR g l = fr rn zn /\ bP g l = fp rn zn /\ bZ g l = fz rn zn) ->
    value_at g k r z = (fr r z, fp r z, fz r z).
Proof. exact value_bilinear. Qed.
Print Assumptions C40_bilinear_exact.

Theorem C40_outside_nearest :
  forall (g : mgrid num_R), grid_ok g ->
  forall k r z, value_at g k r z = value_at g k (nearest (minR g) (maxR g) r) (nearest (minZ g) (maxZ g) z).
Proof. exact value_nearest. Qed.
Print Assumptions C40_outside_nearest.

(** *** C64: no overshoot, no jumps. *)

(** One of the three field components. *)
Definition component (g : mgrid num_R) (pick : R * R * R -> R) (b : Z -> R) : Prop :=
  pick = (fun v => fst (fst v)) /\ b = bR g \/ pick = (fun v => snd (fst v)) /\ b = bP g \/ pick = (fun v => snd v) /\ b = bZ g.

Theorem C64_no_overshoot :
  forall (g : mgrid num_R), grid_ok g ->
  forall k r z lo hi pick b, 0 <= k < numPhi g -> component g pick b ->
    (forall j i, 0 <= j < numZ g -> 0 <= i < numR g -> (lo <= b (at_ (numZ g) (numR g) k j i) <= hi)%R) ->
    (lo <= pick (value_at g k r z) <= hi)%R.
Proof. exact value_bounds. Qed.
Print Assumptions C64_no_overshoot.

(** Moving a boundary point changes the field by at most the largest difference
    [L] of neighbouring grid values per cell width: in particular there are no
    jumps between cells or at the edge of the grid. *)
Theorem C64_continuous :
  forall (g : mgrid num_R), grid_ok g ->
  forall k r z r' z' L pick b, 0 <= k < numPhi g -> component g pick b ->
    (forall j i, 0 <= j < numZ g -> 0 <= i < numR g - 1 -> (Rabs (b (at_ (numZ g) (numR g) k j (i + 1)%Z) - b (at_ (numZ g) (numR g) k j i)) <= L)%R) ->
    (forall j i, 0 <= j < numZ g - 1 -> 0 <= i < numR g -> (Rabs (b (at_ (numZ g) (numR g) k (j + 1)%Z i) - b (at_ (numZ g) (numR g) k j i)) <= L)%R) ->
    (Rabs (pick (value_at g k r' z') - pick (value_at g k r z)) <= L * (Rabs (r' - r) / deltaR g + Rabs (z' - z) / deltaZ g))%R.
Proof. exact value_lipschitz. Qed.
Print Assumptions C64_continuous.

(** *** C41 *)

(** Any arithmetic: the loaded arrays are the sums over circuits of response times
    current, whatever was in the provider before. *)
Theorem C41_superposition :
  forall (K : num) (t : table K) ncur I g,
    ncur = t_rows t -> 0 <= ncur -> 0 <= t_numPhi t -> 0 <= t_numZ t -> 0 <= t_numR t ->
    exists g', LoadFields t ncur I g = (true, g') /\ sized_by t g' /\
      (forall l, 0 <= l < t_numPhi t * t_numZ t * t_numR t ->
         bR g' l = superposed ncur (fun i => t_br t i l) I /\
         bP g' l = superposed ncur (fun i => t_bp t i l) I /\
         bZ g' l = superposed ncur (fun i => t_bz t i l) I).
Proof. exact @load_fields. Qed.
Print Assumptions C41_superposition.

Theorem C41_linear :
  forall (t : table num_R) (I J : Z -> R) a b g k r z,
    0 <= t_rows t -> 2 <= t_numR t < 2 ^ 31 -> 2 <= t_numZ t < 2 ^ 31 -> 1 <= t_numPhi t ->
    (t_minR t < t_maxR t)%R -> (t_minZ t < t_maxZ t)%R -> 0 <= k < t_numPhi t ->
    let f c := interpolate_point (snd (LoadFields t (t_rows t) c g)) k r z in
    exists ir ip iz jr jp jz, f I = Some (ir, ip, iz) /\ f J = Some (jr, jp, jz) /\
      f (fun c => a * I c + b * J c)%R = Some (a * ir + b * jr, a * ip + b * jp, a * iz + b * jz)%R.
Proof. exact field_linear. Qed.
Print Assumptions C41_linear.

Theorem C41_loading_replaces :
  forall (K : num) (t : table K) I g1 g2, table_sized t ->
    forall ztMin ztMax nZeta rL zL o,
      interpolate (snd (LoadFields t (t_rows t) I g1)) ztMin ztMax nZeta rL zL o
      = interpolate (snd (LoadFields t (t_rows t) I g2)) ztMin ztMax nZeta rL zL o.
Proof. exact @load_replaces. Qed.
Print Assumptions C41_loading_replaces.

Theorem C41_loading_file_replaces :
  forall (K : num) (f : mgrid_file K) ncur I g1 g2, fst (LoadFile f ncur I g1) = true ->
    fst (LoadFile f ncur I g2) = true /\
    forall ztMin ztMax nZeta rL zL o,
      interpolate (snd (LoadFile f ncur I g1)) ztMin ztMax nZeta rL zL o
      = interpolate (snd (LoadFile f ncur I g2)) ztMin ztMax nZeta rL zL o.
Proof. exact @load_file_replaces. Qed.
Print Assumptions C41_loading_file_replaces.

(** A file and a response table with the same contents give the same field, bit by bit. *)
Theorem C41_file_like_table :
  forall (K : num) (t : table K) I g1 g2, table_sized t ->
    exists h1 h2, LoadFields t (t_rows t) I g1 = (true, h1) /\ LoadFile (file_of t) (t_rows t) I g2 = (true, h2) /\
    forall ztMin ztMax nZeta rL zL o,
      interpolate h1 ztMin ztMax nZeta rL zL o = interpolate h2 ztMin ztMax nZeta rL zL o.
Proof. exact @file_like_table. Qed.
Print Assumptions C41_file_like_table.

(** *** C63: a load that reports an error. *)
Theorem C63_failed_table_keeps_field_partial :
  forall (K : num) (t : table K) ncur I g, fst (LoadFields t ncur I g) = false -> snd (LoadFields t ncur I g) = g.
Proof. exact @failed_load_fields. Qed.
Print Assumptions C63_failed_table_keeps_field_partial.

(** For files it is false: a 2 x 2 grid is in use; loading a file with a 3 x 3
    grid fails because one current is missing; after that the same boundary point
    is looked up outside the arrays. *)
Definition k_ : num := num_f64.
Definition t22 : table k_ := mkTable 2 (nZ 1) (nZ 2) 2 (nZ (-1)) (nZ 1) 1 1 (fun _ l => nZ l) (fun _ _ => nZ 1) (fun _ _ => nZ 0).
Definition g0 : mgrid k_ := mkMgrid 0 (nZ 0) (nZ 0) (nZ 0) 0 (nZ 0) (nZ 0) (nZ 0) 0 0 0 (fun _ => nZ 0) (fun _ => nZ 0) (fun _ => nZ 0) false false (fun _ => nZ 0) (fun _ => nZ 0) (fun _ => nZ 0).
Definition g22 : mgrid k_ := snd (LoadFields t22 1 (fun _ => nZ 1) g0).
Definition f33 : mgrid_file k_ :=
  mkFile 3 (nZ 1) (nZ 2) 3 (nZ (-1)) (nZ 1) 1 2 (fun _ => Some (fun _ _ _ => nZ 1)) (fun _ => Some (fun _ _ _ => nZ 1)) (fun _ => Some (fun _ _ _ => nZ 1)).
Definition ub {A} (o : option A) : bool := match o with None => true | Some _ => false end.

Theorem C63_failed_file_refuted :
  exists (K : num) (g : mgrid K) (f : mgrid_file K) ncur I k r z,
    has_mgrid_loaded g = true /\ ub (interpolate_point g k r z) = false /\
    fst (LoadFile f ncur I g) = false /\ has_mgrid_loaded (snd (LoadFile f ncur I g)) = true /\
    ub (interpolate_point (snd (LoadFile f ncur I g)) k r z) = true.
Proof.
  exists num_f64, g22, f33, 1, (fun _ => nZ 1), 0, (nZ 2), (nZ 1).
  split; [reflexivity|]. split; [vm_compute; reflexivity|]. split; [reflexivity|]. split; [reflexivity|].
  vm_compute. reflexivity.
Qed.
Print Assumptions C63_failed_file_refuted.

(** *** Concrete cases. *)

(** A table over R with two circuits on a 2 x 3 grid, two planes. *)
Definition tR : table num_R := mkTable (K := num_R) 3 1%R 2%R 2 (-1)%R 1%R 2 2 (fun c l => IZR (c + l)) (fun c l => IZR (c * l)) (fun _ l => IZR l).
Definition g0R : mgrid num_R := mkMgrid (K := num_R) 0 0%R 0%R 0%R 0 0%R 0%R 0%R 0 0 0 (fun _ => 0%R) (fun _ => 0%R) (fun _ => 0%R) false false (fun _ => 0%R) (fun _ => 0%R) (fun _ => 0%R).
Definition gR : mgrid num_R := snd (LoadFields tR 2 (fun c => IZR (c + 1)) g0R).

Example C40_case_grid : grid_ok gR /\ has_mgrid_loaded gR = true /\ has_fixed_field gR = false.
Proof.
  split; [|split; reflexivity].
  destruct (load_fields tR 2 (fun c => IZR (c + 1)) g0R eq_refl ltac:(lia) ltac:(cbn; lia) ltac:(cbn; lia) ltac:(cbn; lia)) as (h & E & S & _).
  assert (H : gR = h) by (unfold gR; rewrite E; reflexivity). rewrite H.
  apply (grid_ok_loaded tR h S); cbn; lia || lra.
Qed.

(** plane 1, upper row, middle column: storage position 10; two circuits with
    currents 1 and 2: radial field (0 + 10) 1 + (1 + 10) 2 = 32. *)
Example C40_case_node : value_at gR 1 (grid_node 1 2 3 1) (grid_node (-1) 1 2 1) = (32%R, 20%R, 30%R).
Proof.
  etransitivity; [exact (C40_value_at_nodes gR (proj1 C40_case_grid) 1 1 1 ltac:(cbn; lia) ltac:(cbn; lia) ltac:(cbn; lia))|].
  destruct (load_fields tR 2 (fun c => IZR (c + 1)) g0R eq_refl ltac:(lia) ltac:(cbn; lia) ltac:(cbn; lia) ltac:(cbn; lia)) as (h & E & S & B).
  assert (H : gR = h) by (unfold gR; rewrite E; reflexivity). rewrite H.
  destruct S as (S1 & _ & _ & S4 & _). rewrite S1, S4.
  destruct (B (at_ (t_numZ tR) (t_numR tR) 1 1 1) ltac:(cbn; lia)) as (-> & -> & ->).
  unfold superposed. change (zrange 0 2) with [0; 1]. cbn. f_equal; [f_equal|]; lra.
Qed.

Lemma one_ok : axis_ok (b64_ofZ 1) (b64_ofZ 2) 3.
Proof.
  assert (E : forall x : b64, B2R x = SF2R radix2 (B2SF x)) by (intros x; symmetry; apply SF2R_B2SF).
  repeat split; try (vm_compute; reflexivity); try lia.
  - rewrite !E. replace (B2SF (b64_ofZ 1)) with (SpecFloat.S754_finite false 4503599627370496 (-52)) by (vm_compute; reflexivity).
    replace (B2SF (b64_ofZ 2)) with (SpecFloat.S754_finite false 4503599627370496 (-51)) by (vm_compute; reflexivity).
    cbn. unfold F2R. cbn. lra.
  - rewrite !E. replace (B2SF (b64_sub (b64_ofZ 2) (b64_ofZ 1))) with (SpecFloat.S754_finite false 4503599627370496 (-52)) by (vm_compute; reflexivity).
    apply Rle_trans with (bpow radix2 0); [apply bpow_le; lia|]. cbn. unfold F2R. cbn. lra.
Qed.

Example C40_case_double (lg : b64 -> b64) :
  let K := num_b64 lg in
  b64_grid_ok lg (snd (LoadFields (K := K) (mkTable (K := K) 3 (b64_ofZ 1) (b64_ofZ 2) 3 (b64_ofZ 1) (b64_ofZ 2) 4 1 (fun _ l => b64_ofZ l) (fun _ l => b64_ofZ l) (fun _ l => b64_ofZ l))
    1 (fun _ => b64_ofZ 1)
    (mkMgrid (K := K) 0 (b64_ofZ 0) (b64_ofZ 0) (b64_ofZ 0) 0 (b64_ofZ 0) (b64_ofZ 0) (b64_ofZ 0) 0 0 0 (fun _ => b64_ofZ 0) (fun _ => b64_ofZ 0) (fun _ => b64_ofZ 0) false false (fun _ => b64_ofZ 0) (fun _ => b64_ofZ 0) (fun _ => b64_ofZ 0)))).
Proof.
  cbv zeta. unfold b64_grid_ok, LoadFields. cbn [negb t_rows Z.eqb Pos.eqb snd minR maxR numR minZ maxZ numZ numPhi deltaR deltaZ len has_mgrid_loaded has_fixed_field t_minR t_maxR t_numR t_minZ t_maxZ t_numZ t_numPhi].
  split; [exact one_ok|]. split; [exact one_ok|]. split; [lia|]. repeat split; reflexivity.
Qed.

Example C41_case : table_sized tR /\ superposed (K := num_R) 2 (fun i => t_br tR i 5) (fun c => IZR (c + 1)) = 17%R.
Proof.
  split; [repeat split; cbn; lia|]. unfold superposed. change (zrange 0 2) with [0; 1]. cbn. lra.
Qed.

Example C63_case : fst (LoadFields t22 2 (fun _ => nZ 1) g22) = false.
Proof. reflexivity. Qed.

(** the radial field of plane 0 of [gR] lies between 2 and 17 *)
Example C64_case : component gR (fun v => fst (fst v)) (bR gR) /\
  forall r z, (2 <= fst (fst (value_at gR 0 r z)) <= 17)%R.
Proof.
  split; [left; split; reflexivity|]. intros r z.
  apply (C64_no_overshoot gR (proj1 C40_case_grid) 0 r z 2 17 (fun v => fst (fst v)) (bR gR)); [cbn; lia|left; split; reflexivity|].
  destruct (load_fields tR 2 (fun c => IZR (c + 1)) g0R eq_refl ltac:(lia) ltac:(cbn; lia) ltac:(cbn; lia) ltac:(cbn; lia)) as (h & E & S & B).
  assert (H : gR = h) by (unfold gR; rewrite E; reflexivity). rewrite H. clear H E.
  destruct S as (S1 & _ & _ & S4 & _). rewrite S1, S4. intros j i Hj Hi. cbn in Hj, Hi.
  destruct (B (at_ (t_numZ tR) (t_numR tR) 0 j i)) as (-> & _).
  { unfold at_. cbn. lia. }
  unfold superposed. change (zrange 0 2) with [0; 1]. cbn [fold_left nadd nmul nZ num_R t_br tR].
  assert (X : 0 <= at_ (t_numZ tR) (t_numR tR) 0 j i <= 5) by (unfold at_; cbn; lia).
  rewrite !plus_IZR. assert (Y : (0 <= IZR (at_ (t_numZ tR) (t_numR tR) 0 j i) <= 5)%R) by (split; apply IZR_le; lia). lra.
Qed.
