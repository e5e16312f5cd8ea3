(** C42, C65, C66, C67: coil fields and the response table. *)
From Coq Require Import ZArith Reals List Bool Lia Lra Psatz Permutation SpecFloat.
From Verif Require Import Base BaseLemmas Num MgridModel MgridSpec MakegridModel MakegridSpec MakegridProofs MakegridReal MakegridTable MakegridFinal.
Import ListNotations.
Open Scope Z_scope.

(** *** C42 *)

(** Any arithmetic, every order in which the parallel loops may run.  The planes
    up to the middle of the period hold the cylindrical components of the field
    of one circuit at the grid points; every other entry is the mirror image of an
    entry of those planes. *)
Theorem C42_filled_from_computed_points :
  forall (K : num) (M : libm K) (cfield : Z -> K -> vec K -> vec K) (p : params K) cf o1 o2 t,
    (forall n g, MakeCylindricalGrid M p = Some (n, g) -> orders_ok p n o1 o2) ->
    ComputeMagneticFieldResponseTable M cfield p cf o1 o2 = Some t ->
    valid_params p = true /\
    exists npe eff, num_phi_effective p = Some npe /\ effective_configuration p cf = Some eff /\
      t_rows t = Z.of_nat (length eff) /\
      t_numR t = num_r p /\ t_minR t = p_minr p /\ t_maxR t = p_maxr p /\
      t_numZ t = num_z p /\ t_minZ t = p_minz p /\ t_maxZ t = p_maxz p /\ t_numPhi t = num_phi p /\
      forall c, 0 <= c < t_rows t ->
        (forall k j i, 0 <= k < npe -> 0 <= j < num_z p -> 0 <= i < num_r p ->
           exists b, field_at M cfield p eff (Z.to_nat c) k j i = Some b /\
           t_br t c (at3 p k j i) = nadd (nmul (vx b) (cos_ M (nmul (nZ k) (delta_phi M p)))) (nmul (vy b) (sin_ M (nmul (nZ k) (delta_phi M p)))) /\
           t_bp t c (at3 p k j i) = nsub (nmul (vy b) (cos_ M (nmul (nZ k) (delta_phi M p)))) (nmul (vx b) (sin_ M (nmul (nZ k) (delta_phi M p)))) /\
           t_bz t c (at3 p k j i) = vz b) /\
        (forall k j i, npe <= k < num_phi p -> 0 <= j < num_z p -> 0 <= i < num_r p ->
           let l' := at3 p (num_phi p - k) (num_z p - 1 - j) i in
           0 <= num_phi p - k < npe /\
           t_br t c (at3 p k j i) = nsub (nZ 0) (t_br t c l') /\
           t_bp t c (at3 p k j i) = t_bp t c l' /\
           t_bz t c (at3 p k j i) = t_bz t c l').
Proof. exact @table_entries. Qed.
Print Assumptions C42_filled_from_computed_points.

(** Exact arithmetic: for a coil set each of whose circuits has a symmetric field,
    and a grid symmetric about the plane z = 0, the table with the symmetry option
    is the table without it.  Missing from C42: grids not symmetric about z = 0,
    for which it is false, see below. *)
Theorem C42_equals_full_table_partial :
  forall mu cfield (p : params num_R) cf o1 o2 o1' o2' t',
    (forall n g, MakeCylindricalGrid (libm_R mu) p = Some (n, g) -> orders_ok p n o1 o2) ->
    (forall n g, MakeCylindricalGrid (libm_R mu) (every_plane p) = Some (n, g) -> orders_ok (every_plane p) n o1' o2') ->
    assume_symmetry p = true -> Z.even (num_phi p) = true -> p_minz p = (- p_maxz p)%R ->
    (forall eff ct I, effective_configuration p cf = Some eff -> In ct eff ->
       symmetric_field (nfp p) (fun x => @opt_vec num_R (one_circuit mu cfield I ct x))) ->
    ComputeMagneticFieldResponseTable (libm_R mu) cfield (every_plane p) cf o1' o2' = Some t' ->
    exists t, ComputeMagneticFieldResponseTable (libm_R mu) cfield p cf o1 o2 = Some t /\ t_rows t = t_rows t' /\
      forall c l, 0 <= c < t_rows t -> 0 <= l < num_phi p * num_z p * num_r p -> triple t c l = triple t' c l.
Proof. exact symmetric_is_full. Qed.
Print Assumptions C42_equals_full_table_partial.

(** The parameter check accepts grids that are not symmetric about z = 0.  Then
    the two tables differ although the coil set is symmetric.  Field (xz, yz, 0),
    z grid {0, 1}, four planes. *)
Local Ltac pair3 := apply (f_equal2 pair); [apply (f_equal2 pair)|].
Definition sym_field (id : Z) (I : R) (x : R3) : R3 := vscale I (cx x * cz x, cy x * cz x, 0)%R.
Definition tilted (zlo zhi : R) : params num_R := @mkParams num_R true true 1 1%R 2%R 2 zlo zhi 2 4.
Definition one_coil : config num_R := [@mkCircuit num_R (Some 1%R) [@mkCoil num_R (Some 1%R) [@Other num_R 0]]].
Definition o_first (n : Z) : nat -> list Z := fun _ => zrange 0 n.
Definition o_second (lo hi : Z) : nat -> list Z := fun _ => zrange lo hi.

Lemma sym_field_scaled (I : R) : symmetric_field 1 (sym_field 0 I).
Proof.
  unfold symmetric_field, sym_field, flip, rot, vscale, cx, cy, cz. cbn [fst snd]. split; intros [[x y] z]; cbn [fst snd].
  - pair3; ring.
  - pair3; ring.
Qed.

Lemma one_coil_eff zlo zhi : exists ct, @effective_configuration num_R (tilted zlo zhi) one_coil = Some [ct] /\
  coils ct = [@mkCoil num_R (Some (1 / 1)%R) [@Other num_R 0]].
Proof. eexists. split; reflexivity. Qed.

Lemma one_coil_field mu (ct : circuit num_R) I x : coils ct = [@mkCoil num_R (Some (1 / 1)%R) [@Other num_R 0]] ->
  one_circuit mu sym_field I ct x = Some (sym_field 0 I x).
Proof.
  intros E. unfold one_circuit, circuit_field. cbn [current coils]. rewrite E. change (@nZ num_R 0) with 0%R.
  destruct (Req_EM_T I 0) as [->|H].
  - rewrite (proj2 (neq_R0 0) eq_refl). unfold zero3, sym_field, vscale. cbn [fst snd cx cy cz]. f_equal. pair3; unfold cx, cy, cz; cbn [fst snd]; ring.
  - rewrite (neq_R0_false _ H). cbn [fold_left]. unfold coil_field. cbn [num_windings carriers fold_left bind one_carrier nmul num_R].
    f_equal. replace (I * (1 / 1))%R with I by field. unfold vadd, zero3, vx, vy, vz. cbn [fst snd nadd num_R].
    unfold sym_field, vscale, cx, cy, cz. cbn [fst snd]. pair3; toR; ring.
Qed.

Lemma tilted_orders mu zlo zhi n g : MakeCylindricalGrid (libm_R mu) (tilted zlo zhi) = Some (n, g) ->
  orders_ok (tilted zlo zhi) n (o_first 12) (o_second 12 16).
Proof.
  intros G. destruct (grid_ok3 _ _ _ _ G) as (_ & npe & N & -> & _). cbn in N. injection N as <-. intros c. split; apply Permutation_refl.
Qed.
Lemma tilted_orders' mu zlo zhi n g : MakeCylindricalGrid (libm_R mu) (every_plane (tilted zlo zhi)) = Some (n, g) ->
  orders_ok (every_plane (tilted zlo zhi)) n (o_first 16) (o_second 16 16).
Proof.
  intros G. destruct (grid_ok3 _ _ _ _ G) as (_ & npe & N & -> & _). cbn in N. injection N as <-. intros c. split; apply Permutation_refl.
Qed.

Lemma tilted_valid zlo zhi : (zlo < zhi)%R -> @valid_params num_R (tilted zlo zhi) = true.
Proof.
  intros H. unfold valid_params. cbn [tilted nfp p_minr p_maxr num_r p_minz p_maxz num_z num_phi nle num_R]. unfold Rleb.
  destruct (Rle_dec 2 1); [lra|]. destruct (Rle_dec zhi zlo); [lra|]. reflexivity.
Qed.

Lemma tilted_tables mu zlo zhi : (zlo < zhi)%R ->
  (exists t, ComputeMagneticFieldResponseTable (libm_R mu) sym_field (tilted zlo zhi) one_coil (o_first 12) (o_second 12 16) = Some t) /\
  (exists t', ComputeMagneticFieldResponseTable (libm_R mu) sym_field (every_plane (tilted zlo zhi)) one_coil (o_first 16) (o_second 16 16) = Some t').
Proof.
  intros H. destruct (one_coil_eff zlo zhi) as (ct & Ee & Ec). split.
  - eapply (table_none mu sym_field (tilted zlo zhi) one_coil _ _ _ _ [ct] 3).
    + unfold MakeCylindricalGrid. rewrite (tilted_valid _ _ H). cbn [negb]. reflexivity.
    + reflexivity.
    + exact Ee.
    + intros c k j i Hc Hk Hj Hi. cbn [length] in Hc. replace c with 0 by lia. cbn [Z.to_nat nth]. rewrite (one_coil_field mu ct _ _ Ec). discriminate.
  - eapply (table_none mu sym_field (every_plane (tilted zlo zhi)) one_coil _ _ _ _ [ct] 4).
    + unfold MakeCylindricalGrid. change (valid_params (every_plane (tilted zlo zhi))) with (valid_params (tilted zlo zhi)). rewrite (tilted_valid _ _ H). cbn [negb]. reflexivity.
    + reflexivity.
    + exact Ee.
    + intros c k j i Hc Hk Hj Hi. cbn [length] in Hc. replace c with 0 by lia. cbn [Z.to_nat nth]. rewrite (one_coil_field mu ct _ _ Ec). discriminate.
Qed.

Theorem C42_asymmetric_z_refuted :
  exists mu cfield (p : params num_R) cf o1 o2 o1' o2' t t',
    valid_params p = true /\ assume_symmetry p = true /\ Z.even (num_phi p) = true /\
    (forall n g, MakeCylindricalGrid (libm_R mu) p = Some (n, g) -> orders_ok p n o1 o2) /\
    (forall n g, MakeCylindricalGrid (libm_R mu) (every_plane p) = Some (n, g) -> orders_ok (every_plane p) n o1' o2') /\
    (forall eff ct I, effective_configuration p cf = Some eff -> In ct eff ->
       symmetric_field (nfp p) (fun x => @opt_vec num_R (one_circuit mu cfield I ct x))) /\
    ComputeMagneticFieldResponseTable (libm_R mu) cfield p cf o1 o2 = Some t /\
    ComputeMagneticFieldResponseTable (libm_R mu) cfield (every_plane p) cf o1' o2' = Some t' /\
    exists c l, 0 <= c < t_rows t /\ 0 <= l < num_phi p * num_z p * num_r p /\ triple t c l <> triple t' c l.
Proof.
  destruct (tilted_tables 1 0 1 ltac:(lra)) as ((t & E) & (t' & E')).
  destruct (one_coil_eff 0 1) as (ct & Ee & Ec).
  exists 1%R, sym_field, (tilted 0 1), one_coil, (o_first 12), (o_second 12 16), (o_first 16), (o_second 16 16), t, t'.
  split; [apply tilted_valid; lra|]. split; [reflexivity|]. split; [reflexivity|].
  split; [intros n g; apply tilted_orders|]. split; [intros n g; apply tilted_orders'|].
  split.
  { intros eff ct' I Ee' Hin. rewrite Ee in Ee'. injection Ee' as <-. destruct Hin as [<-|[]].
    destruct (sym_field_scaled I) as (A & B). cbn [nfp tilted]. split; intros x; rewrite !(one_coil_field 1 ct _ _ Ec); cbn [opt_vec]; [apply A|apply B]. }
  split; [exact E|]. split; [exact E'|].
  destruct (entry_R 1 sym_field _ _ _ _ t (tilted_orders 1 0 1) E) as (npe & eff & N & Ee1 & Rw & T).
  destruct (entry_R 1 sym_field _ _ _ _ t' (tilted_orders' 1 0 1) E') as (npe' & eff' & N' & Ee2 & Rw' & T').
  cbn in N. injection N as <-. cbn in N'. injection N' as <-.
  change (effective_configuration (every_plane (tilted 0 1)) one_coil) with (effective_configuration (tilted 0 1) one_coil) in Ee2.
  rewrite Ee in Ee1, Ee2. injection Ee1 as <-. injection Ee2 as <-. cbn [length] in Rw, Rw'.
  destruct (table_entries _ _ _ _ _ _ t (tilted_orders 1 0 1) E) as (_ & npe3 & eff3 & N3 & _ & _ & _ & _ & _ & _ & _ & _ & _ & T3).
  cbn in N3. injection N3 as <-.
  destruct (T3 0 ltac:(lia)) as (_ & M3). destruct (M3 3 1 0 ltac:(cbn; lia) ltac:(cbn; lia) ltac:(cbn; lia)) as (_ & X1 & _).
  exists 0, (at3 (tilted 0 1) 3 1 0). split; [lia|]. split; [cbn; lia|].
  intros C. assert (C1 : t_br t 0 (at3 (tilted 0 1) 3 1 0) = t_br t' 0 (at3 (tilted 0 1) 3 1 0)) by (unfold triple in C; congruence).
  rewrite X1 in C1.
  destruct (T' 0 3 1 0 ltac:(lia) ltac:(cbn; lia) ltac:(cbn; lia) ltac:(cbn; lia)) as (b' & Eb' & Tb').
  cbn [Z.to_nat nth] in Eb'. rewrite (one_coil_field 1 ct _ _ Ec) in Eb'. injection Eb' as <-.
  change (at3 (every_plane (tilted 0 1)) 3 1 0) with (at3 (tilted 0 1) 3 1 0) in Tb'.
  assert (Tr' : t_br t' 0 (at3 (tilted 0 1) 3 1 0) = cx (cylindrical (angle 1 4 3) (sym_field 0 1%R (place (tilted 0 1) 3 1 0)))) by (change (t_br t' 0 (at3 (tilted 0 1) 3 1 0)) with (cx (triple t' 0 (at3 (tilted 0 1) 3 1 0))); rewrite Tb'; reflexivity).
  destruct (T 0 1 0 0 ltac:(lia) ltac:(cbn; lia) ltac:(cbn; lia) ltac:(cbn; lia)) as (b & Eb & Tb).
  cbn [Z.to_nat nth] in Eb. rewrite (one_coil_field 1 ct _ _ Ec) in Eb. injection Eb as <-.
  assert (Tr : t_br t 0 (at3 (tilted 0 1) 1 0 0) = cx (cylindrical (angle 1 4 1) (sym_field 0 1%R (place (tilted 0 1) 1 0 0)))) by (change (t_br t 0 (at3 (tilted 0 1) 1 0 0)) with (cx (triple t 0 (at3 (tilted 0 1) 1 0 0))); rewrite Tb; reflexivity).
  change (at3 (tilted 0 1) (num_phi (tilted 0 1) - 3) (num_z (tilted 0 1) - 1 - 1) 0) with (at3 (tilted 0 1) 1 0 0) in C1.
  rewrite Tr, Tr' in C1. unfold place in C1. cbn [tilted p_minr p_maxr num_r p_minz p_maxz num_z nfp num_phi] in C1.
  set (a1 := angle 1 4 1) in *. set (a3 := angle 1 4 3) in *.
  unfold grid_node, cylindrical, sym_field, vscale, cx, cy, cz in C1. cbn [fst snd nsub nZ num_R] in C1.
  change (2 - 1)%Z with 1%Z in C1. pose proof (sin2_cos2 a3) as SC. unfold Rsqr in SC. nra.
Qed.
Print Assumptions C42_asymmetric_z_refuted.

(** The hypotheses are met by the same coil set on a symmetric grid. *)
Example C42_case : exists t t',
  ComputeMagneticFieldResponseTable (libm_R 1) sym_field (tilted (-1) 1) one_coil (o_first 12) (o_second 12 16) = Some t /\
  ComputeMagneticFieldResponseTable (libm_R 1) sym_field (every_plane (tilted (-1) 1)) one_coil (o_first 16) (o_second 16 16) = Some t' /\
  (forall eff ct I, effective_configuration (tilted (-1) 1) one_coil = Some eff -> In ct eff ->
       symmetric_field 1 (fun x => @opt_vec num_R (one_circuit 1 sym_field I ct x))).
Proof.
  destruct (tilted_tables 1 (-1) 1 ltac:(lra)) as ((t & E) & (t' & E')). exists t, t'. split; [exact E|]. split; [exact E'|].
  destruct (one_coil_eff (-1) 1) as (ct & Ee & Ec).
  intros eff ct' I Ee' Hin. rewrite Ee in Ee'. injection Ee' as <-. destruct Hin as [<-|[]].
  destruct (sym_field_scaled I) as (A & B). split; intros x; rewrite !(one_coil_field 1 ct _ _ Ec); cbn [opt_vec]; [apply A|apply B].
Qed.

(** *** C65 *)

(** The field of a straight filament is that of Ampere's law ... *)
Theorem C65_straight_filament :
  forall mu cur (o d x : R3), cur <> 0%R -> (0 < norm2 d)%R -> (0 < norm2 (cross d (vsub x o)))%R ->
    @line_field num_R (libm_R mu) o d cur x = Some (wire mu cur o d x).
Proof. exact wire_ok. Qed.
Print Assumptions C65_straight_filament.

(** ... which is perpendicular to the wire and to the connection with it, has
    magnitude mu0 I / (2 pi distance), and does not depend on the length of the
    direction vector or on which point of the wire is given. *)
Theorem C65_strength_and_direction :
  forall mu cur (o d x : R3) a, (0 < norm2 d)%R -> (0 < norm2 (cross d (vsub x o)))%R ->
    let B := wire mu cur o d x in
    let distance2 := (norm2 (cross d (vsub x o)) / norm2 d)%R in
    dot B d = 0%R /\ dot B (vsub x o) = 0%R /\
    (norm2 B * distance2 = (mu * cur / (2 * PI)) * (mu * cur / (2 * PI)))%R /\
    ((0 < a)%R -> wire mu cur o (vscale a d) x = B) /\
    wire mu cur (plus3 o (vscale a d)) d x = B.
Proof.
  intros mu cur o d x a Hd Hc B distance2. destruct (wire_perp mu cur o d x) as (P1 & P2).
  split; [exact P1|]. split; [exact P2|]. split; [apply wire_norm; assumption|].
  split; [intros Ha; apply wire_rescale; assumption|apply wire_shift].
Qed.
Print Assumptions C65_strength_and_direction.

(** Without current there is no field, wherever the point is. *)
Theorem C65_no_current : forall mu (o d x : R3), @line_field num_R (libm_R mu) o d 0%R x = Some (0%R, 0%R, 0%R).
Proof. exact wire_zero. Qed.
Print Assumptions C65_no_current.

(** A wire along z carrying 5 A, seen from (2, 0, 7): field along y, counterclockwise. *)
Example C65_case : @line_field num_R (libm_R 1) (0, 0, 0)%R (0, 0, 3)%R 5%R (2, 0, 7)%R = Some (0, 5 / (4 * PI), 0)%R.
Proof.
  rewrite wire_ok; [|lra|unfold norm2, dot, cx, cy, cz; cbn [fst snd]; lra|unfold norm2, dot, cross, vsub, cx, cy, cz; cbn [fst snd]; lra].
  f_equal. unfold wire, vscale, norm2, dot, cross, vsub, cx, cy, cz. cbn [fst snd].
  replace (0 * 0 + 0 * 0 + 3 * 3)%R with (3 * 3)%R by ring. rewrite sqrt_square by lra.
  assert (PI0 : PI <> 0%R) by (pose proof PI_RGT_0; lra). pair3; field; lra.
Qed.

(** *** C66 *)

(** Folding the winding numbers into the circuit currents does not change the
    field anywhere.  Exact arithmetic; every coil has its winding number set and
    the first one of each circuit is not zero.  Missing: unset winding numbers,
    for which it is false. *)
Theorem C66_field_unchanged_partial :
  forall mu cfield (cf : config num_R), (forall ct, In ct cf -> windings_set ct) ->
    exists cf', @NumWindingsToCircuitCurrents num_R cf = Some cf' /\
      forall x, @config_field num_R (libm_R mu) cfield cf' x = @config_field num_R (libm_R mu) cfield cf x.
Proof. exact migrate_config. Qed.
Print Assumptions C66_field_unchanged_partial.

Definition libm_f : libm num_f64 :=
  mkLibm num_f64 (fun _ => @nZ num_f64 1) (fun _ => @nZ num_f64 0) (@nZ num_f64 3) (fun x y z => x) (@nZ num_f64 1).
Definition along_x (id : Z) (I : num_f64) (x : vec num_f64) : vec num_f64 := (I, @nZ num_f64 0, @nZ num_f64 0).
Definition unset_coil : config num_f64 := [@mkCircuit num_f64 (Some (@nZ num_f64 1)) [@mkCoil num_f64 None [@Other num_f64 0]]].

(** A coil whose winding number is left unset counts once in the field, but zero
    times in the migration: the field vanishes.  IEEE doubles. *)
Theorem C66_unset_windings_refuted :
  exists (cf : config num_f64) cf' (x : vec num_f64) B B',
    @NumWindingsToCircuitCurrents num_f64 cf = Some cf' /\
    @config_field num_f64 libm_f along_x cf x = Some B /\ @config_field num_f64 libm_f along_x cf' x = Some B' /\
    vx B = @nZ num_f64 1 /\ vx B' = @nZ num_f64 0.
Proof.
  exists unset_coil. eexists. exists (@nZ num_f64 0, @nZ num_f64 0, @nZ num_f64 0). eexists. eexists.
  split; [reflexivity|]. split; [reflexivity|]. split; [reflexivity|]. split; vm_compute; reflexivity.
Qed.
Print Assumptions C66_unset_windings_refuted.

Definition two_coils : config num_R :=
  [@mkCircuit num_R (Some 10%R) [@mkCoil num_R (Some 96%R) [@Other num_R 0]; @mkCoil num_R (Some (-16)%R) [@Other num_R 1]]].
Example C66_case : (forall ct, In ct two_coils -> windings_set ct) /\
  @NumWindingsToCircuitCurrents num_R two_coils = Some [@mkCircuit num_R (Some (10 * 96)%R)
     [@mkCoil num_R (Some (96 / 96)%R) [@Other num_R 0]; @mkCoil num_R (Some (-16 / 96)%R) [@Other num_R 1]]].
Proof.
  split; [|reflexivity]. intros ct [<-|[]]. split.
  - intros cl [<-|[<-|[]]]; discriminate.
  - eexists. eexists. eexists. split; [reflexivity|]. split; [reflexivity|lra].
Qed.

(** *** C67 *)

(** End to end: computing the table and loading it with the circuit currents (or
    ones, for a table that is not normalised) gives at every grid point the field
    of the whole coil set.  Exact arithmetic, every plane evaluated; with the
    symmetry option combine with C42. *)
Theorem C67_table_reproduces_coil_field :
  forall mu cfield, proportional cfield ->
  forall (p : params num_R) (cf : config num_R) o1 o2 t g eff,
    (forall n g, MakeCylindricalGrid (libm_R mu) p = Some (n, g) -> orders_ok p n o1 o2) ->
    assume_symmetry p = false -> effective_configuration p cf = Some eff ->
    (normalize_by_currents p = true -> forall ct, In ct cf -> windings_set ct) ->
    ComputeMagneticFieldResponseTable (libm_R mu) cfield p cf o1 o2 = Some t ->
    exists g', LoadFields t (Z.of_nat (length cf)) (table_currents p eff) g = (true, g') /\
      forall k j i, 0 <= k < num_phi p -> 0 <= j < num_z p -> 0 <= i < num_r p ->
        let l := (k * num_z p + j) * num_r p + i in
        exists B, @config_field num_R (libm_R mu) cfield cf (place p k j i) = Some B /\
          (bR g' l, bP g' l, bZ g' l) = cylindrical (angle (nfp p) (num_phi p) k) B.
Proof.
  intros mu cfield Lin p cf o1 o2 t g eff HO Sy Ee W E.
  destruct (loaded_field mu cfield Lin p cf o1 o2 t g eff HO Sy Ee E) as (g' & L & F).
  exists g'. split; [exact L|]. intros k j i Hk Hj Hi l. destruct (F k j i Hk Hj Hi) as (B & EB & TB).
  exists B. split; [|exact TB]. rewrite <- EB. unfold effective_configuration in Ee.
  destruct (normalize_by_currents p); [|congruence].
  destruct (migrate_config mu cfield cf (W eq_refl)) as (cf' & E' & S). rewrite Ee in E'. injection E' as <-. symmetry. apply S.
Qed.
Print Assumptions C67_table_reproduces_coil_field.

Example C67_case : proportional sym_field /\ (forall ct, In ct one_coil -> windings_set ct) /\
  exists t, ComputeMagneticFieldResponseTable (libm_R 1) sym_field (every_plane (tilted 0 1)) one_coil (o_first 16) (o_second 16 16) = Some t.
Proof.
  split.
  - intros id I x. unfold sym_field, vscale, cx, cy, cz. cbn [fst snd]. pair3; ring.
  - split; [|exact (proj2 (tilted_tables 1 0 1 ltac:(lra)))]. intros ct [<-|[]]. split.
    + intros cl [<-|[]]; discriminate.
    + eexists. eexists. eexists. split; [reflexivity|]. split; [reflexivity|lra].
Qed.
