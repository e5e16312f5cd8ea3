(** The response table in exact arithmetic. *)
From Coq Require Import ZArith Reals List Bool Lia Lra Psatz Permutation.
From Verif Require Import Base BaseLemmas GridLemmas Num MgridModel MgridSpec MgridProofs MgridMore MgridFinal MakegridModel MakegridSpec MakegridProofs MakegridReal MakegridTable.
Import ListNotations.
Open Scope Z_scope.

Section Final.
  Context (mu : R) (cfield : Z -> R -> R3 -> R3).
  Notation M := (libm_R mu).
  Notation K := num_R.

  Lemma node3_place (p : params num_R) k j i : 2 <= num_r p -> 2 <= num_z p -> node3 M p k j i = place p k j i.
  Proof.
    intros Hr Hz. unfold node3, place, grid_node, angle, delta_phi, delta.
    cbn [nadd nsub nmul ndiv nZ num_R cos_ sin_ pi_ libm_R].
    assert (A : IZR (num_r p) <> 1%R) by (apply not_eq_sym, Rlt_not_eq, IZR_lt; lia).
    assert (B : IZR (num_z p) <> 1%R) by (apply not_eq_sym, Rlt_not_eq, IZR_lt; lia).
    rewrite !minus_IZR.
    replace (p_minr p + IZR i * ((p_maxr p - p_minr p) / (IZR (num_r p) - 1)))%R with (p_minr p + (p_maxr p - p_minr p) * (IZR i / (IZR (num_r p) - 1)))%R by (field; intros C; apply A; lra).
    replace (p_minz p + IZR j * ((p_maxz p - p_minz p) / (IZR (num_z p) - 1)))%R with (p_minz p + (p_maxz p - p_minz p) * (IZR j / (IZR (num_z p) - 1)))%R by (field; intros C; apply B; lra).
    reflexivity.
  Qed.

  Lemma nth_map_seq {A} (f : nat -> A) n q d : (q < n)%nat -> nth q (map f (seq 0 n)) d = f q.
  Proof.
    intros H. rewrite nth_indep with (d' := f 0%nat) by (rewrite map_length, seq_length; exact H).
    rewrite map_nth, seq_nth by exact H. reflexivity.
  Qed.

  (** Current with which circuit [c] is evaluated. *)
  Definition unit_current (p : params num_R) (eff : config num_R) (c : nat) : R :=
    if normalize_by_currents p then 1%R else nth c (@GetCircuitCurrents K eff) 0%R.

  Definition one_circuit (I : R) (ct : circuit num_R) (x : R3) : option R3 :=
    @circuit_field K M cfield (@mkCircuit num_R (Some I) (coils ct)) x (Some zero3).

  Lemma combine_split {A B} (l : list A) (m : list B) c da db : length l = length m -> (c < length l)%nat ->
    combine l m = combine (firstn c l) (firstn c m) ++ (nth c l da, nth c m db) :: combine (skipn (S c) l) (skipn (S c) m).
  Proof.
    revert m c. induction l as [|a l IH]; intros [|b m] [|c]; cbn [length firstn skipn combine app nth]; intros E H; try lia; [reflexivity|].
    f_equal. apply IH; [lia|]. cbn in H. lia.
  Qed.

  Lemma alone_field (p : params num_R) (eff : config num_R) c d x : (c < length eff)%nat ->
    @config_field K M cfield (alone p eff c) x = one_circuit (unit_current p eff c) (nth c eff d) x.
  Proof.
    intros Hc. unfold config_field, alone.
    set (cur := currents_for_circuit p (GetCircuitCurrents eff) c).
    assert (Lg : length (@GetCircuitCurrents K eff) = length eff) by (unfold GetCircuitCurrents; apply map_length).
    assert (L : length eff = length cur) by (unfold cur, currents_for_circuit; rewrite map_length, seq_length; congruence).
    rewrite (combine_split eff cur c d 0%R L Hc), map_app. cbn [map fst snd].
    assert (Z : forall q, In q (seq 0 (length eff)) -> q <> c -> nth q cur 1%R = 0%R).
    { intros q Hq Hn. apply in_seq in Hq. unfold cur, currents_for_circuit.
      rewrite nth_map_seq by lia. apply Nat.eqb_neq in Hn. rewrite Hn. reflexivity. }
    assert (Nc : nth c cur 0%R = unit_current p eff c).
    { unfold cur, currents_for_circuit.
      rewrite nth_map_seq by lia. rewrite Nat.eqb_refl. reflexivity. }
    rewrite Nc. change (@nZ num_R 0) with 0%R. unfold one_circuit. apply config_only.
    intros ct [Hin|Hin]; apply in_map_iff in Hin; destruct Hin as ([a b] & <- & Hin); cbn [current fst snd]; f_equal.
    - apply in_combine_r in Hin. destruct (In_nth _ _ 1%R Hin) as (q & Hq & Eq). rewrite firstn_length in Hq.
      rewrite <- Eq. rewrite <- (firstn_skipn c cur) in Z. specialize (Z q). rewrite app_nth1 in Z by (rewrite firstn_length; lia).
      apply Z; [apply in_seq|]; lia.
    - apply in_combine_r in Hin. destruct (In_nth _ _ 1%R Hin) as (q & Hq & Eq). rewrite skipn_length in Hq.
      rewrite <- Eq. rewrite <- (firstn_skipn (S c) cur) in Z. specialize (Z (S c + q)%nat).
      rewrite app_nth2 in Z by (rewrite firstn_length; lia). rewrite firstn_length in Z.
      replace (S c + q - Nat.min (S c) (length cur))%nat with q in Z by lia. apply Z; [apply in_seq|]; lia.
  Qed.

  Definition triple (t : table num_R) (c l : Z) : R3 := (t_br t c l, t_bp t c l, t_bz t c l).
  Definition no_circuit : circuit num_R := @mkCircuit num_R None [].

  (** Entries of the evaluated planes: the field of the circuit, in cylindrical components. *)
  Lemma entry_R (p : params num_R) cf o1 o2 t :
    (forall n g, MakeCylindricalGrid M p = Some (n, g) -> orders_ok p n o1 o2) ->
    ComputeMagneticFieldResponseTable M cfield p cf o1 o2 = Some t ->
    exists npe eff, num_phi_effective p = Some npe /\ effective_configuration p cf = Some eff /\ t_rows t = Z.of_nat (length eff) /\
      forall c k j i, 0 <= c < t_rows t -> 0 <= k < npe -> 0 <= j < num_z p -> 0 <= i < num_r p ->
        exists b, one_circuit (unit_current p eff (Z.to_nat c)) (nth (Z.to_nat c) eff no_circuit) (place p k j i) = Some b /\
          triple t c (at3 p k j i) = cylindrical (angle (nfp p) (num_phi p) k) b.
  Proof.
    intros HO E. destruct (table_entries M cfield p cf o1 o2 t HO E) as (V & npe & eff & N & Ee & Rw & _ & _ & _ & _ & _ & _ & _ & T).
    exists npe, eff. split; [exact N|]. split; [exact Ee|]. split; [exact Rw|]. intros c k j i Hc Hk Hj Hi.
    destruct (T c Hc) as (T1 & _). destruct (T1 k j i Hk Hj Hi) as (b & F & X1 & X2 & X3).
    destruct (valid_sizes p V) as (SA & SB & SC & SD).
    unfold field_at in F. rewrite node3_place in F by lia. rewrite (alone_field p eff (Z.to_nat c) no_circuit) in F by lia.
    exists b. split; [exact F|]. unfold triple. rewrite X1, X2, X3. reflexivity.
  Qed.

  (** The reflection rule is the symmetry of the field. *)
  Lemma mirror_point (F : R3 -> R3) (p : params num_R) k j i :
    symmetric_field (nfp p) F -> 0 < nfp p -> 1 <= num_phi p -> 2 <= num_z p -> p_minz p = (- p_maxz p)%R ->
    let b := cylindrical (angle (nfp p) (num_phi p) k) (F (place p k j i)) in
    let b' := cylindrical (angle (nfp p) (num_phi p) (num_phi p - k)) (F (place p (num_phi p - k) (num_z p - 1 - j) i)) in
    b = (- cx b', cy b', cz b')%R.
  Proof.
    intros (Fl & Ro) Hn Hp Hz Sz b b'. unfold b, b'. clear b b'.
    set (a := angle (nfp p) (num_phi p) k). set (al := (2 * PI / IZR (nfp p))%R) in *.
    assert (A' : angle (nfp p) (num_phi p) (num_phi p - k) = (al - a)%R).
    { unfold a, al, angle. rewrite mult_IZR, minus_IZR. field. split; apply not_eq_sym, Rlt_not_eq, IZR_lt; lia. }
    rewrite A'.
    assert (P : place p (num_phi p - k) (num_z p - 1 - j) i = rot al (flip (place p k j i))).
    { unfold place. rewrite A'. fold a. unfold rot, flip, cx, cy, cz. cbn [fst snd].
      assert (Zz : grid_node (p_minz p) (p_maxz p) (num_z p) (num_z p - 1 - j) = (- grid_node (p_minz p) (p_maxz p) (num_z p) j)%R).
      { unfold grid_node. rewrite Sz, !minus_IZR. field. intros C. assert (1 < IZR (num_z p))%R by (apply IZR_lt; lia). lra. }
      rewrite Zz, cos_minus, sin_minus. f_equal; f_equal; ring. }
    rewrite P, Ro, Fl. destruct (F (place p k j i)) as [[fx fy] fz].
    unfold cylindrical, rot, cx, cy, cz. cbn [fst snd]. rewrite cos_minus, sin_minus.
    pose proof (sin2_cos2 al) as SC. unfold Rsqr in SC.
    f_equal; f_equal.
    - transitivity ((fx * cos a + fy * sin a) * (sin al * sin al + cos al * cos al))%R; [rewrite SC; ring|ring].
    - transitivity ((fy * cos a - fx * sin a) * (sin al * sin al + cos al * cos al))%R; [rewrite SC; ring|ring].
  Qed.

  (** The same parameters, every plane evaluated. *)
  Definition every_plane (p : params num_R) : params num_R :=
    mkParams (normalize_by_currents p) false (nfp p) (p_minr p) (p_maxr p) (num_r p) (p_minz p) (p_maxz p) (num_z p) (num_phi p).

  Lemma table_none (p : params num_R) cf o1 o2 n g eff npe :
    MakeCylindricalGrid M p = Some (n, g) -> num_phi_effective p = Some npe -> effective_configuration p cf = Some eff ->
    (forall c k j i, 0 <= c < Z.of_nat (length eff) -> 0 <= k < npe -> 0 <= j < num_z p -> 0 <= i < num_r p ->
       one_circuit (unit_current p eff (Z.to_nat c)) (nth (Z.to_nat c) eff no_circuit) (place p k j i) <> None) ->
    exists t, ComputeMagneticFieldResponseTable M cfield p cf o1 o2 = Some t.
  Proof.
    intros G N Ee H. destruct (grid_ok3 M p n g G) as (V & npe' & N' & -> & Hg). rewrite N in N'. injection N' as <-.
    destruct (valid_sizes p V) as (SA & SB & SC & SD). destruct (npe_facts p npe SD N) as (Hn & _).
    unfold ComputeMagneticFieldResponseTable. rewrite G, Ee. cbn [bind].
    match goal with |- context [all_rows (map ?f (seq 0 ?m))] => destruct (all_rows_some f m 0) as (rows & Er) end.
    2:{ rewrite Er. cbn [bind]. eexists. reflexivity. }
    intros c Hc. unfold response_row. rewrite set_alone. cbn [bind]. cbv zeta.
    match goal with |- (if ?a then _ else _) <> _ => assert (As : a = true); [|rewrite As; discriminate] end.
    unfold all_some. apply forallb_forall. intros l Hl. apply zrange_In in Hl.
    destruct (zsplit (num_z p) (num_r p) npe l ltac:(lia) ltac:(lia) ltac:(lia) Hl) as (k & j & i & -> & Hk & Hj & Hi).
    fold (at3 p k j i). rewrite (Hg k j i Hk Hj Hi), node3_place by lia.
    rewrite (alone_field p eff c no_circuit) by lia.
    specialize (H (Z.of_nat c) k j i ltac:(lia) Hk Hj Hi). rewrite Nat2Z.id in H. destruct (one_circuit _ _ _); [reflexivity|congruence].
  Qed.

  Lemma symmetric_is_full (p : params num_R) cf o1 o2 o1' o2' t' :
    (forall n g, MakeCylindricalGrid M p = Some (n, g) -> orders_ok p n o1 o2) ->
    (forall n g, MakeCylindricalGrid M (every_plane p) = Some (n, g) -> orders_ok (every_plane p) n o1' o2') ->
    assume_symmetry p = true -> Z.even (num_phi p) = true -> p_minz p = (- p_maxz p)%R ->
    (forall eff ct I, effective_configuration p cf = Some eff -> In ct eff ->
       symmetric_field (nfp p) (fun x => @opt_vec K (one_circuit I ct x))) ->
    ComputeMagneticFieldResponseTable M cfield (every_plane p) cf o1' o2' = Some t' ->
    exists t, ComputeMagneticFieldResponseTable M cfield p cf o1 o2 = Some t /\ t_rows t = t_rows t' /\
      forall c l, 0 <= c < t_rows t -> 0 <= l < num_phi p * num_z p * num_r p -> triple t c l = triple t' c l.
  Proof.
    intros HO HO' Sy Ev Sz Fs E'.
    destruct (entry_R _ _ _ _ _ HO' E') as (npe' & eff & N' & Ee & Rw' & T').
    destruct (table_entries M cfield _ cf o1' o2' t' HO' E') as (V' & _).
    unfold num_phi_effective in N'. cbn [assume_symmetry every_plane num_phi] in N'. injection N' as <-.
    change (effective_configuration (every_plane p) cf) with (effective_configuration p cf) in Ee.
    change (valid_params (every_plane p)) with (valid_params p) in V'.
    destruct (valid_sizes p V') as (SA & SB & SC & SD).
    assert (N : num_phi_effective p = Some (num_phi p ÷ 2 + 1)).
    { unfold num_phi_effective. rewrite Sy. rewrite Z.rem_mod_nonneg by lia. rewrite Zmod_even, Ev. reflexivity. }
    set (npe := num_phi p ÷ 2 + 1) in *.
    destruct (npe_facts p npe SD N) as (Hn0 & Mir).
    assert (G : exists n g, MakeCylindricalGrid M p = Some (n, g)).
    { unfold MakeCylindricalGrid. rewrite V', N. cbn [negb]. eexists. eexists. reflexivity. }
    destruct G as (n & g & G).
    assert (Ex : exists t, ComputeMagneticFieldResponseTable M cfield p cf o1 o2 = Some t).
    { apply (table_none p cf o1 o2 n g eff npe G N Ee). intros c k j i Hc Hk Hj Hi. rewrite <- Rw' in Hc.
      destruct (T' c k j i Hc ltac:(lia) Hj Hi) as (b & Eb & _). intros C.
      change (unit_current (every_plane p)) with (unit_current p) in Eb. change (place (every_plane p)) with (place p) in Eb. congruence. }
    destruct Ex as (t & E). exists t. split; [exact E|].
    destruct (entry_R _ _ _ _ _ HO E) as (npe2 & eff2 & N2 & Ee2 & Rw & T). rewrite N in N2. injection N2 as <-. rewrite Ee in Ee2. injection Ee2 as <-.
    split; [congruence|].
    destruct (table_entries M cfield _ cf o1 o2 t HO E) as (_ & npe3 & eff3 & N3 & _ & _ & _ & _ & _ & _ & _ & _ & _ & T3).
    rewrite N in N3. injection N3 as <-.
    change (unit_current (every_plane p)) with (unit_current p) in T'. change (place (every_plane p)) with (place p) in T'.
    change (nfp (every_plane p)) with (nfp p) in T'. change (num_phi (every_plane p)) with (num_phi p) in T'.
    change (num_z (every_plane p)) with (num_z p) in T'. change (num_r (every_plane p)) with (num_r p) in T'. change (at3 (every_plane p)) with (at3 p) in T'.
    intros c l Hc Hl.
    destruct (zsplit (num_z p) (num_r p) (num_phi p) l ltac:(lia) ltac:(lia) ltac:(lia) Hl) as (k & j & i & -> & Hk & Hj & Hi).
    fold (at3 p k j i). destruct (T' c k j i ltac:(lia) Hk Hj Hi) as (b' & Eb' & ->).
    destruct (Z_lt_ge_dec k npe) as [Hlt|Hge].
    - destruct (T c k j i Hc ltac:(lia) Hj Hi) as (b & Eb & ->). congruence.
    - destruct (T3 c Hc) as (_ & M3). destruct (M3 k j i ltac:(lia) Hj Hi) as (R0 & X1 & X2 & X3).
      destruct (T c (num_phi p - k) (num_z p - 1 - j) i Hc R0 ltac:(lia) Hi) as (b & Eb & Tb).
      assert (Hci : (Z.to_nat c < length eff)%nat) by (rewrite Rw in Hc; lia).
      pose proof (Fs eff (nth (Z.to_nat c) eff no_circuit) (unit_current p eff (Z.to_nat c)) Ee (nth_In eff no_circuit Hci)) as Fsy.
      pose proof (mirror_point _ p k j i Fsy ltac:(lia) ltac:(lia) ltac:(lia) Sz) as MP. cbv zeta beta in MP.
      rewrite Eb, Eb' in MP. cbn [opt_vec] in MP. rewrite MP, <- Tb.
      unfold triple, cx, cy, cz. cbn [fst snd]. rewrite X1, X2, X3. cbn [nsub nZ num_R]. f_equal; f_equal. toR. ring.
  Qed.

  (** *** Superposition. *)
  Hypothesis Lin : proportional cfield.

  (** Currents with which the table has to be combined to give the coil set's field. *)
  Definition table_currents (p : params num_R) (eff : config num_R) (c : Z) : R :=
    if normalize_by_currents p then nth (Z.to_nat c) (@GetCircuitCurrents K eff) 0%R else 1%R.

  Lemma nth_currents (eff : config num_R) c : (c < length eff)%nat ->
    nth c (@GetCircuitCurrents K eff) 0%R = match current (nth c eff no_circuit) with Some J => J | None => 0%R end.
  Proof.
    intros H. unfold GetCircuitCurrents. change 0%R with ((fun ct : circuit num_R => match current ct with Some cu => cu | None => @nZ num_R 0 end) no_circuit) at 1.
    rewrite map_nth. reflexivity.
  Qed.

  Ltac r3 := apply R3_ext; unfold vadd, plus3, vscale, zero3, vx, vy, vz, cx, cy, cz; cbn [fst snd nadd num_R]; change (N num_R) with R; toR.

  Lemma circuit_part (p : params num_R) (eff : config num_R) c x v b : (c < length eff)%nat ->
    one_circuit (unit_current p eff c) (nth c eff no_circuit) x = Some v ->
    @circuit_field K M cfield (nth c eff no_circuit) x (Some b) = Some (plus3 b (vscale (table_currents p eff (Z.of_nat c)) v)).
  Proof.
    intros Hc E. unfold table_currents, unit_current in *. rewrite Nat2Z.id. rewrite nth_currents in * by exact Hc.
    unfold one_circuit in E. destruct (nth c eff no_circuit) as [cu cl]. cbn [current coils] in *.
    destruct cu as [J|].
    - destruct (normalize_by_currents p).
      + rewrite (circuit_scale mu cfield Lin cl 1%R x v R1_neq_R0 E J b). f_equal. r3; field.
      + destruct (Req_EM_T J 0) as [->|HJ].
        * unfold circuit_field in *. cbn [current coils] in *. change (@nZ num_R 0) with 0%R in *. rewrite (proj2 (neq_R0 0) eq_refl) in *.
          injection E as <-. f_equal. destruct b as [[b1 b2] b3]. change (N num_R) with R in *. r3; ring.
        * rewrite (circuit_scale mu cfield Lin cl J x v HJ E J b). f_equal. r3; field; exact HJ.
    - unfold circuit_field. cbn [current]. f_equal. destruct (normalize_by_currents p).
      + destruct b as [[b1 b2] b3]. change (N num_R) with R in *. r3; ring.
      + unfold circuit_field in E. cbn [current coils] in E. change (@nZ num_R 0) with 0%R in *. rewrite (proj2 (neq_R0 0) eq_refl) in *.
        injection E as <-. destruct b as [[b1 b2] b3]. change (N num_R) with R in *. r3; ring.
  Qed.

  Lemma cyl_lin a b w v : cylindrical a (plus3 b (vscale w v)) = plus3 (cylindrical a b) (vscale w (cylindrical a v)).
  Proof. apply R3_ext; unfold cylindrical, plus3, vscale, cx, cy, cz; cbn [fst snd]; ring. Qed.

  Lemma superposition (p : params num_R) (eff : config num_R) (t : table num_R) a x l :
    (forall c, 0 <= c < Z.of_nat (length eff) -> exists b, one_circuit (unit_current p eff (Z.to_nat c)) (nth (Z.to_nat c) eff no_circuit) x = Some b /\ triple t c l = cylindrical a b) ->
    exists B, @config_field K M cfield eff x = Some B /\
      (superposed (K := num_R) (Z.of_nat (length eff)) (fun c => t_br t c l) (table_currents p eff),
       superposed (K := num_R) (Z.of_nat (length eff)) (fun c => t_bp t c l) (table_currents p eff),
       superposed (K := num_R) (Z.of_nat (length eff)) (fun c => t_bz t c l) (table_currents p eff)) = cylindrical a B.
  Proof.
    intros H. unfold config_field.
    assert (G : forall m, (m <= length eff)%nat ->
      exists B, fold_left (fun b ct => @circuit_field K M cfield ct x b) (firstn m eff) (Some (@nZ num_R 0, @nZ num_R 0, @nZ num_R 0)) = Some B /\
       (superposed (K := num_R) (Z.of_nat m) (fun c => t_br t c l) (table_currents p eff),
        superposed (K := num_R) (Z.of_nat m) (fun c => t_bp t c l) (table_currents p eff),
        superposed (K := num_R) (Z.of_nat m) (fun c => t_bz t c l) (table_currents p eff)) = cylindrical a B).
    { induction m as [|m IH]; intros Hm.
      - exists zero3. split; [reflexivity|]. unfold superposed. change (zrange 0 (Z.of_nat 0)) with (@nil Z). cbn [fold_left].
        unfold cylindrical, zero3, cx, cy, cz. cbn [fst snd nZ num_R]. f_equal; f_equal; ring.
      - destruct (IH ltac:(lia)) as (B & EB & SB). destruct (H (Z.of_nat m) ltac:(lia)) as (b & Eb & Tb). rewrite Nat2Z.id in Eb.
        pose proof (circuit_part p eff m x b B ltac:(lia) Eb) as CP.
        eexists. split.
        + assert (F : firstn (S m) eff = firstn m eff ++ [nth m eff no_circuit]).
          { clear -Hm. revert m Hm. induction eff as [|e r IHr]; intros [|m] Hm; cbn in *; try lia; [reflexivity|]. f_equal. apply IHr. lia. }
          rewrite F, fold_left_app, EB. cbn [fold_left]. exact CP.
        + rewrite cyl_lin, <- SB, <- Tb. unfold superposed. replace (Z.of_nat (S m)) with (Z.of_nat m + 1) by lia.
          rewrite !fold_zrange_snoc by lia. unfold plus3, vscale, triple, cx, cy, cz. cbn [fst snd nadd nmul num_R].
          f_equal; [f_equal|]; toR; ring. }
    destruct (G (length eff) ltac:(lia)) as (B & EB & SB). rewrite firstn_all in EB. exists B. split; assumption.
  Qed.

  Lemma loaded_field (p : params num_R) (cf : config num_R) o1 o2 t g eff :
    (forall n g, MakeCylindricalGrid M p = Some (n, g) -> orders_ok p n o1 o2) ->
    assume_symmetry p = false -> effective_configuration p cf = Some eff ->
    ComputeMagneticFieldResponseTable M cfield p cf o1 o2 = Some t ->
    exists g', LoadFields t (Z.of_nat (length cf)) (table_currents p eff) g = (true, g') /\
      forall k j i, 0 <= k < num_phi p -> 0 <= j < num_z p -> 0 <= i < num_r p ->
        let l := (k * num_z p + j) * num_r p + i in
        exists B, @config_field K M cfield eff (place p k j i) = Some B /\
          (bR g' l, bP g' l, bZ g' l) = cylindrical (angle (nfp p) (num_phi p) k) B.
  Proof.
    intros HO Sy Ee E.
    destruct (entry_R p cf o1 o2 t HO E) as (npe & eff' & N & Ee' & Rw & T). rewrite Ee in Ee'. injection Ee' as <-.
    unfold num_phi_effective in N. rewrite Sy in N. injection N as <-.
    destruct (table_entries M cfield p cf o1 o2 t HO E) as (V & _ & _ & _ & _ & _ & Q1 & _ & _ & Q2 & _ & _ & Q3 & _).
    destruct (valid_sizes p V) as (SA & SB & SC & SD).
    assert (Le : length eff = length cf).
    { unfold effective_configuration in Ee. destruct (normalize_by_currents p); [|injection Ee as <-; reflexivity].
      clear -Ee. revert eff Ee. induction cf as [|ct r IH]; intros eff Ee; cbn [NumWindingsToCircuitCurrents] in Ee; [injection Ee as <-; reflexivity|].
      destruct (migrate_circuit ct); [|discriminate]. cbn [bind] in Ee. destruct (NumWindingsToCircuitCurrents r) as [r'|]; [|discriminate].
      cbn [bind] in Ee. injection Ee as <-. cbn. f_equal. apply IH. reflexivity. }
    unfold LoadFields. rewrite <- Le, <- Rw, Z.eqb_refl. cbn [negb]. eexists. split; [reflexivity|].
    cbv zeta. intros k j i Hk Hj Hi. set (l := (k * num_z p + j) * num_r p + i). cbn [bR bP bZ]. rewrite Q1, Q2, Q3.
    assert (Hl : 0 <= l < num_phi p * num_z p * num_r p).
    { unfold l. pose proof (flat_bound (num_z p) 0 (num_phi p) k j Hj Hk) as Q4. rewrite !Z.sub_0_r in Q4.
      pose proof (flat_bound (num_r p) 0 (num_phi p * num_z p) (k * num_z p + j) i Hi Q4) as Q5. rewrite !Z.sub_0_r in Q5. lia. }
    rewrite !accumulate_linear_spec by lia. rewrite Rw.
    apply superposition. intros c Hc. rewrite <- Rw in Hc. exact (T c k j i Hc Hk Hj Hi).
  Qed.
End Final.
