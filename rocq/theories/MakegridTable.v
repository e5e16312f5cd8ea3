(** The response table as a whole. *)
From Coq Require Import ZArith Reals List Bool Lia Lra Psatz Permutation.
From Verif Require Import Base BaseLemmas GridLemmas Num MgridModel MgridSpec MgridProofs MgridMore MgridFinal MakegridModel MakegridSpec MakegridProofs MakegridReal.
Import ListNotations.
Open Scope Z_scope.

Section Any.
  Context {K : num} (M : libm K) (cfield : Z -> K -> vec K -> vec K).

  Definition at3 (p : params K) (k j i : Z) : Z := (k * num_z p + j) * num_r p + i.

  Definition node3 (p : params K) (k j i : Z) : vec K :=
    let r := nadd (p_minr p) (nmul (nZ i) (delta (p_minr p) (p_maxr p) (num_r p))) in
    let phi := nmul (nZ k) (delta_phi M p) in
    (nmul r (cos_ M phi), nmul r (sin_ M phi), nadd (p_minz p) (nmul (nZ j) (delta (p_minz p) (p_maxz p) (num_z p)))).

  Lemma valid_sizes (p : params K) : valid_params p = true -> 0 < nfp p /\ 2 <= num_r p /\ 2 <= num_z p /\ 1 <= num_phi p.
  Proof.
    unfold valid_params. rewrite !andb_true_iff, !negb_true_iff. intros (((((A & _) & B) & _) & C) & D).
    apply Z.leb_gt in A. apply Z.ltb_ge in B, C, D. lia.
  Qed.

  Lemma npe_range (p : params K) npe : 1 <= num_phi p -> num_phi_effective p = Some npe ->
    0 <= npe <= num_phi p + 0 \/ (num_phi p = 0) \/ (assume_symmetry p = true /\ npe = num_phi p / 2 + 1 /\ num_phi p = 2 * (num_phi p / 2)).
  Proof.
    intros H. unfold num_phi_effective. destruct (assume_symmetry p).
    - destruct (Z.rem (num_phi p) 2 =? 0) eqn:E; [|discriminate]. cbn [negb]. intros [= <-]. right. right.
      apply Z.eqb_eq in E. rewrite Z.rem_mod_nonneg in E by lia. rewrite Z.quot_div_nonneg by lia.
      repeat split. pose proof (Z.div_mod (num_phi p) 2). lia.
    - intros [= <-]. left. lia.
  Qed.

  Lemma npe_facts (p : params K) npe : 1 <= num_phi p -> num_phi_effective p = Some npe ->
    0 <= npe <= num_phi p /\ (npe < num_phi p -> forall k, npe <= k < num_phi p -> 0 <= num_phi p - k < npe).
  Proof.
    intros H E. destruct (npe_range p npe H E) as [A|[A|(S & A & B)]]; [|lia|].
    - assert (npe = num_phi p \/ assume_symmetry p = true) as [->|S].
      { unfold num_phi_effective in E. destruct (assume_symmetry p); [right; reflexivity|left; congruence]. }
      + split; [lia|lia].
      + split; [lia|]. unfold num_phi_effective in E. rewrite S in E. destruct (negb _); [discriminate|]. injection E as <-.
        intros _ k Hk. pose proof (Z.quot_div_nonneg (num_phi p) 2 ltac:(lia) ltac:(lia)) as Q. rewrite Q in *. pose proof (Z.div_mod (num_phi p) 2 ltac:(lia)). pose proof (Z.mod_pos_bound (num_phi p) 2). lia.
    - split; lia.
  Qed.

  Lemma grid_ok3 (p : params K) n g : MakeCylindricalGrid M p = Some (n, g) ->
    valid_params p = true /\ exists npe, num_phi_effective p = Some npe /\ n = npe * num_z p * num_r p /\
    forall k j i, 0 <= k < npe -> 0 <= j < num_z p -> 0 <= i < num_r p -> g (at3 p k j i) = node3 p k j i.
  Proof.
    unfold MakeCylindricalGrid. destruct (valid_params p) eqn:V; cbn [negb]; [|discriminate].
    destruct (num_phi_effective p) as [npe|] eqn:N; [|discriminate]. intros E. injection E as <- <-. split; [reflexivity|].
    exists npe. split; [reflexivity|]. split; [reflexivity|].
    destruct (valid_sizes p V) as (A & B & C & D). destruct (npe_facts p npe D N) as (Hn & _).
    intros k j i Hk Hj Hi. unfold at3.
    exact (grid3 npe (num_z p) (num_r p) (node3 p) (fun _ => (nZ 0, nZ 0, nZ 0)) ltac:(lia) ltac:(lia) ltac:(lia) k j i Hk Hj Hi).
  Qed.

  Lemma all_rows_nth (f : nat -> option (row3 K)) n rows z : forall s,
    all_rows (map f (seq s n)) = Some rows -> length rows = n /\ forall i, (i < n)%nat -> f (s + i)%nat = Some (nth i rows z).
  Proof.
    revert rows. induction n as [|n IH]; intros rows s E; cbn [seq map all_rows] in E.
    - injection E as <-. split; [reflexivity|lia].
    - destruct (f s) as [r|] eqn:Er; [|discriminate]. cbn [bind] in E.
      destruct (all_rows (map f (seq (S s) n))) as [t|] eqn:Et; [|discriminate]. cbn [bind] in E. injection E as <-.
      destruct (IH t (S s) Et) as (L & F). split; [cbn; rewrite L; reflexivity|].
      intros [|i] Hi; cbn [nth]; [rewrite Nat.add_0_r; exact Er|]. replace (s + S i)%nat with (S s + i)%nat by lia. apply F. lia.
  Qed.

  Lemma all_rows_some (f : nat -> option (row3 K)) n : forall s,
    (forall i, (s <= i < s + n)%nat -> f i <> None) -> exists rows, all_rows (map f (seq s n)) = Some rows.
  Proof.
    induction n as [|n IH]; intros s H; cbn [seq map all_rows]; [eexists; reflexivity|].
    destruct (f s) as [r|] eqn:E; [|exfalso; apply (H s); [lia|exact E]]. cbn [bind].
    destruct (IH (S s)) as (t & ->); [intros i Hi; apply H; lia|]. cbn [bind]. eexists; reflexivity.
  Qed.

  (** The coil set evaluated for circuit [c]. *)
  Definition alone (p : params K) (eff : config K) (c : nat) : config K :=
    map (fun q => mkCircuit (Some (snd q)) (coils (fst q))) (combine eff (currents_for_circuit p (GetCircuitCurrents eff) c)).

  Lemma set_alone (p : params K) eff c : SetCircuitCurrents (currents_for_circuit p (GetCircuitCurrents eff) c) eff = Some (alone p eff c).
  Proof.
    unfold SetCircuitCurrents, alone, currents_for_circuit, GetCircuitCurrents. rewrite !map_length, seq_length, Nat.eqb_refl. reflexivity.
  Qed.

  Definition orders_ok (p : params K) (n : Z) (o1 o2 : nat -> list Z) : Prop :=
    forall c, order_of 0 n (o1 c) /\ order_of n (num_phi p * num_r p * num_z p) (o2 c).

  Definition field_at (p : params K) (eff : config K) c k j i : option (vec K) :=
    config_field M cfield (alone p eff c) (node3 p k j i).

  Lemma zsplit nz nr n l : 0 < nz -> 0 < nr -> 0 <= n -> 0 <= l < n * nz * nr ->
    exists k j i, l = (k * nz + j) * nr + i /\ 0 <= k < n /\ 0 <= j < nz /\ 0 <= i < nr.
  Proof.
    intros Hz Hr Hn Hl. exists (l / nr / nz), ((l / nr) mod nz), (l mod nr).
    pose proof (Z.div_mod l nr ltac:(lia)). pose proof (Z.mod_pos_bound l nr Hr).
    pose proof (Z.div_mod (l / nr) nz ltac:(lia)). pose proof (Z.mod_pos_bound (l / nr) nz Hz).
    split; [rewrite (Z.mul_comm (l / nr / nz)); lia|]. split; [|lia]. split; [apply Z.div_pos; [apply Z.div_pos|]; lia|].
    apply Z.div_lt_upper_bound; [lia|]. apply Z.div_lt_upper_bound; lia.
  Qed.

  (** What the table holds. *)
  Lemma table_entries (p : params K) cf o1 o2 t :
    (forall n g, MakeCylindricalGrid M p = Some (n, g) -> orders_ok p n o1 o2) ->
    ComputeMagneticFieldResponseTable M cfield p cf o1 o2 = Some t ->
    valid_params p = true /\
    exists npe eff, num_phi_effective p = Some npe /\ effective_configuration p cf = Some eff /\
      t_rows t = Z.of_nat (length eff) /\
      t_numR t = num_r p /\ t_minR t = p_minr p /\ t_maxR t = p_maxr p /\
      t_numZ t = num_z p /\ t_minZ t = p_minz p /\ t_maxZ t = p_maxz p /\ t_numPhi t = num_phi p /\
      forall c, 0 <= c < t_rows t ->
        (forall k j i, 0 <= k < npe -> 0 <= j < num_z p -> 0 <= i < num_r p ->
           exists b, field_at p eff (Z.to_nat c) k j i = Some b /\
           t_br t c (at3 p k j i) = nadd (nmul (vx b) (cos_ M (nmul (nZ k) (delta_phi M p)))) (nmul (vy b) (sin_ M (nmul (nZ k) (delta_phi M p)))) /\
           t_bp t c (at3 p k j i) = nsub (nmul (vy b) (cos_ M (nmul (nZ k) (delta_phi M p)))) (nmul (vx b) (sin_ M (nmul (nZ k) (delta_phi M p)))) /\
           t_bz t c (at3 p k j i) = vz b) /\
        (forall k j i, npe <= k < num_phi p -> 0 <= j < num_z p -> 0 <= i < num_r p ->
           let l' := at3 p (num_phi p - k) (num_z p - 1 - j) i in
           0 <= num_phi p - k < npe /\
           t_br t c (at3 p k j i) = nsub (nZ 0) (t_br t c l') /\
           t_bp t c (at3 p k j i) = t_bp t c l' /\
           t_bz t c (at3 p k j i) = t_bz t c l').
  Proof.
    intros HO E. unfold ComputeMagneticFieldResponseTable in E.
    destruct (MakeCylindricalGrid M p) as [[n g]|] eqn:G; [|discriminate]. specialize (HO n g eq_refl).
    destruct (grid_ok3 p n g G) as (V & npe & N & -> & Hg). split; [exact V|].
    destruct (valid_sizes p V) as (SA & SB & SC & SD). destruct (npe_facts p npe SD N) as (Hn & Mir).
    destruct (effective_configuration p cf) as [eff|] eqn:Ee; [|discriminate]. cbn [bind] in E.
    match type of E with bind ?a _ = _ => destruct a as [rows|] eqn:Er; [|discriminate E] end.
    cbn [bind] in E. exists npe, eff. split; [exact N|]. split; [reflexivity|].
    destruct (all_rows_nth _ _ _ (fun _ => nZ 0, fun _ => nZ 0, fun _ => nZ 0) _ Er) as (L & F). injection E as <-.
    cbn [t_rows t_numR t_minR t_maxR t_numZ t_minZ t_maxZ t_numPhi t_br t_bp t_bz]. rewrite L.
    do 8 (split; [reflexivity|]). intros c Hc. assert (Hi : (Z.to_nat c < length eff)%nat) by lia. specialize (F (Z.to_nat c) Hi). rewrite Nat.add_0_l in F.
    unfold response_row in F. rewrite set_alone in F. cbn [bind] in F. cbv zeta in F.
    match type of F with (if ?a then _ else _) = _ => destruct a eqn:As; [|discriminate F] end.
    destruct (HO (Z.to_nat c)) as (O1 & O2).
    set (row := nth (Z.to_nat c) rows _) in *. clearbody row. injection F as F.
    pose proof (cyl_field (trig M p (cos_ M)) (trig M p (sin_ M)) (num_phi p) (num_z p) (num_r p) npe
      (fun l => opt_vec (config_field M cfield (alone p eff (Z.to_nat c)) (g l))) _ _ (fun _ => nZ 0, fun _ => nZ 0, fun _ => nZ 0) ltac:(lia) ltac:(lia) Hn O1 O2 Mir) as CF.
    cbv zeta in CF. rewrite F in CF. destruct CF as (C1 & C2). split.
    - intros k j i Hk Hj Hi'. destruct (C1 k j i Hk Hj Hi') as (X1 & X2 & X3).
      fold (at3 p k j i) in X1, X2, X3. rewrite (Hg k j i Hk Hj Hi') in X1, X2, X3.
      unfold all_some in As. rewrite forallb_forall in As. specialize (As (at3 p k j i)).
      assert (IN : In (at3 p k j i) (zrange 0 (npe * num_z p * num_r p))).
      { apply zrange_In. unfold at3. pose proof (flat_bound (num_z p) 0 npe k j Hj Hk) as Q1. rewrite !Z.sub_0_r in Q1.
        pose proof (flat_bound (num_r p) 0 (npe * num_z p) (k * num_z p + j) i Hi' Q1) as Q2. rewrite !Z.sub_0_r in Q2. lia. }
      specialize (As IN). rewrite (Hg k j i Hk Hj Hi') in As. unfold field_at.
      destruct (config_field M cfield (alone p eff (Z.to_nat c)) (node3 p k j i)) as [b|]; [|discriminate].
      exists b. split; [reflexivity|]. unfold at3 in *. split; [exact X1|]. split; [exact X2|exact X3].
    - cbv zeta. intros k j i Hk Hj Hi'. destruct (C2 k j i Hk Hj Hi') as (X0 & X1 & X2 & X3).
      split; [apply Mir; lia|]. split; [exact X1|]. split; [exact X2|exact X3].
  Qed.
End Any.
