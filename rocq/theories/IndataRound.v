(** Round trip through JSON; changing the resolution; reading is free of
    undefined behaviour. *)
From Coq Require Import String ZArith List Bool Lia.
From Verif Require Import Base BaseLemmas Num IndataModel IndataSpec IndataProofs IndataCheck.
Import ListNotations.
Open Scope Z_scope.

Section R.
  Context {K : num}.

  (** *** Matrices are determined by their coefficients. *)
  Lemma list_ext {A} (d : A) : forall l1 l2, length l1 = length l2 -> (forall i, (i < length l1)%nat -> nth i l1 d = nth i l2 d) -> l1 = l2.
  Proof.
    induction l1 as [|a l1 IH]; intros [|b l2] L H; cbn in L; try lia; [reflexivity|].
    f_equal; [exact (H 0%nat ltac:(cbn; lia))|]. apply IH; [lia|]. intros i Hi. exact (H (S i) ltac:(cbn; lia)).
  Qed.
  Lemma mat_ext (a b : mat K) r c : shaped a r c -> shaped b r c ->
    (forall i j, 0 <= i < r -> 0 <= j < c -> at_ij (m_body a) i j = at_ij (m_body b) i j) -> a = b.
  Proof.
    intros Sa Sb H. pose proof Sa as (A1 & A2 & A3 & A4). pose proof Sb as (B1 & B2 & B3 & B4).
    assert (E : m_body a = m_body b).
    { apply (list_ext []); [lia|]. intros i Hi.
      pose proof (shaped_row _ _ _ (Z.of_nat i) Sa ltac:(lia)) as Ra. pose proof (shaped_row _ _ _ (Z.of_nat i) Sb ltac:(lia)) as Rb. rewrite Nat2Z.id in Ra, Rb.
      apply (list_ext (nZ 0)); [lia|]. intros j Hj. specialize (H (Z.of_nat i) (Z.of_nat j) ltac:(lia) ltac:(lia)). unfold at_ij in H. rewrite !Nat2Z.id in H. exact H. }
    destruct a, b; cbn in *. subst. reflexivity.
  Qed.

  Lemma at_ij_In (b : mat K) r c i j : shaped b r c -> 0 <= i < r -> 0 <= j < c -> exists row, In row (m_body b) /\ In (at_ij (m_body b) i j) row.
  Proof.
    intros S Hi Hj. pose proof (shaped_row _ _ _ _ S Hi). destruct S as (? & ? & ? & ?). eexists; split; [|unfold at_ij; apply nth_In; lia]. apply nth_In. lia.
  Qed.

  (** *** Round trip. *)
  Definition thr : list (string * json K) -> list (string * json K) := map (fun p => (fst p, through_text (snd p))).
  Lemma find_thr name j : find name (thr j) = option_map through_text (find name j).
  Proof. induction j as [|[k v] j IH]; [reflexivity|]. cbn. destruct (String.eqb k name); [reflexivity|exact IH]. Qed.

  Lemma read_of {A} (f : json K -> option A) j name d w v : find name j = Some w -> f (through_text w) = Some v -> read f (thr j) name d = Ok v.
  Proof. intros E1 E2. unfold read, JsonRead. rewrite find_thr, E1. cbn. rewrite E2. reflexivity. Qed.
  Lemma JsonRead_of {A} (f : json K -> option A) j name w v : find name j = Some w -> f (through_text w) = Some v -> JsonRead f (thr j) name = Ok (Some v).
  Proof. intros E1 E2. unfold JsonRead. rewrite find_thr, E1. cbn. rewrite E2. reflexivity. Qed.

  Lemma as_int_id z : fits32 z -> as_int (through_text (JInt z : json K)) = Some z.
  Proof. intros H. cbn. now rewrite to_int_id. Qed.
  Lemma as_num_id (v : K) : nfinite v = true -> as_num (through_text (JNum v)) = Some v.
  Proof. intros H. cbn. now rewrite H. Qed.
  Lemma as_ints_id l : (forall z, In z l -> fits32 z) -> as_vec as_int (through_text (jints l : json K)) = Some l.
  Proof.
    unfold jints. cbn. induction l as [|z l IH]; intros H; [reflexivity|]. cbn. rewrite to_int_id by (apply H; left; reflexivity).
    rewrite IH by (intros y Hy; apply H; right; exact Hy). reflexivity.
  Qed.
  Lemma as_nums_id (l : list K) : fin_list l -> as_vec as_num (through_text (jnums l)) = Some l.
  Proof.
    unfold jnums. cbn. induction l as [|z l IH]; intros H; [reflexivity|]. cbn. rewrite (H z) by (left; reflexivity). cbn.
    rewrite IH by (intros y Hy; apply H; right; exact Hy). reflexivity.
  Qed.

  (** the coefficients written, as entries *)
  Definition written (mpol ntor : Z) (b : mat K) : list (coefficient K) :=
    flat_map (fun m => flat_map (fun n =>
      let v := at_ij (m_body b) m (ntor + n) in if neq v (nZ 0) then [] else [mkCoef m n v]) (zrange (- ntor) (ntor + 1))) (zrange 0 mpol).
  Definition jentry (e : coefficient K) : json K := JObj [("m"%string, JInt (c_m e)); ("n"%string, JInt (c_n e)); ("value"%string, JNum (c_value e))].
  Lemma flat_map_map {A B C} (g : B -> C) (f : A -> list B) l : flat_map (fun a => map g (f a)) l = map g (flat_map f l).
  Proof. induction l; [reflexivity|]. cbn. now rewrite map_app, IHl. Qed.
  Lemma nonzero_written mpol ntor b : nonzero_entries mpol ntor b = map jentry (written mpol ntor b).
  Proof.
    unfold nonzero_entries, written. rewrite <- flat_map_map. apply flat_map_ext. intros m. rewrite <- flat_map_map. apply flat_map_ext. intros n.
    cbv zeta. destruct (neq _ _); reflexivity.
  Qed.
  Lemma written_In mpol ntor b e : In e (written mpol ntor b) <->
    0 <= c_m e < mpol /\ - ntor <= c_n e <= ntor /\ c_value e = at_ij (m_body b) (c_m e) (c_n e + ntor) /\ neq (c_value e) (nZ 0) = false.
  Proof.
    unfold written. rewrite in_flat_map. split.
    - intros (m & Hm & H). apply in_flat_map in H. destruct H as (n & Hn & H). cbv zeta in H. apply zrange_In in Hm, Hn.
      destruct (neq _ _) eqn:E; [contradiction|]. destruct H as [<-|[]]. cbn. rewrite (Z.add_comm n ntor). repeat split; auto; lia.
    - intros (Hm & Hn & Hv & Hz). exists (c_m e). split; [apply zrange_In; lia|]. apply in_flat_map. exists (c_n e). split; [apply zrange_In; lia|].
      cbv zeta. rewrite (Z.add_comm ntor), <- Hv, Hz. left. destruct e; reflexivity.
  Qed.

  Definition coef_fine (e : coefficient K) : Prop := fits32 (c_m e) /\ fits32 (c_n e) /\ nfinite (c_value e) = true.
  Lemma read_entries_written es : Forall coef_fine es -> read_entries (map through_text (map jentry es)) = Ok es.
  Proof.
    induction 1 as [|e es (H1 & H2 & H3) F IH]; [reflexivity|]. cbn. rewrite H3. cbn. rewrite IH. cbn. rewrite !to_int_id by assumption. destruct e; reflexivity.
  Qed.

  Lemma lastv_const (es : list (coefficient K)) m n v d : (forall e, In e es -> c_m e = m -> c_n e = n -> c_value e = v) ->
    (d = v \/ exists e, In e es /\ c_m e = m /\ c_n e = n) -> lastv es m n d = v.
  Proof.
    revert d. induction es as [|e es IH]; intros d H H2.
    - destruct H2 as [H2|(? & [] & _)]. exact H2.
    - cbn. apply IH; [intros e' He'; apply H; right; exact He'|].
      destruct (Z.eqb_spec (c_m e) m) as [E1|E1], (Z.eqb_spec (c_n e) n) as [E2|E2]; cbn [andb].
      + left. apply H; [left; reflexivity|exact E1|exact E2].
      + destruct H2 as [H2|(e' & [<-|Hin] & ? & ?)]; [left; exact H2|contradiction|right; eauto].
      + destruct H2 as [H2|(e' & [<-|Hin] & ? & ?)]; [left; exact H2|contradiction|right; eauto].
      + destruct H2 as [H2|(e' & [<-|Hin] & ? & ?)]; [left; exact H2|contradiction|right; eauto].
  Qed.

  Lemma coefficients_roundtrip j name mpol ntor (b d : mat K) :
    find name j = Some (JArr (nonzero_entries mpol ntor b)) -> 0 <= mpol -> fits32 mpol -> 0 <= ntor < 2 ^ 30 ->
    shaped b mpol (2 * ntor + 1) -> fin_mat b -> plus_zero b ->
    symmetric_coefficients (thr j) name mpol ntor d = Ok b.
  Proof.
    intros E Hm Hf Hn S Fin PZ. unfold symmetric_coefficients, boundary_entries. rewrite find_thr, E. cbn [option_map through_text].
    rewrite nonzero_written, read_entries_written.
    2:{ apply Forall_forall. intros e He. apply written_In in He. destruct He as (A1 & A2 & A3 & A4). unfold coef_fine, fits32 in *. split; [lia|]. split; [lia|].
        rewrite A3. destruct (at_ij_In b _ _ (c_m e) (c_n e + ntor) S A1 ltac:(lia)) as (row & R1 & R2). exact (Fin row R1 _ R2). }
    cbn [obind]. replace (int_fits (2 * ntor + 1)) with true by (symmetry; apply int_fits_spec; unfold fits32; lia). cbn [need obind].
    rewrite set_zero_eq by lia. cbn [obind].
    assert (S0 : shaped (zero_mat mpol (2 * ntor + 1) : mat K) mpol (2 * ntor + 1)) by (apply zero_mat_shaped; lia).
    destruct (write_entries_total mpol ntor (written mpol ntor b) (zero_mat mpol (2 * ntor + 1)) ltac:(lia) S0) as (r & Er).
    { apply Forall_forall. intros e He. apply written_In in He. unfold entry_ok. lia. }
    rewrite Er. f_equal. destruct (write_entries_ok mpol ntor _ _ _ (proj1 Hn) S0 Er) as (Sr & Q).
    apply (mat_ext _ _ mpol (2 * ntor + 1) Sr S). intros i k Hi Hk.
    pose proof (Q i (k - ntor) Hi ltac:(lia)) as Qi. replace (k - ntor + ntor) with k in Qi by lia. rewrite Qi, zero_mat_get.
    apply lastv_const.
    - intros e He E1 E2. apply written_In in He. destruct He as (_ & _ & -> & _). rewrite E1, E2. f_equal. lia.
    - destruct (neq (at_ij (m_body b) i k) (nZ 0)) eqn:Ez.
      + left. destruct (at_ij_In b _ _ i k S Hi Hk) as (row & R1 & R2). symmetry. exact (PZ row _ R1 R2 Ez).
      + right. exists (mkCoef i (k - ntor) (at_ij (m_body b) i k)). split; [|cbn; auto]. apply written_In. cbn.
        replace (k - ntor + ntor) with k by lia. repeat split; auto; lia.
  Qed.

  Lemma pad_full (a : list K) n : zlen a = n -> pad_or_reject_axis n a = Ok a.
  Proof. intros <-. unfold pad_or_reject_axis. rewrite Z.gtb_ltb, Z.ltb_irrefl, Z.sub_diag. cbn. now rewrite app_nil_r. Qed.
  Lemma same_length_eq {A B} (a : list A) (b : list B) : length a = length b -> same_length a b = Ok tt.
  Proof. intros E. unfold same_length, zlen. rewrite E, Z.eqb_refl. reflexivity. Qed.
  Lemma method_roundtrip m : method_of (method_string m) = Ok m. Proof. destruct m; reflexivity. Qed.
  Lemma style_roundtrip m : style_of (style_string m) = Ok m. Proof. destruct m; reflexivity. Qed.

  Lemma obind_eq {A B} (o : outcome A) (f : A -> outcome B) a r : o = Ok a -> f a = r -> obind o f = r.
  Proof. intros -> <-. reflexivity. Qed.

  Theorem json_roundtrip (x : indata K) :
    IsConsistent x = Ok tt -> lasym x = false -> ints_fit x -> all_finite x -> matching_lengths x -> well_sized x ->
    plus_zero (rbc x) -> plus_zero (zbs x) ->
    exists j, ToJson x = Ok j /\ FromJson (through_text j) = Ok x.
  Proof.
    intros C L I F ML W Z1 Z2. unfold ToJson. rewrite L. cbn [obind]. eexists. split; [reflexivity|].
    pose proof (IsConsistent_sizes x C) as (Hm & Hn & A1 & A2 & _). destruct W as (_ & _ & W1 & W2 & _).
    unfold ints_fit, all_finite, matching_lengths in *.
    assert (B1 : fin_list (raxis_c x)) by tauto. assert (B2 : fin_list (zaxis_s x)) by tauto. assert (B3 : fin_mat (rbc x)) by tauto. assert (B4 : fin_mat (zbs x)) by tauto.
    assert (B5 : fits32 (mpol x)) by tauto. assert (B6 : int_fits (ntor x + 1) = true) by (apply int_fits_spec; unfold fits32; lia).
    repeat match goal with H : _ /\ _ |- _ => destruct H end.
    match goal with |- FromJson (through_text (JObj ?l)) = _ => set (j := l) end.
    change (through_text (JObj j)) with (JObj (thr j)). unfold FromJson. cbv zeta.
    repeat (eapply obind_eq; [first
      [ eapply (read_of as_bool); reflexivity
      | eapply (read_of as_str); reflexivity
      | eapply (read_of as_int); [reflexivity|apply as_int_id; assumption]
      | eapply (read_of as_num); [reflexivity|apply as_num_id; assumption]
      | eapply (read_of (as_vec as_int)); [reflexivity|apply as_ints_id; assumption]
      | eapply (read_of (as_vec as_num)); [reflexivity|apply as_nums_id; assumption]
      | eapply (JsonRead_of as_str); reflexivity
      | apply same_length_eq; assumption
      | apply method_roundtrip
      | apply style_roundtrip
      | rewrite B6; reflexivity
      | apply pad_full; assumption
      | rewrite L; reflexivity | reflexivity
      | eapply coefficients_roundtrip; [reflexivity|lia|assumption|lia|eassumption|assumption|assumption] ]|cbv beta iota]).
    cbn [fst snd].
    match goal with |- obind (IsConsistent ?y) _ = _ => replace y with x end.
    - rewrite C. reflexivity.
    - assert (raxis_s x = None /\ zaxis_c x = None /\ rbs x = None /\ zbc x = None) as (N1 & N2 & N3 & N4).
      { clear - C L. unfold IsConsistent in C. rewrite L in C.
        repeat (match type of C with obind _ _ = Ok _ => apply obind_ok in C; destruct C as (? & ? & C); cbv beta in C end).
        repeat match goal with H : obind _ _ = Ok _ |- _ => apply obind_ok in H; destruct H as (? & ? & H) end.
        repeat match goal with H : guard (is_some _) = Ok _ |- _ => apply guard_ok in H end.
        repeat match goal with H : is_some ?o = false |- _ => destruct o; [discriminate|]; clear H end. auto. }
      clear - L N1 N2 N3 N4. destruct x. cbn in *. subst. reflexivity.
  Qed.

  (** With lasym the written text is never accepted again. *)
  Theorem json_roundtrip_lasym (x : indata K) j : lasym x = true -> ToJson x = Ok j -> forall y, FromJson (through_text j) <> Ok y.
  Proof.
    intros L E y Hy. unfold ToJson in E. rewrite L in E.
    apply obind_ok in E. destruct E as (ax & Eax & E). apply obind_ok in E. destruct E as (as_ & Eas & E). inversion E; subst j; clear E.
    apply obind_ok in Eax. destruct Eax as (rs & Ers & Eax). apply obind_ok in Eax. destruct Eax as (zc & Ezc & Eax). inversion Eax; subst ax; clear Eax.
    unfold first_coefficient in Ers. apply obind_ok in Ers. destruct Ers as (a & _ & Ers). apply obind_ok in Ers. destruct Ers as (v & _ & Ers). inversion Ers; subst rs; clear Ers.
    match type of Hy with FromJson (through_text (JObj ?l)) = _ => change (through_text (JObj l)) with (JObj (thr l)) in Hy; set (jj := l) in * end.
    pose proof (FromJson_reads _ _ Hy) as R. unfold reads_as in R. destruct R as ((R1 & _) & _ & _ & _ & _ & _ & _ & _ & R).
    unfold setting in R1. rewrite <- find_member, find_thr in R1. cbn in R1. inversion R1 as [R2]. rewrite <- R2 in R. destruct R as ((w & g & ? & R3 & R4 & _) & _).
    rewrite <- find_member, find_thr in R3. cbn in R3. destruct R4 as (ws & -> & _). destruct (nfinite v); discriminate.
  Qed.
End R.
