From Coq Require Import String ZArith List Bool Lia.
From Verif Require Import Base BaseLemmas Num IndataModel IndataSpec IndataProofs IndataCheck IndataRound PyCoefModel PyCoefProofs ContModel ContSpec.
Import ListNotations.
Open Scope Z_scope.

Lemma zseq_nth k : forall lo i, (i < k)%nat -> nth i (zseq lo k) 0 = lo + Z.of_nat i.
Proof. induction k; intros lo [|i] Hi; try lia; cbn [zseq nth]; [lia|]. rewrite IHk; lia. Qed.
Lemma zlen_map {A B} (f : A -> B) l : zlen (map f l) = zlen l.
Proof. unfold zlen. now rewrite map_length. Qed.
Lemma zlen_zrange n : 0 <= n -> zlen (zrange 0 n) = n.
Proof. intros H. unfold zlen, zrange. rewrite zseq_length. lia. Qed.
Lemma znth_map_zrange {A} (f : Z -> A) n i d : 0 <= i < n -> znth (map f (zrange 0 n)) i d = f i.
Proof.
  intros H. unfold znth. rewrite (nth_indep _ _ (f 0)) by (rewrite map_length; unfold zrange; rewrite zseq_length; lia).
  rewrite map_nth. f_equal. unfold zrange. rewrite zseq_nth; lia.
Qed.
Lemma znth_map {A B} (f : A -> B) l i d d' : 0 <= i < zlen l -> znth (map f l) i d = f (znth l i d').
Proof. intros H. unfold znth, zlen in *. rewrite (nth_indep _ _ (f d')) by (rewrite map_length; lia). apply map_nth. Qed.

Section Generic.
  Context {K : num}.

  (** *** Modes. *)
  Lemma state_table_In mpol ntor nfp mn : In mn (state_mode_table mpol ntor nfp) <-> is_mode mpol ntor nfp mn.
  Proof.
    unfold state_mode_table, is_mode. rewrite in_flat_map. split.
    - intros (m & Hm & H). cbv zeta in H. apply in_map_iff in H. destruct H as (n & <- & Hn). apply zrange_In in Hm, Hn. cbn.
      destruct (Z.eqb_spec m 0); (split; [lia|]; exists n; repeat split; lia).
    - intros (Hm & n & Hn & Hr & H0). destruct mn as (m, x). cbn in *. exists m. split; [apply zrange_In; lia|]. cbv zeta. apply in_map_iff. exists n. split; [congruence|].
      apply zrange_In. destruct (Z.eqb_spec m 0); lia.
  Qed.

  Lemma in_order_app l1 l2 : in_order l1 -> in_order l2 -> (forall a b, In a l1 -> In b l2 -> before a b) -> in_order (l1 ++ l2).
  Proof.
    intros H1 H2 H i j a b Hij Ea Eb. destruct (Nat.lt_ge_cases j (length l1)) as [Hj|Hj].
    - rewrite nth_error_app1 in Ea, Eb by lia. exact (H1 i j a b Hij Ea Eb).
    - rewrite nth_error_app2 in Eb by lia. destruct (Nat.lt_ge_cases i (length l1)) as [Hi|Hi].
      + rewrite nth_error_app1 in Ea by lia. apply H; eapply nth_error_In; eassumption.
      + rewrite nth_error_app2 in Ea by lia. apply (H2 (i - length l1) (j - length l1))%nat; auto; lia.
  Qed.
  Lemma state_table_order mpol ntor nfp : 0 < nfp -> in_order (state_mode_table mpol ntor nfp).
  Proof.
    intros Hf. unfold state_mode_table.
    assert (G : forall k lo, in_order (flat_map (fun m => let n_min := if m =? 0 then 0 else - ntor in map (fun n => (m, n * nfp)) (zrange n_min (ntor + 1))) (zseq lo k))).
    { induction k as [|k IH]; intros lo; [intros i j a b _ E; destruct i; discriminate E|]. cbn [zseq flat_map]. apply in_order_app; [|apply IH|].
      - cbv zeta. set (nm := if lo =? 0 then 0 else - ntor). intros i j a b Hij Ea Eb. unfold zrange in *. rewrite nth_error_map in Ea, Eb.
        set (cnt := Z.to_nat (ntor + 1 - nm)) in *.
        destruct (nth_error (zseq nm cnt) i) as [x|] eqn:E1; [|discriminate]. destruct (nth_error (zseq nm cnt) j) as [y|] eqn:E2; [|discriminate].
        inversion Ea; inversion Eb; subst. right. cbn. split; [reflexivity|].
        assert (L1 := proj1 (nth_error_Some (zseq nm cnt) i) ltac:(congruence)). assert (L2 := proj1 (nth_error_Some (zseq nm cnt) j) ltac:(congruence)). rewrite zseq_length in L1, L2.
        apply (nth_error_nth _ _ 0) in E1, E2. rewrite zseq_nth in E1, E2 by lia. nia.
      - intros a b Ha Hb. cbv zeta in Ha. apply in_map_iff in Ha. destruct Ha as (n & <- & _). apply in_flat_map in Hb. destruct Hb as (m & Hm & Hb). cbv zeta in Hb.
        apply in_map_iff in Hb. destruct Hb as (n' & <- & _). left. cbn. assert (Hm' : In m (zrange (lo + 1) (lo + 1 + Z.of_nat k))) by (unfold zrange; replace (Z.to_nat (lo + 1 + Z.of_nat k - (lo + 1))) with k by lia; exact Hm). apply zrange_In in Hm'. lia. }
    apply G.
  Qed.

  Lemma before_irrefl a : ~ before a a. Proof. unfold before. lia. Qed.
  Lemma before_trans a b c : before a b -> before b c -> before a c. Proof. unfold before. lia. Qed.
  Lemma in_order_tail a l : in_order (a :: l) -> in_order l /\ forall b, In b l -> before a b.
  Proof.
    intros H. split.
    - intros i j x y Hij. apply (H (S i) (S j)). lia.
    - intros b Hb. apply In_nth_error in Hb. destruct Hb as (j & Ej). apply (H 0%nat (S j)); [lia|reflexivity|exact Ej].
  Qed.
  Lemma in_order_unique l : forall l', in_order l -> in_order l' -> (forall x, In x l <-> In x l') -> l = l'.
  Proof.
    induction l as [|a l IH]; intros l' H H' E.
    - destruct l' as [|b l']; [reflexivity|]. exfalso. apply (E b). left. reflexivity.
    - destruct l' as [|b l']; [exfalso; apply (E a); left; reflexivity|].
      apply in_order_tail in H, H'. destruct H as (H & Ha), H' as (H' & Hb).
      assert (a = b).
      { destruct (proj1 (E a) (or_introl eq_refl)) as [<-|Ia]; [reflexivity|]. destruct (proj2 (E b) (or_introl eq_refl)) as [Eb|Ib]; [exact Eb|].
        exfalso. exact (before_irrefl a (before_trans _ _ _ (Ha _ Ib) (Hb _ Ia))). }
      subst b. f_equal. apply IH; auto. intros x. split; intros Hx.
      + destruct (proj1 (E x) (or_intror Hx)) as [<-|Hx']; [exfalso; exact (before_irrefl a (Ha _ Hx))|exact Hx'].
      + destruct (proj2 (E x) (or_intror Hx)) as [<-|Hx']; [exfalso; exact (before_irrefl a (Hb _ Hx))|exact Hx'].
  Qed.
  Lemma in_order_inj l i j a : in_order l -> nth_error l i = Some a -> nth_error l j = Some a -> i = j.
  Proof.
    intros H E1 E2. destruct (Nat.lt_trichotomy i j) as [L|[L|L]]; [|exact L|]; exfalso; apply (before_irrefl a); [exact (H i j a a L E1 E2)|exact (H j i a a L E2 E1)].
  Qed.

  (** *** Remapping. *)
  Lemma src_index_spec src mn :
    match src_index src mn with
    | Some j => 0 <= j < zlen src /\ nth_error src (Z.to_nat j) = Some mn
    | None => ~ In mn src
    end.
  Proof.
    unfold src_index.
    match goal with |- context [for_up 0 ?n ?f None] => assert (H : (fun k acc => match acc with
      | Some j => 0 <= j < k /\ nth_error src (Z.to_nat j) = Some mn
      | None => forall i, 0 <= i < k -> nth_error src (Z.to_nat i) <> Some mn end) (zlen src) (for_up 0 n f None)) end.
    1: apply for_up_ind.
    - unfold zlen. lia.
    - intros i Hi. lia.
    - intros k acc Hk H. destruct (znth src k (0, 0)) as (m, n) eqn:E.
      assert (En : nth_error src (Z.to_nat k) = Some (m, n)) by (rewrite <- E; apply nth_error_nth'; unfold zlen in Hk; lia).
      destruct ((m =? fst mn) && (n =? snd mn)) eqn:Eq.
      + rewrite andb_true_iff, !Z.eqb_eq in Eq. split; [lia|]. rewrite En. destruct mn; cbn in *. f_equal. f_equal; tauto.
      + destruct acc as [j|]; [split; [lia|tauto]|]. intros i Hi. destruct (Z.eq_dec i k) as [->|Ne]; [|apply H; lia].
        rewrite En. intros Eq'. inversion Eq'; subst mn. cbn in Eq. rewrite !Z.eqb_refl in Eq. discriminate.
    - destruct (for_up 0 (zlen src) _ None) as [j|]; [exact H|]. intros I. apply In_nth_error in I. destruct I as (i & Ei).
      apply (H (Z.of_nat i)); [|rewrite Nat2Z.id; exact Ei]. assert (i < length src)%nat by (apply nth_error_Some; congruence). unfold zlen. lia.
  Qed.

  Lemma remap_rows_ok (v : mat K) src dst c : 0 <= c -> shaped v (zlen src) c ->
    exists rows, remap_rows v src dst = Ok rows /\ length rows = length dst /\
      forall i mn row, nth_error dst i = Some mn -> nth_error rows i = Some row ->
        Z.of_nat (length row) = c /\
        (forall j, src_index src mn = Some j -> nth_error (m_body v) (Z.to_nat j) = Some row) /\
        (~ In mn src -> row = zeros c).
  Proof.
    intros Hc (S1 & S2 & S3 & S4). induction dst as [|mn dst IH].
    - exists []. split; [reflexivity|]. split; [reflexivity|]. intros i mn row E. destruct i; discriminate E.
    - destruct IH as (rows & E & L & H). cbn [remap_rows]. pose proof (src_index_spec src mn) as Sp. destruct (src_index src mn) as [j|] eqn:Ej.
      + destruct Sp as (Hj & Enth). rewrite S1, (proj2 (Z.ltb_lt _ _)) by lia. cbn [raise_unless obind]. rewrite E. cbn [obind].
        eexists. split; [reflexivity|]. split; [cbn; lia|]. intros [|i] mn' row E1 E2; [|exact (H i mn' row E1 E2)].
        cbn in E1, E2. injection E1 as <-; injection E2 as <-.
        assert (Hn : nth_error (m_body v) (Z.to_nat j) = Some (znth (m_body v) j [])) by (apply nth_error_nth'; lia).
        split; [apply S4; eapply nth_error_In; exact Hn|]. split; [intros j' Ej'; rewrite Ej in Ej'; injection Ej' as <-; exact Hn|].
        intros N. exfalso. apply N. eapply nth_error_In. exact Enth.
      + cbn [obind]. rewrite E. cbn [obind]. eexists. split; [reflexivity|]. split; [cbn; lia|]. intros [|i] mn' row E1 E2; [|exact (H i mn' row E1 E2)].
        cbn in E1, E2. injection E1 as <-; injection E2 as <-. rewrite S2.
        split; [apply (zlen_zeros (K := K)); exact Hc|]. split; [intros j' Ej'; rewrite Ej in Ej'; discriminate|]. reflexivity.
  Qed.

  Lemma remap_modes_ok (v : mat K) src dst c : 0 <= c -> in_order src -> shaped v (zlen src) c ->
    exists r, remap_modes v src dst = Ok r /\ shaped r (zlen dst) c /\
      forall i mn row', nth_error dst i = Some mn -> nth_error (m_body r) i = Some row' ->
        (forall row, profile src v mn row -> row' = row) /\ (~ In mn src -> row' = zeros c).
  Proof.
    intros Hc Ho S. destruct (remap_rows_ok v src dst c Hc S) as (rows & E & L & H). unfold remap_modes. rewrite E. cbn [obind]. eexists. split; [reflexivity|]. split.
    - split; [reflexivity|]. split; [apply S|]. cbn [m_body m_rows]. split; [unfold zlen; lia|]. intros row Hr. apply In_nth_error in Hr. destruct Hr as (i & Ei).
      destruct (nth_error dst i) as [mn|] eqn:Ed; [exact (proj1 (H i mn row Ed Ei))|].
      exfalso. apply nth_error_None in Ed. assert (i < length rows)%nat by (apply nth_error_Some; congruence). lia.
    - cbn [m_body]. intros i mn row' E1 E2. destruct (H i mn row' E1 E2) as (H1 & H2 & H3). split; [|exact H3].
      intros row (k & P1 & P2). pose proof (src_index_spec src mn) as Sp. destruct (src_index src mn) as [j|].
      + destruct Sp as (Hj & Ej). assert (k = Z.to_nat j) by (eapply in_order_inj; eassumption). subst k. specialize (H2 j eq_refl). congruence.
      + exfalso. apply Sp. eapply nth_error_In. exact P1.
  Qed.

  Lemma mat_eq_rows (a b : mat K) r c : shaped a r c -> shaped b r c -> (forall i x y, nth_error (m_body a) i = Some x -> nth_error (m_body b) i = Some y -> x = y) -> a = b.
  Proof.
    intros (A1 & A2 & A3 & _) (B1 & B2 & B3 & _) H. destruct a as [ra ca ba], b as [rb cb bb]. cbn in *. subst ra ca rb cb. f_equal.
    apply (list_ext []); [lia|]. intros i Hi. apply (H i); apply nth_error_nth'; lia.
  Qed.

  (** An unchanged set of modes. *)
  Lemma remap_modes_id (v : mat K) modes c : 0 <= c -> in_order modes -> shaped v (zlen modes) c -> remap_modes v modes modes = Ok v.
  Proof.
    intros Hc Ho S. destruct (remap_modes_ok v modes modes c Hc Ho S) as (r & E & Sr & H). rewrite E. f_equal. apply (mat_eq_rows r v _ _ Sr S).
    intros i x y E1 E2. destruct (nth_error modes i) as [mn|] eqn:Em.
    - apply (proj1 (H i mn x Em E1)). exists i. auto.
    - exfalso. apply nth_error_None in Em. assert (i < length (m_body v))%nat by (apply nth_error_Some; congruence). destruct S as (_ & _ & S3 & _). unfold zlen in S3. lia.
  Qed.

  (** *** Lists of fields. *)
  Lemma fields_related_impl {A} (P Q : A -> A -> Prop) l l' : (forall a b, P a b -> Q a b) -> fields_related P l l' -> fields_related Q l l'.
  Proof.
    intros H F. induction F as [|p q l l' (E & M) F IH]; constructor; [|exact IH]. split; [exact E|]. destruct (snd p), (snd q); auto.
  Qed.
  Lemma map_fields_ok {A} (f : A -> outcome A) (P : A -> A -> Prop) l :
    (forall name a, In (name, Some a) l -> exists b, f a = Ok b /\ P a b) -> exists l', map_fields f l = Ok l' /\ fields_related P l l'.
  Proof.
    induction l as [|(name, [a|]) l IH]; intros H.
    - exists []. split; [reflexivity|constructor].
    - destruct (H name a (or_introl eq_refl)) as (b & Eb & Pb). destruct IH as (l' & E & R); [intros; eapply H; right; eassumption|].
      cbn [map_fields]. rewrite Eb. cbn [obind]. rewrite E. cbn [obind]. eexists. split; [reflexivity|]. constructor; [cbn; auto|exact R].
    - destruct IH as (l' & E & R); [intros; eapply H; right; eassumption|]. cbn [map_fields]. rewrite E. cbn [obind]. eexists. split; [reflexivity|]. constructor; [cbn; auto|exact R].
  Qed.
  Lemma map_fields_id {A} (f : A -> outcome A) l : (forall name a, In (name, Some a) l -> f a = Ok a) -> map_fields f l = Ok l.
  Proof.
    induction l as [|(name, [a|]) l IH]; intros H; [reflexivity| |].
    - cbn [map_fields]. rewrite (H name a (or_introl eq_refl)). cbn [obind]. rewrite IH; [reflexivity|]. intros; eapply H; right; eassumption.
    - cbn [map_fields]. rewrite IH; [reflexivity|]. intros; eapply H; right; eassumption.
  Qed.

  Lemma remap_axis_ok (a : list K) ntor : 0 <= ntor -> axis_remapped ntor a (remap_axis a ntor).
  Proof.
    intros Hn. unfold remap_axis. cbv zeta. set (cut := firstn (Z.to_nat (ntor + 1)) a).
    assert (L : zlen cut <= ntor + 1) by (unfold zlen, cut; rewrite firstn_length; lia). split.
    - rewrite app_length, Nat2Z.inj_add. change (zlen cut + zlen (zeros (ntor + 1 - zlen cut) : list K) = ntor + 1). rewrite zlen_zeros by lia. lia.
    - intros n Hn'. destruct (Nat.lt_ge_cases (Z.to_nat n) (length cut)) as [H|H].
      + rewrite app_nth1 by lia. unfold cut. rewrite <- (firstn_skipn (Z.to_nat (ntor + 1)) a) at 2. rewrite app_nth1; [reflexivity|]. exact H.
      + rewrite app_nth2, nth_zeros by lia. unfold cut in H. rewrite firstn_length in H. symmetry. apply nth_overflow. lia.
  Qed.
  Lemma remap_axis_id (a : list K) ntor : zlen a = ntor + 1 -> remap_axis a ntor = a.
  Proof.
    intros H. unfold remap_axis. cbv zeta. unfold zlen in *. rewrite firstn_all2 by lia. rewrite H, Z.sub_diag. cbn. apply app_nil_r.
  Qed.

  (** *** Unchanged resolution. *)
  Context (nsqrt : K -> K).
  Lemma complete_table (w : wout K) : complete w -> w_modes w = state_mode_table (w_mpol w) (w_ntor w) (w_nfp w).
  Proof.
    intros C. apply in_order_unique; [apply C|apply state_table_order, C|]. intros mn. rewrite state_table_In. apply C.
  Qed.

  Theorem same_resolution (w : wout K) : complete w -> interpolate_solution nsqrt w (w_ns w) (w_mpol w) (w_ntor w) = Ok w.
  Proof.
    intros C. unfold interpolate_solution. cbv zeta. rewrite <- (complete_table w C).
    rewrite map_fields_id; cbn [obind].
    2:{ intros name v Hv. pose proof (c_geometry w C name v Hv) as S. pose proof (c_mnmax w C) as Hm. rewrite Hm in S. fold (zlen (w_modes w)) in S.
        pose proof (c_ns w C). rewrite (remap_modes_id v _ (w_ns w) ltac:(lia) (c_order w C) S). cbn [obind]. unfold radial_interpolate_geometry. cbv zeta.
        destruct S as (_ & S2 & _). rewrite S2, Z.eqb_refl. reflexivity. }
    rewrite map_fields_id; cbn [obind].
    2:{ intros name a Ha. f_equal. apply remap_axis_id. exact (c_axis w C name a Ha). }
    f_equal. pose proof (c_mnmax w C) as Hm. destruct w as [nfp ns mpol ntor mnmax modes geo axis arrays]. cbn in *. f_equal; [symmetry; exact Hm|].
    rewrite <- (map_id arrays) at 2. apply map_ext. intros (name, a). cbn [fst snd]. f_equal. destruct (size a =? 0); [reflexivity|].
    destruct (Z.eqb_spec (last_dim a) ns) as [E|E]; [|reflexivity]. destruct a as [v|v]; cbn [last_dim radial_interpolate] in *.
    - unfold radial_interpolate_row. rewrite E, Z.eqb_refl. reflexivity.
    - rewrite E, Z.eqb_refl. reflexivity.
  Qed.

  (** *** Odd modes on the axis. *)
  Lemma set_nth0_znth {A} (a d : A) l : l <> [] -> znth (set_nth 0 a l) 0 d = a.
  Proof. destruct l; [congruence|reflexivity]. Qed.
  Lemma geometry_row_axis m ns_old ns_new (row : list K) : 2 <= ns_new -> Z.odd m = true -> znth (geometry_row nsqrt m ns_old ns_new row) 0 (nZ 0) = nZ 0.
  Proof.
    intros H O. unfold geometry_row. cbv zeta. rewrite Zmod_odd, O. change (1 =? 1) with true. cbv iota.
    apply set_nth0_znth. destruct (map _ (zrange 0 ns_new)) eqn:E; [|discriminate]. apply map_eq_nil in E. pose proof (zlen_zrange ns_new ltac:(lia)) as Z. rewrite E in Z. cbn in Z. lia.
  Qed.
  Lemma linspace_zlen n : 0 <= n -> zlen (linspace n : list K) = n.
  Proof. intros H. unfold linspace. cbv zeta. rewrite zlen_map. apply zlen_zrange. exact H. Qed.
  Lemma geometry_row_zlen m ns_old ns_new (row : list K) : 0 <= ns_new -> zlen (geometry_row nsqrt m ns_old ns_new row) = ns_new.
  Proof.
    intros H. unfold geometry_row. cbv zeta. destruct (m mod 2 =? 1).
    - unfold zlen. rewrite set_nth_length. fold (zlen (map (fun i => ndiv (znth (map (fun x => np_interp x (map nsqrt (linspace ns_old))
        (if ns_old >=? 3 then set_nth 0 (nsub (nmul (nZ 2) (znth (map (fun i0 : Z => nmul (znth row i0 (nZ 0)) (znth (inv_scale (map nsqrt (linspace ns_old))) i0 (nZ 0))) (zrange 0 ns_old)) 1 (nZ 0))) (znth (map (fun i0 : Z => nmul (znth row i0 (nZ 0)) (znth (inv_scale (map nsqrt (linspace ns_old))) i0 (nZ 0))) (zrange 0 ns_old)) 2 (nZ 0))) (map (fun i0 : Z => nmul (znth row i0 (nZ 0)) (znth (inv_scale (map nsqrt (linspace ns_old))) i0 (nZ 0))) (zrange 0 ns_old)) else (map (fun i0 : Z => nmul (znth row i0 (nZ 0)) (znth (inv_scale (map nsqrt (linspace ns_old))) i0 (nZ 0))) (zrange 0 ns_old)))) (map nsqrt (linspace ns_new))) i (nZ 0)) (znth (inv_scale (map nsqrt (linspace ns_new))) i (nZ 0))) (zrange 0 ns_new))).
      rewrite zlen_map. apply zlen_zrange. exact H.
    - rewrite !zlen_map. apply linspace_zlen. exact H.
  Qed.

  (** *** The result, for a given relation between old and new profiles. *)
  Theorem interpolate_related (P : Z -> list K -> list K -> Prop) (w : wout K) ns mpol ntor :
    complete w -> 2 <= ns -> 0 <= mpol -> 0 <= ntor ->
    (forall m row, Z.of_nat (length row) = w_ns w -> 0 <= m -> P m row (if w_ns w =? ns then row else geometry_row nsqrt m (w_ns w) ns row)) ->
    (forall m, 0 <= m -> w_ns w <> ns -> geometry_row nsqrt m (w_ns w) ns (zeros (w_ns w)) = zeros ns) ->
    exists w', interpolate_solution nsqrt w ns mpol ntor = Ok w' /\ at_resolution w w' ns mpol ntor /\
      fields_related (remapped P w w') (w_geometry w) (w_geometry w') /\ fields_related (axis_remapped ntor) (w_axis w) (w_axis w').
  Proof.
    intros C Hns Hm Hn HP HZ. pose proof (c_ns w C) as Hold. pose proof (c_nfp w C) as Hf. unfold interpolate_solution. cbv zeta.
    set (dst := state_mode_table mpol ntor (w_nfp w)).
    assert (Hdst : in_order dst) by (apply state_table_order; exact Hf).
    destruct (map_fields_ok (fun v => r <- remap_modes v (w_modes w) dst ;; radial_interpolate_geometry nsqrt r (map fst dst) ns)
      (fun v v' => shaped v' (zlen dst) ns /\ forall mn row', profile dst v' mn row' ->
         (forall row, profile (w_modes w) v mn row -> P (fst mn) row row') /\ (~ In mn (w_modes w) -> row' = repeat (nZ 0) (length row'))) (w_geometry w)) as (geo & Eg & Rg).
    { intros name v Hv. pose proof (c_geometry w C name v Hv) as S. rewrite (c_mnmax w C) in S. fold (zlen (w_modes w)) in S.
      destruct (remap_modes_ok v (w_modes w) dst (w_ns w) ltac:(lia) (c_order w C) S) as (r & Er & Sr & Hr). rewrite Er. cbn [obind].
      pose proof Sr as (R1 & R2 & R3 & R4). unfold radial_interpolate_geometry. cbv zeta. rewrite R2.
      assert (Hmode : forall i mn, nth_error dst i = Some mn -> 0 <= fst mn).
      { intros i mn E. apply nth_error_In in E. apply state_table_In in E. destruct E. lia. }
      destruct (Z.eqb_spec (w_ns w) ns) as [Ens|Ens].
      - exists r. split; [reflexivity|]. rewrite <- Ens at 1. split; [exact Sr|]. intros mn row' (i & P1 & P2). destruct (Hr i mn row' P1 P2) as (A & B). split.
        + intros row Hrow. rewrite (A row Hrow). pose proof (HP (fst mn) row) as Q.  apply Q; [|eapply Hmode; exact P1].
          rewrite <- (A row Hrow). apply R4. eapply nth_error_In. exact P2.
        + intros N. rewrite (B N). unfold zeros. rewrite repeat_length. reflexivity.
      - rewrite (proj2 (Z.leb_le 2 (w_ns w))), (proj2 (Z.leb_le 2 ns)) by lia. cbn [andb raise_unless obind]. eexists. split; [reflexivity|]. rewrite R1. split.
        + split; [reflexivity|]. split; [reflexivity|]. cbn [m_body]. split; [fold (zlen (map (fun i => geometry_row nsqrt (znth (map fst dst) i 0) (w_ns w) ns (znth (m_body r) i [])) (zrange 0 (zlen dst)))); rewrite zlen_map; apply zlen_zrange; unfold zlen; lia|].
          intros row Hrow. apply in_map_iff in Hrow. destruct Hrow as (i & <- & _). apply geometry_row_zlen. lia.
        + intros mn row' (i & P1 & P2). cbn [m_body] in P2.
          assert (Hi : (i < length dst)%nat) by (apply nth_error_Some; congruence).
          assert (Er' : row' = geometry_row nsqrt (fst mn) (w_ns w) ns (nth i (m_body r) [])).
          { apply (nth_error_nth _ _ []) in P2. rewrite <- P2. change (nth i ?l []) with (nth i l []).
            replace i with (Z.to_nat (Z.of_nat i)) at 1 by lia. fold (znth (map (fun i => geometry_row nsqrt (znth (map fst dst) i 0) (w_ns w) ns (znth (m_body r) i [])) (zrange 0 (zlen dst))) (Z.of_nat i) []).
            rewrite znth_map_zrange by (unfold zlen; lia). unfold znth. rewrite Nat2Z.id. f_equal.
            apply nth_error_nth. rewrite nth_error_map, P1. reflexivity. }
          assert (Eb : nth_error (m_body r) i = Some (nth i (m_body r) [])) by (apply nth_error_nth'; unfold zlen in R3; lia).
          destruct (Hr i mn _ P1 Eb) as (A & B). split.
          * intros row Hrow. rewrite Er', (A row Hrow). pose proof (HP (fst mn) row) as Q.  apply Q; [|eapply Hmode; exact P1].
            rewrite <- (A row Hrow). apply R4. eapply nth_error_In. exact Eb.
          * intros N. rewrite Er', (B N), HZ; [|eapply Hmode; exact P1|exact Ens]. unfold zeros. rewrite repeat_length. reflexivity. }
    rewrite Eg. cbn [obind].
    destruct (map_fields_ok (fun a => Ok (remap_axis a ntor)) (axis_remapped ntor) (w_axis w)) as (ax & Ea & Ra).
    { intros name a _. eexists. split; [reflexivity|]. apply remap_axis_ok. exact Hn. }
    rewrite Ea. cbn [obind]. eexists. split; [reflexivity|]. split; [|split].
    - repeat split; try reflexivity; try (intros H; apply state_table_In; exact H); try exact Hdst; apply state_table_In in H; try apply H.
    - cbn [w_geometry]. eapply fields_related_impl; [|exact Rg]. intros a b H. exact H.
    - cbn [w_axis]. exact Ra.
  Qed.
End Generic.
