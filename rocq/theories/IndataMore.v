(** Reading never misbehaves on plain inputs; changing the resolution; the flat
    boundary reader. *)
From Coq Require Import String ZArith List Bool Lia.
From Verif Require Import Base BaseLemmas Num IndataModel IndataSpec IndataProofs IndataCheck IndataRound.
Import ListNotations.
Open Scope Z_scope.

Section M.
  Context {K : num}.

  Lemma JsonRead_safe {A} (f : json K -> option A) j name : safe (JsonRead f j name).
  Proof. unfold JsonRead. destruct (find name j); [destruct (f j0)|]; auto with safe. Qed.
  Lemma read_safe {A} (f : json K -> option A) j name d : safe (read f j name d).
  Proof. unfold read. apply safe_bind; [apply JsonRead_safe|auto with safe]. Qed.
  Lemma pad_safe n (a : list K) : safe (pad_or_reject_axis n a).
  Proof. unfold pad_or_reject_axis. destruct (_ >? _); auto with safe. Qed.
  Lemma method_safe s : safe (method_of s).
  Proof. unfold method_of. repeat (destruct (String.eqb _ _); auto with safe). Qed.
  Lemma style_safe s : safe (style_of s).
  Proof. unfold style_of. repeat (destruct (String.eqb _ _); auto with safe). Qed.
  Hint Resolve JsonRead_safe read_safe pad_safe method_safe style_safe : safe.

  Lemma read_entries_safe l : safe (read_entries (K := K) l).
  Proof.
    induction l as [|w l IH]; [apply safe_ok|]. cbn [read_entries]. destruct w; auto with safe.
    apply safe_bind; [auto with safe|]. intros [m|] _; [|exact IH]. apply safe_bind; [auto with safe|]. intros [n|] _; [|exact IH].
    apply safe_bind; [auto with safe|]. intros [v|] _; [|exact IH]. apply safe_bind; [exact IH|auto with safe].
  Qed.
  Lemma boundary_entries_safe j name : safe (boundary_entries (K := K) j name).
  Proof. unfold boundary_entries. destruct (find name j) as [[]|]; auto with safe. apply safe_bind; [apply read_entries_safe|auto with safe]. Qed.

  Lemma plain_entry_ok j name : plain_entries j name -> forall es, boundary_entries j name = Ok (Some es) -> Forall (entry_ok (K := K)) es.
  Proof.
    intros P es E. unfold boundary_entries in E. rewrite find_member in E. destruct (member j name) as [[]|] eqn:Em; try discriminate.
    apply obind_ok in E. destruct E as (es' & E & E2). inversion E2; subst es'. apply read_entries_spec in E.
    specialize (P l). assert (P' : forall o, In (JObj o) l -> (forall z, member o "m" = Some (JInt z) -> 0 <= z < 2 ^ 31) /\ (forall z, member o "n" = Some (JInt z) -> - 2 ^ 31 < z < 2 ^ 31)) by (intros o Ho; now apply P).
    clear P Em E2. induction E as [|w ws es0 H E IH|w ws e es0 H E IH]; [constructor|apply IH; intros o Ho; apply P'; right; exact Ho|].
    constructor; [|apply IH; intros o Ho; apply P'; right; exact Ho].
    destruct H as (o & wm & wn & wv & -> & M1 & M2 & _ & (z1 & k1 & -> & Z1 & F1) & (z2 & k2 & -> & Z2 & F2) & _).
    destruct (P' o (or_introl eq_refl)) as (Q1 & Q2). specialize (Q1 _ M1). specialize (Q2 _ M2). unfold fits32 in *. unfold entry_ok.
    assert (k1 = 0) by lia. assert (k2 = 0) by lia. subst. lia.
  Qed.

  Lemma symmetric_safe j name mpol ntor d : plain_entries j name -> 0 <= mpol -> 0 <= ntor < 2 ^ 30 -> safe (symmetric_coefficients (K := K) j name mpol ntor d).
  Proof.
    intros P Hm Hn. unfold symmetric_coefficients. apply safe_bind; [apply boundary_entries_safe|]. intros [es|] E; [|apply safe_ok].
    apply safe_bind; [apply safe_need, int_fits_spec; unfold fits32; lia|intros _ _]. rewrite set_zero_eq by lia. cbn [obind].
    destruct (write_entries_total mpol ntor es (zero_mat mpol (2 * ntor + 1)) ltac:(lia) (zero_mat_shaped mpol (2 * ntor + 1) Hm ltac:(lia)) (plain_entry_ok _ _ P _ E)) as (r & ->).
    apply safe_ok.
  Qed.
  Lemma asymmetric_safe j name mpol ntor : plain_entries j name -> 0 <= mpol -> 0 <= ntor -> safe (asymmetric_coefficients (K := K) j name mpol ntor (zero_mat mpol (2 * ntor + 1))).
  Proof.
    intros P Hm Hn. unfold asymmetric_coefficients. apply safe_bind; [apply boundary_entries_safe|]. intros [es|] E; [|apply safe_ok].
    destruct (write_entries_total mpol ntor es (zero_mat mpol (2 * ntor + 1)) ltac:(lia) (zero_mat_shaped mpol (2 * ntor + 1) Hm ltac:(lia)) (plain_entry_ok _ _ P _ E)) as (r & ->).
    apply safe_ok.
  Qed.
  Lemma asymmetric_axis_safe j name n : member j name <> None -> safe (asymmetric_axis (K := K) j name n).
  Proof.
    intros H. unfold asymmetric_axis. apply safe_bind; [auto with safe|]. intros [a|] E; [auto with safe|].
    unfold JsonRead in E. rewrite find_member in E. destruct (member j name) as [w|]; [|congruence]. destruct (as_vec as_num w); discriminate.
  Qed.

  Lemma read_int_range j name d (P : Z -> Prop) v : read (K := K) as_int j name d = Ok v -> P d ->
    (forall z, member j name = Some (JInt z) -> P z /\ fits32 z) -> P v.
  Proof.
    intros E Hd H. unfold read, JsonRead in E. rewrite find_member in E. destruct (member j name) as [w|]; [|inversion E; subst; exact Hd].
    destruct w; cbn in E; try discriminate. inversion E; subst. destruct (H _ eq_refl) as (H1 & H2). now rewrite to_int_id.
  Qed.
  Lemma read_bool_true j name v : read (K := K) as_bool j name false = Ok v -> v = true -> member j name = Some (JBool true).
  Proof.
    intros E ->. unfold read, JsonRead in E. rewrite find_member in E. destruct (member j name) as [w|]; [|discriminate].
    destruct w; cbn in E; try discriminate. inversion E. reflexivity.
  Qed.

  Theorem FromJson_safe (j : list (string * json K)) : plain_json j -> FromJson (JObj j) = Error \/ exists x, FromJson (JObj j) = Ok x.
  Proof.
    intros (P1 & P2 & P3 & P4 & P5 & P6 & P7).
    assert (S : safe (FromJson (JObj j))).
    { unfold FromJson. cbv zeta.
      apply safe_bind; [auto with safe|intros las Hlas]. assert (Q7 : las = true -> member j "raxis_s" <> None /\ member j "zaxis_c" <> None) by (intros E; apply P7; eapply read_bool_true; eassumption). clear Hlas P7.
      apply safe_bind; [auto with safe|intros nfp' _].
      apply safe_bind; [auto with safe|intros mp Hmp]. assert (Qm : 0 <= mp) by (apply (read_int_range _ _ _ (fun z => 0 <= z) _ Hmp); [cbn; lia|intros z Hz; specialize (P1 z Hz); unfold fits32; lia]). clear Hmp.
      apply safe_bind; [auto with safe|intros nt Hnt]. assert (Qn : 0 <= nt < 2 ^ 30) by (apply (read_int_range _ _ _ (fun z => 0 <= z < 2 ^ 30) _ Hnt); [cbn; lia|intros z Hz; specialize (P2 z Hz); unfold fits32; lia]). clear Hnt.
      do 4 (apply safe_bind; [auto with safe|intros ? _]).
      apply safe_bind; [auto with safe|intros nss _]. apply safe_bind; [auto with safe|intros fts _]. apply safe_bind; [auto with safe|intros u1 Hu1].
      apply safe_bind; [auto with safe|intros nis _]. apply safe_bind; [auto with safe|intros u2 Hu2]. apply same_length_ok in Hu1, Hu2.
      do 30 (apply safe_bind; [first [solve [auto with safe] | match goal with |- safe (match ?o with Some _ => _ | None => _ end) => destruct o; auto with safe end]|intros ? _]).
      do 3 (apply safe_bind; [first [solve [auto with safe] | match goal with |- safe (match ?o with Some _ => _ | None => _ end) => destruct o; auto with safe end]|intros ? _]).
      do 3 (apply safe_bind; [first [solve [auto with safe] | match goal with |- safe (match ?o with Some _ => _ | None => _ end) => destruct o; auto with safe end]|intros ? _]).
      apply safe_bind; [apply safe_need, int_fits_spec; unfold fits32; lia|intros _ _].
      do 4 (apply safe_bind; [auto with safe|intros ? _]).
      apply safe_bind. { destruct las; [|apply safe_ok]. destruct (Q7 eq_refl) as (Q8 & Q9).
        apply safe_bind; [now apply asymmetric_axis_safe|intros ? _]. apply safe_bind; [now apply asymmetric_axis_safe|auto with safe]. }
      intros axes Haxes.
      apply safe_bind; [apply symmetric_safe; auto; lia|intros ? _]. apply safe_bind; [apply symmetric_safe; auto; lia|intros ? _].
      apply safe_bind. { destruct las; [|apply safe_ok]. apply safe_bind; [apply safe_need, int_fits_spec; unfold fits32; lia|intros _ _].
        rewrite set_zero_eq by lia. cbn [obind].
        apply safe_bind; [apply asymmetric_safe; auto; lia|intros ? _]. apply safe_bind; [apply asymmetric_safe; auto; lia|auto with safe]. }
      intros asym Hasym. apply safe_bind; [|auto with safe].
      apply IsConsistent_safe; cbn [ns_array ftol_array niter_array lasym ntor]; try lia.
      intros ->. unfold asymmetric_present. cbn [raxis_s zaxis_c rbs zbc].
      repeat match goal with H : obind _ _ = Ok _ |- _ => apply obind_ok in H; destruct H as (? & ? & H) end.
      inversion Haxes; inversion Hasym; subst. cbn. repeat split; discriminate. }
    destruct S as (S1 & S2). destruct (FromJson (JObj j)); eauto; congruence.
  Qed.

  (** *** SetMpolNtor. *)
  Lemma resize_axis_ok nt nt' (a : list K) : 0 <= nt -> zlen a = nt + 1 -> 0 <= nt' < 2 ^ 30 ->
    exists a', resize_axis nt nt' a = Ok a' /\ resized_axis nt nt' a a'.
  Proof.
    intros H0 Ha Hn. unfold resize_axis.
    replace (int_fits (nt' + 1) && (-1 <=? nt')) with true by (symmetry; rewrite andb_true_iff; split; [apply int_fits_spec; unfold fits32; lia|apply Z.leb_le; lia]).
    cbn [need obind]. replace (Z.min nt nt' <? zlen a) with true by (symmetry; apply Z.ltb_lt; lia). cbn [need obind].
    eexists. split; [reflexivity|]. split.
    - rewrite map_length. unfold zrange. rewrite zseq_length. lia.
    - intros n Hn'. set (f := fun i : Z => if i <=? Z.min nt nt' then nth (Z.to_nat i) a (nZ 0) else nZ 0).
      assert (E : nth (Z.to_nat n) (map f (zrange 0 (nt' + 1))) (nZ 0) = f n).
      { rewrite (nth_indep _ _ (f 0)) by (rewrite map_length; unfold zrange; rewrite zseq_length; lia). rewrite map_nth. f_equal.
        unfold zrange. assert (G : forall k lo i, (i < k)%nat -> nth i (zseq lo k) 0 = lo + Z.of_nat i).
        { induction k; intros lo [|i] Hi; try lia; cbn [zseq nth]; [lia|]. rewrite IHk; lia. }
        rewrite G; lia. }
      rewrite E. unfold f. split; intros Hc.
      + rewrite (proj2 (Z.leb_le _ _)) by lia. reflexivity.
      + rewrite (proj2 (Z.leb_gt _ _)) by lia. reflexivity.
  Qed.

  Lemma resized_2d_ok mp nt mp' nt' (c : mat K) : 0 <= mp -> 0 <= nt -> shaped c mp (2 * nt + 1) -> 0 <= mp' -> 0 <= nt' < 2 ^ 30 ->
    exists c', resized_2d_coeff mp nt mp' nt' c = Ok c' /\ resized mp nt mp' nt' c c'.
  Proof.
    intros Hmp Hnt S Hmp' Hnt'. unfold resized_2d_coeff.
    replace (int_fits (2 * nt' + 1)) with true by (symmetry; apply int_fits_spec; unfold fits32; lia). cbn [need obind].
    rewrite set_zero_eq by lia. cbn [obind]. cbv zeta. pose proof S as (S1 & S2 & _).
    rewrite (proj2 (Z.leb_le (Z.min mp mp') (m_rows c))) by lia. cbn [need obind].
    rewrite (proj2 (Z.ltb_lt (nt + Z.min nt nt') (m_cols c))) by lia. cbn [need obind].
    eexists. split; [reflexivity|]. cbn [m_rows m_cols zero_mat].
    set (s := Z.min nt nt'). set (sm := Z.min mp mp').
    set (src := fun m j => at_ij (m_body c) m (j - nt' + nt)).
    assert (Inner : forall m b, 0 <= m < sm -> shaped (mkMat mp' (2 * nt' + 1) b) mp' (2 * nt' + 1) ->
      let r := for_up (- s) (s + 1) (fun n b => set_at b m (n + nt') (at_ij (m_body c) m (n + nt))) b in
      shaped (mkMat mp' (2 * nt' + 1) r) mp' (2 * nt' + 1) /\
      forall i j, 0 <= i -> 0 <= j -> at_ij r i j = if (i =? m) && ((- s + nt' <=? j) && (j <? s + 1 + nt')) then src m j else at_ij b i j).
    { intros m b Hm Sb. cbv zeta.
      refine (for_up_ind (fun k r => shaped (mkMat mp' (2 * nt' + 1) r) mp' (2 * nt' + 1) /\
        forall i j, 0 <= i -> 0 <= j -> at_ij r i j = if (i =? m) && ((- s + nt' <=? j) && (j <? k + nt')) then src m j else at_ij b i j) _ _ _ _ _ _ _).
      - unfold s. lia.
      - split; [exact Sb|]. intros i j Hi Hj. destruct (Z.leb_spec (- s + nt') j), (Z.ltb_spec j (- s + nt')); try lia; now rewrite !andb_false_r.
      - intros k r Hk (R1 & R2). split; [apply set_at_shaped; [exact R1|lia]|].
        intros i j Hi Hj. rewrite (set_at_get mp' (2 * nt' + 1)) by (auto; unfold s in *; lia). rewrite R2 by assumption.
        destruct (Z.eqb_spec m i) as [->|Hne].
        + rewrite Z.eqb_refl. cbn [andb]. destruct (Z.eqb_spec (k + nt') j) as [<-|Hne].
          * rewrite (proj2 (Z.leb_le _ _)), (proj2 (Z.ltb_lt _ _)) by lia. cbn [andb]. unfold src. f_equal. lia.
          * destruct (Z.leb_spec (- s + nt') j); cbn [andb]; [|reflexivity]. destruct (Z.ltb_spec j (k + nt')), (Z.ltb_spec j (k + 1 + nt')); try lia; reflexivity.
        + destruct (Z.eqb_spec i m); [lia|]. reflexivity. }
    match goal with |- resized _ _ _ _ _ (mkMat _ _ ?r) =>
      assert (Outer : shaped (mkMat mp' (2 * nt' + 1) r) mp' (2 * nt' + 1) /\
        forall i j, 0 <= i -> 0 <= j -> at_ij r i j = if (i <? sm) && ((- s + nt' <=? j) && (j <? s + 1 + nt')) then src i j else nZ 0) end.
    { refine (for_up_ind (fun k r => shaped (mkMat mp' (2 * nt' + 1) r) mp' (2 * nt' + 1) /\
        forall i j, 0 <= i -> 0 <= j -> at_ij r i j = if (i <? k) && ((- s + nt' <=? j) && (j <? s + 1 + nt')) then src i j else nZ 0) _ _ _ _ _ _ _).
      - unfold sm. lia.
      - split; [apply (zero_mat_shaped (K := K)); lia|]. intros i j Hi Hj. rewrite (proj2 (Z.ltb_ge i 0)) by lia. cbn [andb]. apply zero_mat_get.
      - intros k r Hk (R1 & R2). destruct (Inner k r Hk R1) as (Q1 & Q2). split; [exact Q1|]. intros i j Hi Hj. rewrite Q2, R2 by assumption.
        destruct (Z.eqb_spec i k) as [->|Hne].
        + rewrite (proj2 (Z.ltb_lt k (k + 1))), (proj2 (Z.ltb_ge k k)) by lia. cbn [andb]. destruct ((_ <=? _) && _); reflexivity.
        + cbn [andb]. destruct (Z.ltb_spec i k), (Z.ltb_spec i (k + 1)); try lia; reflexivity. }
    destruct Outer as (O1 & O2). split; [exact O1|]. intros m n Hm Hn. rewrite !coef_at. cbn [m_body]. rewrite O2 by lia. unfold src. split.
    - intros C1 C2. rewrite (proj2 (Z.ltb_lt m sm)), (proj2 (Z.leb_le _ _)), (proj2 (Z.ltb_lt _ _)) by (unfold s, sm; lia). cbn [andb]. f_equal. lia.
    - intros C. destruct (Z.ltb_spec m sm), (Z.leb_spec (- s + nt') (n + nt')), (Z.ltb_spec (n + nt') (s + 1 + nt')); cbn [andb]; try reflexivity. unfold s, sm in *. lia.
  Qed.

  Lemma resized_axis_refl nt (a : list K) : zlen a = nt + 1 -> resized_axis nt nt a a.
  Proof. intros H. split; [exact H|]. intros n Hn. split; [reflexivity|lia]. Qed.
  Lemma resized_refl mp nt (b : mat K) : shaped b mp (2 * nt + 1) -> resized mp nt mp nt b b.
  Proof. intros H. split; [exact H|]. intros m n Hm Hn. split; [reflexivity|lia]. Qed.

  Theorem SetMpolNtor_ok (x : indata K) mp' nt' : 0 <= mpol x -> 0 <= ntor x -> well_sized x -> 0 <= mp' -> 0 <= nt' < 2 ^ 30 ->
    exists y, SetMpolNtor mp' nt' x = Ok y /\ resolution_changed mp' nt' x y.
  Proof.
    intros Hm Hn (W1 & W2 & W3 & W4 & W5 & W6 & W7 & W8) Hm' Hn'.
    assert (V1 : zlen (or_zeros (raxis_s x) (ntor x + 1)) = ntor x + 1) by (unfold or_zeros; destruct (raxis_s x); [now apply W5|apply zlen_zeros; lia]).
    assert (V2 : zlen (or_zeros (zaxis_c x) (ntor x + 1)) = ntor x + 1) by (unfold or_zeros; destruct (zaxis_c x); [now apply W6|apply zlen_zeros; lia]).
    assert (V3 : shaped (or_zero_mat (rbs x) (mpol x) (2 * ntor x + 1)) (mpol x) (2 * ntor x + 1)) by (unfold or_zero_mat; destruct (rbs x); [now apply W7|apply zero_mat_shaped; lia]).
    assert (V4 : shaped (or_zero_mat (zbc x) (mpol x) (2 * ntor x + 1)) (mpol x) (2 * ntor x + 1)) by (unfold or_zero_mat; destruct (zbc x); [now apply W8|apply zero_mat_shaped; lia]).
    unfold SetMpolNtor. cbv zeta. destruct ((mp' =? mpol x) && (nt' =? ntor x)) eqn:E.
    - apply andb_true_iff in E. rewrite !Z.eqb_eq in E. destruct E as (-> & ->). eexists. split; [reflexivity|].
      unfold resolution_changed. cbn [mpol ntor raxis_c zaxis_s raxis_s zaxis_c rbc zbs rbs zbc].
      split; [reflexivity|]. split; [reflexivity|]. split; [repeat split; reflexivity|].
      split; [now apply resized_axis_refl|]. split; [now apply resized_axis_refl|]. split; [now apply resized_refl|]. split; [now apply resized_refl|].
      destruct (lasym x); [|auto]. split; [eexists; split; [reflexivity|now apply resized_axis_refl]|]. split; [eexists; split; [reflexivity|now apply resized_axis_refl]|].
      split; eexists; (split; [reflexivity|now apply resized_refl]).
    - destruct (resize_axis_ok (ntor x) nt' (raxis_c x) Hn W1 Hn') as (a1 & E1 & Q1). destruct (resize_axis_ok (ntor x) nt' (zaxis_s x) Hn W2 Hn') as (a2 & E2 & Q2).
      destruct (resized_2d_ok (mpol x) (ntor x) mp' nt' (rbc x) Hm Hn W3 Hm' Hn') as (b1 & E3 & Q3). destruct (resized_2d_ok (mpol x) (ntor x) mp' nt' (zbs x) Hm Hn W4 Hm' Hn') as (b2 & E4 & Q4).
      rewrite E1, E2. cbn [obind]. destruct (lasym x) eqn:L.
      + cbn [opt_get obind].
        destruct (resize_axis_ok (ntor x) nt' _ Hn V1 Hn') as (a3 & E5 & Q5). destruct (resize_axis_ok (ntor x) nt' _ Hn V2 Hn') as (a4 & E6 & Q6).
        destruct (resized_2d_ok (mpol x) (ntor x) mp' nt' _ Hm Hn V3 Hm' Hn') as (b3 & E7 & Q7). destruct (resized_2d_ok (mpol x) (ntor x) mp' nt' _ Hm Hn V4 Hm' Hn') as (b4 & E8 & Q8).
        rewrite E5. cbn [obind]. rewrite E6. cbn [obind]. rewrite E3. cbn [obind]. rewrite E4. cbn [obind]. rewrite E7. cbn [obind]. rewrite E8. cbn [obind fst snd].
        eexists. split; [reflexivity|]. unfold resolution_changed. cbn [mpol ntor raxis_c zaxis_s raxis_s zaxis_c rbc zbs rbs zbc].
        split; [reflexivity|]. split; [reflexivity|]. split; [repeat split; try reflexivity; cbn; auto|]. rewrite L. cbv iota. do 4 (split; [assumption|]). do 3 (split; [eexists; split; [reflexivity|assumption]|]). eexists; split; [reflexivity|assumption].
      + cbn [obind]. rewrite E3. cbn [obind]. rewrite E4. cbn [obind fst snd].
        eexists. split; [reflexivity|]. unfold resolution_changed. cbn [mpol ntor raxis_c zaxis_s raxis_s zaxis_c rbc zbs rbs zbc].
        split; [reflexivity|]. split; [reflexivity|]. split; [repeat split; try reflexivity; cbn; auto|]. rewrite L. cbv iota. auto 10.
  Qed.

  (** growing and shrinking back *)
  Lemma resized_axis_back nt nt' (a a' a'' : list K) : zlen a = nt + 1 -> 0 <= nt <= nt' -> resized_axis nt nt' a a' -> resized_axis nt' nt a' a'' -> a'' = a.
  Proof.
    intros Ha Hn (L1 & R1) (L2 & R2). unfold zlen in Ha. apply (list_ext (nZ 0)); [lia|]. intros i Hi.
    destruct (R2 (Z.of_nat i) ltac:(lia)) as (R2' & _). destruct (R1 (Z.of_nat i) ltac:(lia)) as (R1' & _). rewrite Nat2Z.id in *. rewrite R2', R1' by lia. reflexivity.
  Qed.
  Lemma resized_back mp nt mp' nt' (b b' b'' : mat K) : shaped b mp (2 * nt + 1) -> 0 <= mp <= mp' -> 0 <= nt <= nt' -> resized mp nt mp' nt' b b' -> resized mp' nt' mp nt b' b'' -> b'' = b.
  Proof.
    intros S Hm Hn (L1 & R1) (L2 & R2). apply (mat_ext _ _ mp (2 * nt + 1) L2 S). intros i j Hi Hj.
    destruct (R2 i (j - nt) ltac:(lia) ltac:(lia)) as (R2' & _). destruct (R1 i (j - nt) ltac:(lia) ltac:(lia)) as (R1' & _).
    specialize (R2' ltac:(lia) ltac:(lia)). specialize (R1' ltac:(lia) ltac:(lia)). rewrite !coef_at in *. replace (j - nt + nt) with j in * by lia. congruence.
  Qed.

  Lemma same_settings_trans (x y z : indata K) : same_settings x y -> same_settings y z -> same_settings x z.
  Proof.
    destruct x, y, z. unfold same_settings. cbn. intros H1 H2. repeat match goal with Q : _ /\ _ |- _ => destruct Q end. subst. repeat split.
  Qed.
  Lemma same_all (x y : indata K) : same_settings x y -> mpol x = mpol y -> ntor x = ntor y -> raxis_c x = raxis_c y -> zaxis_s x = zaxis_s y ->
    rbc x = rbc y -> zbs x = zbs y -> raxis_s x = raxis_s y -> zaxis_c x = zaxis_c y -> rbs x = rbs y -> zbc x = zbc y -> x = y.
  Proof.
    destruct x, y. unfold same_settings. cbn. intros. repeat match goal with Q : _ /\ _ |- _ => destruct Q end. subst. reflexivity.
  Qed.

  Theorem SetMpolNtor_back (x : indata K) mp' nt' : 0 <= mpol x <= mp' -> 0 <= ntor x <= nt' -> nt' < 2 ^ 30 -> well_sized x -> (lasym x = true -> asymmetric_present x) ->
    exists y, SetMpolNtor mp' nt' x = Ok y /\ SetMpolNtor (mpol x) (ntor x) y = Ok x.
  Proof.
    intros Hm Hn Hb W A. destruct (SetMpolNtor_ok x mp' nt' ltac:(lia) ltac:(lia) W ltac:(lia) ltac:(lia)) as (y & Ey & Sy). exists y. split; [exact Ey|].
    assert (D : (mp' = mpol x /\ nt' = ntor x) \/ ~ (mp' = mpol x /\ nt' = ntor x)) by lia.
    pose proof W as (W1 & W2 & W3 & W4 & W5 & W6 & W7 & W8). destruct Sy as (Y1 & Y2 & Y3 & Y4 & Y5 & Y6 & Y7 & Y8).
    assert (Wy : 0 <= mpol y /\ 0 <= ntor y) by lia.
    assert (Fin : forall z, SetMpolNtor (mpol x) (ntor x) y = Ok z ->
       mpol z = mpol x -> ntor z = ntor x -> same_settings y z -> raxis_c z = raxis_c x -> zaxis_s z = zaxis_s x -> rbc z = rbc x -> zbs z = zbs x ->
       raxis_s z = raxis_s x -> zaxis_c z = zaxis_c x -> rbs z = rbs x -> zbc z = zbc x -> SetMpolNtor (mpol x) (ntor x) y = Ok x).
    { intros z Ez. intros. rewrite Ez. f_equal. symmetry. apply same_all; auto. eapply same_settings_trans; eassumption. }
    destruct (lasym x) eqn:L.
    - destruct (A eq_refl) as (A1 & A2 & A3 & A4).
      destruct (raxis_s x) as [rs|] eqn:Ers; [|congruence]. destruct (zaxis_c x) as [zc|] eqn:Ezc; [|congruence]. destruct (rbs x) as [b3|] eqn:Eb3; [|congruence]. destruct (zbc x) as [b4|] eqn:Eb4; [|congruence].
      cbn [given_axis given_mat] in Y8. destruct Y8 as ((rs' & F1 & G1) & (zc' & F2 & G2) & (b3' & F3 & G3) & (b4' & F4 & G4)).
      assert (Ly : lasym y = true) by (destruct Y3 as (Y3 & _); congruence).
      assert (WW : well_sized y).
      { unfold well_sized. rewrite F1, F2, F3, F4, Y1, Y2. split; [apply Y4|]. split; [apply Y5|]. split; [apply Y6|]. split; [apply Y7|].
        split; [intros a E; inversion E; subst; apply G1|]. split; [intros a E; inversion E; subst; apply G2|]. split; intros a E; inversion E; subst; [apply G3|apply G4]. }
      destruct (SetMpolNtor_ok y (mpol x) (ntor x) ltac:(lia) ltac:(lia) WW ltac:(lia) ltac:(lia)) as (z & Ez & Z1 & Z2 & Z3 & Z4 & Z5 & Z6 & Z7 & Z8).
      rewrite Ly, F1, F2, F3, F4 in Z8. cbn [given_axis given_mat] in Z8. destruct Z8 as ((rs2 & I1 & J1) & (zc2 & I2 & J2) & (b32 & I3 & J3) & (b42 & I4 & J4)).
      rewrite Y1, Y2 in *.
      apply (Fin z Ez Z1 Z2 Z3); [eapply resized_axis_back; eassumption|eapply resized_axis_back; eassumption|eapply resized_back; eassumption|eapply resized_back; eassumption| | | |].
      + rewrite I1. f_equal. eapply resized_axis_back; [apply W5; reflexivity|eassumption|exact G1|exact J1].
      + rewrite I2. f_equal. eapply resized_axis_back; [apply W6; reflexivity|eassumption|exact G2|exact J2].
      + rewrite I3. f_equal. eapply resized_back; [apply W7; reflexivity|eassumption|eassumption|exact G3|exact J3].
      + rewrite I4. f_equal. eapply resized_back; [apply W8; reflexivity|eassumption|eassumption|exact G4|exact J4].
    - destruct Y8 as (F1 & F2 & F3 & F4). assert (Ly : lasym y = false) by (destruct Y3 as (Y3 & _); congruence).
      assert (WW : exists z, SetMpolNtor (mpol x) (ntor x) y = Ok z /\ resolution_changed (mpol x) (ntor x) y z).
      { (* the asymmetric arrays are not touched *)
        unfold SetMpolNtor. rewrite Ly. cbv zeta. rewrite Y1, Y2.
        destruct ((mpol x =? mp') && (ntor x =? nt')) eqn:E.
        - apply andb_true_iff in E. rewrite !Z.eqb_eq in E. destruct E as (<- & <-). eexists; split; [reflexivity|].
          unfold resolution_changed. cbn [mpol ntor raxis_c zaxis_s raxis_s zaxis_c rbc zbs rbs zbc]. rewrite Ly, Y1, Y2.
          split; [reflexivity|]. split; [reflexivity|]. split; [repeat split; try reflexivity; cbn; auto|].
          split; [apply resized_axis_refl, Y4|]. split; [apply resized_axis_refl, Y5|]. split; [apply resized_refl, Y6|]. split; [apply resized_refl, Y7|auto].
        - destruct (resize_axis_ok nt' (ntor x) (raxis_c y) ltac:(lia) (proj1 Y4) ltac:(lia)) as (a1 & E1 & Q1). destruct (resize_axis_ok nt' (ntor x) (zaxis_s y) ltac:(lia) (proj1 Y5) ltac:(lia)) as (a2 & E2 & Q2).
          destruct (resized_2d_ok mp' nt' (mpol x) (ntor x) (rbc y) ltac:(lia) ltac:(lia) (proj1 Y6) ltac:(lia) ltac:(lia)) as (b1 & E3 & Q3).
          destruct (resized_2d_ok mp' nt' (mpol x) (ntor x) (zbs y) ltac:(lia) ltac:(lia) (proj1 Y7) ltac:(lia) ltac:(lia)) as (b2 & E4 & Q4).
          rewrite E1, E2. cbn [obind]. rewrite E3. cbn [obind]. rewrite E4. cbn [obind fst snd]. eexists; split; [reflexivity|].
          unfold resolution_changed. cbn [mpol ntor raxis_c zaxis_s raxis_s zaxis_c rbc zbs rbs zbc]. rewrite Ly, Y1, Y2.
          split; [reflexivity|]. split; [reflexivity|]. split; [repeat split; try reflexivity; cbn; auto|]. auto 10. }
      destruct WW as (z & Ez & Z1 & Z2 & Z3 & Z4 & Z5 & Z6 & Z7 & Z8). rewrite Ly in Z8. rewrite Y1, Y2 in *. destruct Z8 as (I1 & I2 & I3 & I4).
      apply (Fin z Ez Z1 Z2 Z3); [eapply resized_axis_back; eassumption|eapply resized_axis_back; eassumption|eapply resized_back; eassumption|eapply resized_back; eassumption| | | |]; congruence.
  Qed.

  (** *** BoundaryFromJson. *)
  Theorem BoundaryFromJson_ok mpol ntor (es : list (coefficient K)) : 0 <= mpol -> 0 <= ntor ->
    exists l, BoundaryFromJson mpol ntor es = Ok l /\ zlen l = mpol * (2 * ntor + 1) /\
      forall m n, 0 <= m < mpol -> - ntor <= n <= ntor ->
        (forall v, last_entry es m n v -> nth (Z.to_nat (m * (2 * ntor + 1) + (n + ntor))) l (nZ 0) = v) /\
        (no_entry es m n -> nth (Z.to_nat (m * (2 * ntor + 1) + (n + ntor))) l (nZ 0) = nZ 0).
  Proof.
    intros Hm Hn. unfold BoundaryFromJson.
    assert (G : forall b, zlen b = mpol * (2 * ntor + 1) -> exists l,
      fold_left (fun o e => b <- o ;;
        if (c_m e <? 0) || (c_m e >=? mpol) || (c_n e <? - ntor) || (c_n e >? ntor) then Ok b
        else let flat_index := c_m e * (2 * ntor + 1) + (ntor + c_n e) in
             if (0 <=? flat_index) && (flat_index <? zlen b) then Ok (set_nth (Z.to_nat flat_index) (c_value e) b) else UB) es (Ok b) = Ok l /\
      zlen l = mpol * (2 * ntor + 1) /\
      forall m n, 0 <= m < mpol -> - ntor <= n <= ntor ->
        nth (Z.to_nat (m * (2 * ntor + 1) + (n + ntor))) l (nZ 0) = lastv es m n (nth (Z.to_nat (m * (2 * ntor + 1) + (n + ntor))) b (nZ 0))).
    { induction es as [|e es IH]; intros b Hb; [exists b; auto|]. cbn [fold_left obind].
      destruct ((c_m e <? 0) || (c_m e >=? mpol) || (c_n e <? - ntor) || (c_n e >? ntor)) eqn:E.
      - destruct (IH b Hb) as (l & E1 & E2 & E3). exists l. split; [exact E1|]. split; [exact E2|]. intros m n Hm' Hn'. rewrite E3 by assumption. cbn.
        rewrite !orb_true_iff in E. rewrite Z.geb_leb, Z.gtb_ltb, Z.leb_le, !Z.ltb_lt in E.
        destruct (Z.eqb_spec (c_m e) m), (Z.eqb_spec (c_n e) n); try reflexivity; lia.
      - rewrite !orb_false_iff in E. rewrite Z.geb_leb, Z.gtb_ltb, Z.leb_gt, !Z.ltb_ge in E. cbv zeta.
        assert (B : 0 <= c_m e * (2 * ntor + 1) + (ntor + c_n e) < mpol * (2 * ntor + 1)) by nia.
        rewrite (proj2 (Z.leb_le _ _)), (proj2 (Z.ltb_lt _ _)) by (rewrite ?Hb; lia). cbn [andb].
        destruct (IH (set_nth (Z.to_nat (c_m e * (2 * ntor + 1) + (ntor + c_n e))) (c_value e) b)) as (l & E1 & E2 & E3); [unfold zlen in *; now rewrite set_nth_length|].
        exists l. split; [exact E1|]. split; [exact E2|]. intros m n Hm' Hn'. rewrite E3 by assumption. unfold lastv. cbn [fold_left]. f_equal.
        unfold zlen in Hb.
        destruct (Z.eqb_spec (c_m e) m) as [E5|E5], (Z.eqb_spec (c_n e) n) as [E6|E6]; cbn [andb].
        + rewrite E5, E6, (Z.add_comm ntor n). apply nth_set_nth_eq. lia.
        + apply nth_set_nth_neq. intros C. apply Z2Nat.inj in C; [|lia|nia]. apply E6. nia.
        + apply nth_set_nth_neq. intros C. apply Z2Nat.inj in C; [|lia|nia]. apply E5.
          apply (proj1 (flat_inj (2 * ntor + 1) (c_m e) (ntor + c_n e) m (n + ntor) ltac:(lia) ltac:(lia) C)).
        + apply nth_set_nth_neq. intros C. apply Z2Nat.inj in C; [|lia|nia]. apply E5.
          apply (proj1 (flat_inj (2 * ntor + 1) (c_m e) (ntor + c_n e) m (n + ntor) ltac:(lia) ltac:(lia) C)). }
    destruct (G (zeros (mpol * (2 * ntor + 1)))) as (l & E1 & E2 & E3); [apply zlen_zeros; nia|].
    exists l. split; [exact E1|]. split; [exact E2|]. intros m n Hm' Hn'. rewrite E3 by assumption. rewrite nth_zeros. split.
    - intros v L. now apply lastv_some.
    - intros L. now apply lastv_none.
  Qed.
End M.
