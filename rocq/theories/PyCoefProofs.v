From Coq Require Import String ZArith List Bool Lia.
From Verif Require Import Base BaseLemmas Num IndataModel IndataSpec IndataProofs IndataCheck IndataRound IndataMore SumLemmas PyCoefModel PyCoefSpec.
Import ListNotations.
Open Scope Z_scope.

Section P.
  Context {K : num}.

  Lemma np_zeros_eq r c : 0 <= r -> 0 <= c -> np_zeros r c = Ok (zero_mat r c : mat K).
  Proof. intros Hr Hc. unfold np_zeros. rewrite (proj2 (Z.leb_le 0 r)), (proj2 (Z.leb_le 0 c)) by assumption. reflexivity. Qed.

  Lemma half_odd ntor : (2 * ntor + 1 - 1) / 2 = ntor.
  Proof. replace (2 * ntor + 1 - 1) with (ntor * 2) by lia. apply Z.div_mul. lia. Qed.

  (** The Python function computes what the C++ one does. *)
  Lemma resize_2d_ok mp nt mp' nt' (c : mat K) : 0 <= mp -> 0 <= nt -> shaped c mp (2 * nt + 1) -> 0 <= mp' -> 0 <= nt' ->
    exists c', resize_2d_coeff c mp' nt' = Ok c' /\ resized mp nt mp' nt' c c'.
  Proof.
    intros Hmp Hnt S Hmp' Hnt'. unfold resize_2d_coeff. pose proof S as (S1 & S2 & _).
    rewrite !Z.geb_leb, (proj2 (Z.leb_le 0 mp')), (proj2 (Z.leb_le 0 nt')) by assumption. cbn [raise_unless obind]. cbv zeta.
    rewrite S1, S2, half_odd, Z.eqb_refl. cbn [raise_unless obind]. rewrite np_zeros_eq by lia. cbn [obind].
    eexists. split; [reflexivity|]. cbn [m_rows m_cols zero_mat].
    set (s := Z.min nt nt'). set (sm := Z.min mp mp').
    set (src := fun m j => at_ij (m_body c) m (j - nt' + nt)).
    assert (Inner : forall m b, 0 <= m < sm -> shaped (mkMat mp' (2 * nt' + 1) b) mp' (2 * nt' + 1) ->
      let r := for_up (- s) (s + 1) (fun n b => set_at b m (n + nt') (at_ij (m_body c) m (n + nt))) b in
      shaped (mkMat mp' (2 * nt' + 1) r) mp' (2 * nt' + 1) /\
      forall i j, 0 <= i -> 0 <= j -> at_ij r i j = if (i =? m) && ((- s + nt' <=? j) && (j <? s + 1 + nt')) then src m j else at_ij b i j).
    { intros m b Hm Sb. cbv zeta.
      refine (for_up_ind (fun k r => shaped (mkMat mp' (2 * nt' + 1) r) mp' (2 * nt' + 1) /\
        forall i j, 0 <= i -> 0 <= j -> at_ij r i j = if (i =? m) && ((- s + nt' <=? j) && (j <? k + nt')) then src m j else at_ij b i j) _ _ _ _ _ _ _).
      - unfold s. lia.
      - split; [exact Sb|]. intros i j Hi Hj. destruct (Z.leb_spec (- s + nt') j), (Z.ltb_spec j (- s + nt')); try lia; now rewrite !andb_false_r.
      - intros k r Hk (R1 & R2). split; [apply set_at_shaped; [exact R1|lia]|].
        intros i j Hi Hj. rewrite (set_at_get mp' (2 * nt' + 1)) by (auto; unfold s in *; lia). rewrite R2 by assumption.
        destruct (Z.eqb_spec m i) as [->|Hne].
        + rewrite Z.eqb_refl. cbn [andb]. destruct (Z.eqb_spec (k + nt') j) as [<-|Hne].
          * rewrite (proj2 (Z.leb_le _ _)), (proj2 (Z.ltb_lt _ _)) by lia. cbn [andb]. unfold src. f_equal. lia.
          * destruct (Z.leb_spec (- s + nt') j); cbn [andb]; [|reflexivity]. destruct (Z.ltb_spec j (k + nt')), (Z.ltb_spec j (k + 1 + nt')); try lia; reflexivity.
        + destruct (Z.eqb_spec i m); [lia|]. reflexivity. }
    match goal with |- resized _ _ _ _ _ (mkMat _ _ ?r) =>
      assert (Outer : shaped (mkMat mp' (2 * nt' + 1) r) mp' (2 * nt' + 1) /\
        forall i j, 0 <= i -> 0 <= j -> at_ij r i j = if (i <? sm) && ((- s + nt' <=? j) && (j <? s + 1 + nt')) then src i j else nZ 0) end.
    { refine (for_up_ind (fun k r => shaped (mkMat mp' (2 * nt' + 1) r) mp' (2 * nt' + 1) /\
        forall i j, 0 <= i -> 0 <= j -> at_ij r i j = if (i <? k) && ((- s + nt' <=? j) && (j <? s + 1 + nt')) then src i j else nZ 0) _ _ _ _ _ _ _).
      - unfold sm. lia.
      - split; [apply (zero_mat_shaped (K := K)); lia|]. intros i j Hi Hj. rewrite (proj2 (Z.ltb_ge i 0)) by lia. cbn [andb]. apply zero_mat_get.
      - intros k r Hk (R1 & R2). destruct (Inner k r ltac:(unfold sm in *; lia) R1) as (I1 & I2). split; [exact I1|].
        intros i j Hi Hj. rewrite I2, R2 by assumption. destruct (Z.eqb_spec i k) as [->|Hne].
        + rewrite (proj2 (Z.ltb_lt k (k + 1))), (proj2 (Z.ltb_ge k k)) by lia. cbn [andb]. reflexivity.
        + cbn [andb]. destruct (Z.ltb_spec i k), (Z.ltb_spec i (k + 1)); try lia; reflexivity. }
    destruct Outer as (O1 & O2). split; [exact O1|]. intros m n Hm Hn. rewrite !coef_at. cbn [m_body] in *. split.
    - intros H1 H2. rewrite O2 by lia. rewrite (proj2 (Z.ltb_lt _ _)), (proj2 (Z.leb_le _ _)), (proj2 (Z.ltb_lt _ _)) by (unfold s, sm; lia). cbn [andb]. unfold src. f_equal. lia.
    - intros H1. rewrite O2 by lia. destruct (Z.ltb_spec m sm); cbn [andb]; [|reflexivity].
      destruct (Z.leb_spec (- s + nt') (n + nt')); cbn [andb]; [|reflexivity].
      destruct (Z.ltb_spec (n + nt') (s + 1 + nt')); [|reflexivity]. unfold s, sm in *. lia.
  Qed.

  (** *** Sparse list to array. *)
  Definition store (mpol : Z) (ntor : Z) (o : outcome (mat K)) (e : coefficient K) : outcome (mat K) :=
    b <- o ;;
    if ((0 <=? c_m e) && (c_m e <? mpol)) && ((0 <=? c_n e + ntor) && (c_n e + ntor <? m_cols b))
    then Ok (mkMat (m_rows b) (m_cols b) (set_at (m_body b) (c_m e) (c_n e + ntor) (c_value e)))
    else Throws.
  Lemma sparse_to_dense_store l mpol ntor : sparse_to_dense l mpol ntor = (z <- np_zeros mpol (2 * ntor + 1) ;; fold_left (store mpol ntor) l (Ok z)).
  Proof. reflexivity. Qed.
  Lemma store_not_ok mpol ntor (o : outcome (mat K)) e : (forall a, o <> Ok a) -> store mpol ntor o e = o.
  Proof. intros H. unfold store. destruct o as [a| | |]; cbn; auto. exfalso. apply (H a). reflexivity. Qed.

  Lemma store_all mpol ntor l : forall b, 0 <= ntor -> shaped b mpol (2 * ntor + 1) ->
    (Forall (inside mpol ntor) l ->
      exists r, fold_left (store mpol ntor) l (Ok b) = Ok r /\ shaped r mpol (2 * ntor + 1) /\
        forall m n, 0 <= m < mpol -> - ntor <= n <= ntor -> at_ij (m_body r) m (n + ntor) = lastv l m n (at_ij (m_body b) m (n + ntor))) /\
    (~ Forall (inside mpol ntor) l -> fold_left (store mpol ntor) l (Ok b) = Throws).
  Proof.
    induction l as [|e l IH]; intros b Hn S.
    - split; [intros _; exists b; repeat split; try apply S; reflexivity|]. intros H. exfalso. apply H. constructor.
    - cbn [fold_left]. pose proof S as (S1 & S2 & _).
      destruct (((0 <=? c_m e) && (c_m e <? mpol)) && ((0 <=? c_n e + ntor) && (c_n e + ntor <? m_cols b))) eqn:E.
      + assert (En : store mpol ntor (Ok b) e = Ok (mkMat (m_rows b) (m_cols b) (set_at (m_body b) (c_m e) (c_n e + ntor) (c_value e)))) by (unfold store; cbn [obind]; rewrite E; reflexivity).
        rewrite En. rewrite !andb_true_iff, !Z.leb_le, !Z.ltb_lt in E. destruct E as ((E1 & E2) & E3 & E4).
        destruct b as [r0 c0 body]. cbn [m_rows m_cols m_body] in *. subst r0 c0.
        assert (S' := set_at_shaped _ _ _ (c_m e) (c_n e + ntor) (c_value e) S (conj E1 E2)).
        destruct (IH _ Hn S') as (I1 & I2). split.
        * intros F. destruct (I1 (Forall_inv_tail F)) as (r & R1 & R2 & R3). exists r. split; [exact R1|]. split; [exact R2|].
          intros m n Hm Hn'. rewrite (R3 m n Hm Hn'). cbn [lastv fold_left m_body]. rewrite (set_at_get mpol (2 * ntor + 1)) by (auto; lia).
          replace (c_n e + ntor =? n + ntor) with (c_n e =? n); [reflexivity|].
          destruct (Z.eqb_spec (c_n e) n), (Z.eqb_spec (c_n e + ntor) (n + ntor)); auto; lia.
        * intros F. apply I2. intros F'. apply F. constructor; [|exact F']. unfold inside. lia.
      + assert (En : store mpol ntor (Ok b) e = Throws) by (unfold store; cbn [obind]; rewrite E; reflexivity).
        rewrite En. assert (Ef : fold_left (store mpol ntor) l Throws = Throws).
        { clear. induction l; [reflexivity|]. cbn [fold_left]. rewrite store_not_ok by discriminate. exact IHl. }
        split; [|intros _; exact Ef]. intros F. destruct (Forall_inv F) as (F1 & F2). exfalso.
        rewrite S2 in E. assert (T : ((0 <=? c_m e) && (c_m e <? mpol)) && ((0 <=? c_n e + ntor) && (c_n e + ntor <? 2 * ntor + 1)) = true)
          by (rewrite !andb_true_iff, !Z.leb_le, !Z.ltb_lt; lia). congruence.
  Qed.

  Lemma sparse_to_dense_ok (l : list (coefficient K)) mpol ntor : 0 <= mpol -> 0 <= ntor -> Forall (inside mpol ntor) l ->
    exists r, sparse_to_dense l mpol ntor = Ok r /\ shaped r mpol (2 * ntor + 1) /\
      forall m n, 0 <= m < mpol -> - ntor <= n <= ntor -> at_ij (m_body r) m (n + ntor) = lastv l m n (nZ 0).
  Proof.
    intros Hm Hn F. rewrite sparse_to_dense_store, np_zeros_eq by lia. cbn [obind].
    destruct (proj1 (store_all mpol ntor l (zero_mat mpol (2 * ntor + 1)) Hn (zero_mat_shaped mpol (2 * ntor + 1) Hm ltac:(lia))) F) as (r & R1 & R2 & R3).
    exists r. split; [exact R1|]. split; [exact R2|]. intros m n Hm' Hn'. rewrite (R3 m n Hm' Hn'), zero_mat_get. reflexivity.
  Qed.
  Lemma sparse_to_dense_throws (l : list (coefficient K)) mpol ntor : 0 <= mpol -> 0 <= ntor -> ~ Forall (inside mpol ntor) l -> sparse_to_dense l mpol ntor = Throws.
  Proof.
    intros Hm Hn F. rewrite sparse_to_dense_store, np_zeros_eq by lia. cbn [obind].
    apply (proj2 (store_all mpol ntor l (zero_mat mpol (2 * ntor + 1)) Hn (zero_mat_shaped mpol (2 * ntor + 1) Hm ltac:(lia)))). exact F.
  Qed.

  Theorem strict_reading (l : list (coefficient K)) mpol ntor : 0 <= mpol -> 0 <= ntor ->
    (Forall (inside mpol ntor) l -> exists b, sparse_to_dense l mpol ntor = Ok b /\ holds_entries mpol ntor l b) /\
    (~ Forall (inside mpol ntor) l -> sparse_to_dense l mpol ntor = Throws).
  Proof.
    intros Hm Hn. split; [|apply sparse_to_dense_throws; assumption]. intros F.
    destruct (sparse_to_dense_ok l mpol ntor Hm Hn F) as (r & R1 & R2 & R3). exists r. split; [exact R1|]. split; [exact R2|].
    intros m n Hm' Hn'. rewrite coef_at, (R3 m n Hm' Hn'). split; [intros v; apply lastv_some|apply lastv_none].
  Qed.

  (** *** The inferred shape. *)
  Definition fmax (f : coefficient K -> Z) (l : list (coefficient K)) (a : Z) : Z := fold_left (fun a e => Z.max a (f e)) l a.
  Lemma fmax_ge f l : forall a, a <= fmax f l a /\ forall e, In e l -> f e <= fmax f l a.
  Proof.
    induction l as [|e l IH]; intros a; cbn; [split; [lia|intros ? []]|].
    destruct (IH (Z.max a (f e))) as (I1 & I2). fold (fmax f l (Z.max a (f e))). split; [lia|]. intros e' [<-|H]; [lia|]. apply I2. exact H.
  Qed.

  Lemma implicit_ok (l : list (coefficient K)) : Forall (fun e => 0 <= c_m e) l ->
    exists mp nt r, 0 <= mp /\ 0 <= nt /\ sparse_to_dense_implicit l = Ok r /\ shaped r mp (2 * nt + 1) /\ Forall (inside mp nt) l /\
      forall m n, 0 <= m < mp -> - nt <= n <= nt -> at_ij (m_body r) m (n + nt) = lastv l m n (nZ 0).
  Proof.
    intros F. unfold sparse_to_dense_implicit. change (fold_left (fun a e => Z.max a (c_m e)) l 0) with (fmax c_m l 0).
    change (fold_left (fun a e => Z.max a (Z.abs (c_n e))) l 0) with (fmax (fun e => Z.abs (c_n e)) l 0).
    destruct (fmax_ge c_m l 0) as (A1 & A2). destruct (fmax_ge (fun e => Z.abs (c_n e)) l 0) as (B1 & B2).
    set (mp := fmax c_m l 0) in *. set (nt := fmax (fun e => Z.abs (c_n e)) l 0) in *.
    assert (G : Forall (inside (mp + 1) nt) l).
    { apply Forall_forall. intros e He. rewrite Forall_forall in F. specialize (F e He). specialize (A2 e He). specialize (B2 e He). cbv beta in B2. unfold inside. lia. }
    destruct (sparse_to_dense_ok l (mp + 1) nt ltac:(lia) B1 G) as (r & R1 & R2 & R3).
    exists (mp + 1), nt, r. repeat split; auto; try lia; try apply R2.
  Qed.
  Lemma implicit_throws (l : list (coefficient K)) : Exists (fun e => c_m e < 0) l -> sparse_to_dense_implicit l = Throws.
  Proof.
    intros F. unfold sparse_to_dense_implicit. change (fold_left (fun a e => Z.max a (c_m e)) l 0) with (fmax c_m l 0).
    change (fold_left (fun a e => Z.max a (Z.abs (c_n e))) l 0) with (fmax (fun e => Z.abs (c_n e)) l 0).
    destruct (fmax_ge c_m l 0) as (A1 & A2). destruct (fmax_ge (fun e => Z.abs (c_n e)) l 0) as (B1 & B2).
    apply sparse_to_dense_throws; [lia|lia|]. intros G. apply Exists_exists in F. destruct F as (e & He & Hm). rewrite Forall_forall in G.
    destruct (G e He). lia.
  Qed.

  (** A matrix is determined by its size and its last entries. *)
  Lemma read_field_ok (l : list (coefficient K)) mpol ntor : 0 <= mpol -> 0 <= ntor -> Forall (fun e => 0 <= c_m e) l ->
    exists b, read_field mpol ntor l = Ok b /\ shaped b mpol (2 * ntor + 1) /\
      forall m n, 0 <= m < mpol -> - ntor <= n <= ntor -> at_ij (m_body b) m (n + ntor) = lastv l m n (nZ 0).
  Proof.
    intros Hm Hn F. destruct (implicit_ok l F) as (mp & nt & r & Hmp & Hnt & E & S & G & V).
    unfold read_field. rewrite E. cbn [obind]. unfold validate_2d. cbn [obind]. pose proof S as (S1 & S2 & _). rewrite S1, S2.
    destruct ((mp =? mpol) && (2 * nt + 1 =? 2 * ntor + 1)) eqn:Eq.
    - rewrite andb_true_iff, !Z.eqb_eq in Eq. destruct Eq as (-> & Eq). assert (nt = ntor) by lia. subst nt. exists r. auto.
    - destruct (resize_2d_ok mp nt mpol ntor r Hmp Hnt S Hm Hn) as (c' & E' & S' & V'). exists c'. split; [exact E'|]. split; [exact S'|].
      intros m n Hm' Hn'. destruct (V' m n Hm' Hn') as (V1 & V2). rewrite !coef_at in V1, V2.
      destruct (Z.lt_ge_cases m mp) as [A|A]; [destruct (Z.le_gt_cases (- nt) n) as [B|B]; [destruct (Z.le_gt_cases n nt) as [C|C]|]|].
      + rewrite V1 by lia. apply V; lia.
      + rewrite V2 by lia. symmetry. apply lastv_none. intros e He (Q1 & Q2). rewrite Forall_forall in G. destruct (G e He). lia.
      + rewrite V2 by lia. symmetry. apply lastv_none. intros e He (Q1 & Q2). rewrite Forall_forall in G. destruct (G e He). lia.
      + rewrite V2 by lia. symmetry. apply lastv_none. intros e He (Q1 & Q2). rewrite Forall_forall in G. destruct (G e He). lia.
  Qed.

  Theorem read_field_holds (l : list (coefficient K)) mpol ntor : 0 <= mpol -> 0 <= ntor -> Forall (fun e => 0 <= c_m e) l ->
    exists b, read_field mpol ntor l = Ok b /\ holds_entries mpol ntor l b.
  Proof.
    intros Hm Hn F. destruct (read_field_ok l mpol ntor Hm Hn F) as (b & E & S & V). exists b. split; [exact E|]. split; [exact S|].
    intros m n Hm' Hn'. rewrite coef_at, (V m n Hm' Hn'). split; [intros v; apply lastv_some|apply lastv_none].
  Qed.
  Theorem read_field_negative (l : list (coefficient K)) mpol ntor : Exists (fun e => c_m e < 0) l -> read_field mpol ntor l = Throws.
  Proof. intros F. unfold read_field. rewrite implicit_throws by exact F. reflexivity. Qed.

  (** The C++ reader fills the same array. *)
  Theorem agrees_with_cpp (l : list (coefficient K)) mpol ntor : 0 <= mpol -> 0 <= ntor -> Forall (fun e => 0 <= c_m e /\ - 2 ^ 31 < c_n e) l ->
    exists b, read_field mpol ntor l = Ok b /\ write_entries mpol ntor l (zero_mat mpol (2 * ntor + 1)) = Ok b.
  Proof.
    intros Hm Hn F. assert (S0 := zero_mat_shaped (K := K) mpol (2 * ntor + 1) Hm ltac:(lia)).
    destruct (read_field_ok l mpol ntor Hm Hn) as (b & E & S & V); [eapply Forall_impl; [|exact F]; cbv beta; tauto|].
    destruct (write_entries_total mpol ntor l _ Hn S0 F) as (r & Er). destruct (write_entries_ok _ _ _ _ _ Hn S0 Er) as (Sr & Vr).
    exists b. split; [exact E|]. rewrite Er. f_equal. apply (mat_ext _ _ mpol (2 * ntor + 1) Sr S). intros i k Hi Hk.
    pose proof (V i (k - ntor) Hi ltac:(lia)) as V1. pose proof (Vr i (k - ntor) Hi ltac:(lia)) as V2. replace (k - ntor + ntor) with k in * by lia.
    rewrite V1, V2, zero_mat_get. reflexivity.
  Qed.

  (** *** Array to sparse list. *)
  Definition entries_of (mpol ntor : Z) (b : mat K) : list (coefficient K) :=
    flat_map (fun m => flat_map (fun col =>
          let value := at_ij (m_body b) m col in
          if neq value (nZ 0) then [] else [mkCoef m (col - ntor) value])
        (zrange 0 (2 * ntor + 1))) (zrange 0 mpol).
  Lemma dense_to_sparse_eq (b : mat K) mpol ntor : 0 <= ntor -> shaped b mpol (2 * ntor + 1) -> dense_to_sparse b = Ok (entries_of mpol ntor b).
  Proof.
    intros Hn (S1 & S2 & _). unfold dense_to_sparse. rewrite S1, S2, half_odd.
    replace ((mpol =? 0) && (2 * ntor + 1 =? 0)) with false by (symmetry; rewrite andb_false_iff; right; apply Z.eqb_neq; lia).
    replace ((2 * ntor + 1 - 1) mod 2 =? 0) with true; [reflexivity|]. symmetry. apply Z.eqb_eq.
    replace (2 * ntor + 1 - 1) with (ntor * 2) by lia. apply Z.mod_mul. lia.
  Qed.
  Lemma entries_of_In mpol ntor b e : In e (entries_of mpol ntor b) <->
    0 <= c_m e < mpol /\ - ntor <= c_n e <= ntor /\ c_value e = at_ij (m_body b) (c_m e) (c_n e + ntor) /\ neq (c_value e) (nZ 0) = false.
  Proof.
    unfold entries_of. rewrite in_flat_map. split.
    - intros (m & Hm & H). apply in_flat_map in H. destruct H as (n & Hn & H). cbv zeta in H. apply zrange_In in Hm, Hn.
      destruct (neq _ _) eqn:E; [contradiction|]. destruct H as [<-|[]]. cbn. replace (n - ntor + ntor) with n by lia. repeat split; auto; lia.
    - intros (Hm & Hn & Hv & Hz). exists (c_m e). split; [apply zrange_In; lia|]. apply in_flat_map. exists (c_n e + ntor). split; [apply zrange_In; lia|].
      cbv zeta. rewrite <- Hv, Hz. left. replace (c_n e + ntor - ntor) with (c_n e) by lia. destruct e; reflexivity.
  Qed.

  Lemma NoDup_flat_map {A B} (f : A -> list B) l : NoDup l -> (forall a, In a l -> NoDup (f a)) ->
    (forall a a' b, In a l -> In a' l -> In b (f a) -> In b (f a') -> a = a') -> NoDup (flat_map f l).
  Proof.
    induction l as [|a l IH]; intros D H1 H2; [constructor|]. cbn. inversion D; subst.
    apply SumLemmas.NoDup_app_intro; [apply H1; left; reflexivity|apply IH; auto with datatypes|].
    - intros a1 a2 b A1 A2. apply H2; right; assumption.
    - intros b B1 B2. apply in_flat_map in B2. destruct B2 as (a' & A' & B2). assert (a = a') by (eapply H2; eauto with datatypes). subst. contradiction.
  Qed.

  Lemma flat_map_ifs {A} (c : A -> bool) (g : A -> Z * Z) (l : list A) (h : A -> coefficient K) :
    (forall a, (c_m (h a), c_n (h a)) = g a) -> NoDup (map g l) ->
    NoDup (map (fun e => (c_m e, c_n e)) (flat_map (fun a => if c a then [] else [h a]) l)).
  Proof.
    intros H. induction l as [|a l IH]; intros D; [constructor|]. cbn in D |- *. inversion D; subst. destruct (c a); cbn; [auto|].
    constructor; [|auto]. rewrite H. intros I. apply in_map_iff in I. destruct I as (e & E1 & I). apply in_flat_map in I. destruct I as (a' & I1 & I2).
    destruct (c a'); [contradiction|]. destruct I2 as [<-|[]]. rewrite H in E1. match goal with N : ~ In _ _ |- _ => apply N end. rewrite <- E1. apply in_map. exact I1.
  Qed.
  Lemma map_flat_map {A B C} (g : B -> C) (f : A -> list B) l : map g (flat_map f l) = flat_map (fun a => map g (f a)) l.
  Proof. induction l; [reflexivity|]. cbn. now rewrite map_app, IHl. Qed.
  Lemma entries_of_NoDup mpol ntor b : NoDup (map (fun e => (c_m e, c_n e)) (entries_of mpol ntor b)).
  Proof.
    unfold entries_of. rewrite map_flat_map. apply NoDup_flat_map.
    - apply zrange_NoDup.
    - intros m _. cbv zeta. apply (flat_map_ifs (fun col => neq (at_ij (m_body b) m col) (nZ 0)) (fun col => (m, col - ntor)) (zrange 0 (2 * ntor + 1))
        (fun col => mkCoef m (col - ntor) (at_ij (m_body b) m col))); [reflexivity|].
      apply FinFun.Injective_map_NoDup; [|apply zrange_NoDup]. intros x y E. inversion E. lia.
    - intros m m' x _ _ I1 I2. apply in_map_iff in I1, I2. destruct I1 as (e1 & <- & I1), I2 as (e2 & E & I2).
      apply in_flat_map in I1, I2. destruct I1 as (c1 & _ & I1), I2 as (c2 & _ & I2). cbv zeta in I1, I2.
      destruct (neq _ _) in I1; [contradiction|]. destruct (neq _ _) in I2; [contradiction|]. destruct I1 as [<-|[]], I2 as [<-|[]]. cbn in E. now inversion E.
  Qed.

  Theorem dense_to_sparse_lists (b : mat K) mpol ntor : 0 <= ntor -> shaped b mpol (2 * ntor + 1) ->
    exists l, dense_to_sparse b = Ok l /\ lists_nonzero b mpol ntor l.
  Proof.
    intros Hn S. exists (entries_of mpol ntor b). split; [apply dense_to_sparse_eq; assumption|]. split; [|apply entries_of_NoDup].
    intros m n v. rewrite entries_of_In. cbn. rewrite coef_at. tauto.
  Qed.

  Lemma roundtrip_value (b : mat K) mpol ntor : 0 <= mpol -> 0 <= ntor -> shaped b mpol (2 * ntor + 1) ->
    exists b', read_field mpol ntor (entries_of mpol ntor b) = Ok b' /\ shaped b' mpol (2 * ntor + 1) /\
      forall m n, 0 <= m < mpol -> - ntor <= n <= ntor ->
        at_ij (m_body b') m (n + ntor) = if neq (at_ij (m_body b) m (n + ntor)) (nZ 0) then nZ 0 else at_ij (m_body b) m (n + ntor).
  Proof.
    intros Hm Hn S. destruct (read_field_ok (entries_of mpol ntor b) mpol ntor Hm Hn) as (b' & E & S' & V).
    { apply Forall_forall. intros e He. apply entries_of_In in He. lia. }
    exists b'. split; [exact E|]. split; [exact S'|]. intros m n Hm' Hn'. rewrite (V m n Hm' Hn'). destruct (neq _ _) eqn:Ez.
    - apply lastv_none. intros e He (Q1 & Q2). apply entries_of_In in He. destruct He as (_ & _ & Hv & Hz). rewrite Hv, Q1, Q2 in Hz. congruence.
    - apply lastv_const.
      + intros e He Q1 Q2. apply entries_of_In in He. destruct He as (_ & _ & -> & _). now rewrite Q1, Q2.
      + right. exists (mkCoef m n (at_ij (m_body b) m (n + ntor))). split; [|cbn; auto]. apply entries_of_In. cbn. auto.
  Qed.

  Theorem roundtrip (b : mat K) mpol ntor : 0 <= mpol -> 0 <= ntor -> shaped b mpol (2 * ntor + 1) ->
    exists l b', dense_to_sparse b = Ok l /\ read_field mpol ntor l = Ok b' /\ same_up_to_zero b b' mpol ntor /\
      (only_plus_zero b -> b' = b).
  Proof.
    intros Hm Hn S. destruct (roundtrip_value b mpol ntor Hm Hn S) as (b' & E & S' & V).
    exists (entries_of mpol ntor b), b'. split; [apply dense_to_sparse_eq; assumption|]. split; [exact E|]. split.
    - split; [exact S'|]. intros m n Hm' Hn'. rewrite !coef_at, (V m n Hm' Hn'). destruct (neq _ _); auto.
    - intros P. apply (mat_ext _ _ mpol (2 * ntor + 1) S' S). intros i k Hi Hk.
      pose proof (V i (k - ntor) Hi ltac:(lia)) as V1. replace (k - ntor + ntor) with k in V1 by lia. rewrite V1.
      destruct (neq (at_ij (m_body b) i k) (nZ 0)) eqn:Ez; [|reflexivity].
      destruct (at_ij_In b _ _ i k S Hi Hk) as (row & R1 & R2). symmetry. exact (P row _ R1 R2 Ez).
  Qed.

  (** *** Validators. *)
  Theorem validate_2d_ok mp nt mpol ntor (v : option (mat K)) : 0 <= mpol -> 0 <= ntor -> 0 <= mp -> 0 <= nt ->
    match v with Some c => shaped c mp (2 * nt + 1) | None => True end ->
    exists r, validate_2d mpol ntor v = Ok r /\
      match v with Some c => resized mp nt mpol ntor c r | None => r = zero_mat mpol (2 * ntor + 1) end.
  Proof.
    intros Hm Hn Hmp Hnt S. unfold validate_2d. destruct v as [c|]; cbn [obind].
    - pose proof S as (S1 & S2 & _). rewrite S1, S2. destruct ((mp =? mpol) && _) eqn:E.
      + rewrite andb_true_iff, !Z.eqb_eq in E. destruct E as (-> & E). assert (nt = ntor) by lia. subst nt. exists c. split; [reflexivity|]. split; [exact S|].
        intros m n Hm' Hn'. split; [reflexivity|lia].
      + apply resize_2d_ok; assumption.
    - rewrite np_zeros_eq by lia. cbn [obind m_rows m_cols zero_mat]. rewrite !Z.eqb_refl. cbn [andb]. eexists. split; reflexivity.
  Qed.
  Theorem grow_and_shrink mp nt mp' nt' (c : mat K) : 0 <= mp <= mp' -> 0 <= nt <= nt' -> shaped c mp (2 * nt + 1) ->
    exists c', resize_2d_coeff c mp' nt' = Ok c' /\ resize_2d_coeff c' mp nt = Ok c.
  Proof.
    intros Hm Hn S. destruct (resize_2d_ok mp nt mp' nt' c ltac:(lia) ltac:(lia) S ltac:(lia) ltac:(lia)) as (c' & E & S' & V).
    destruct (resize_2d_ok mp' nt' mp nt c' ltac:(lia) ltac:(lia) S' ltac:(lia) ltac:(lia)) as (c2 & E2 & S2 & V2).
    exists c'. split; [exact E|]. rewrite E2. f_equal. apply (mat_ext _ _ mp (2 * nt + 1) S2 S). intros i k Hi Hk.
    destruct (V2 i (k - nt) Hi ltac:(lia)) as (A & _). destruct (V i (k - nt) ltac:(lia) ltac:(lia)) as (B & _). rewrite !coef_at in *.
    specialize (A ltac:(lia) ltac:(lia)). specialize (B ltac:(lia) ltac:(lia)). replace (k - nt + nt) with k in * by lia. congruence.
  Qed.

  Theorem resize_1d_ok (a : list K) ntor : 0 <= ntor ->
    (zlen a <= ntor + 1 -> exists r, resize_1d_axis_coeff a ntor = Ok r /\ padded a r (ntor + 1)) /\
    (zlen a > ntor + 1 -> resize_1d_axis_coeff a ntor = Throws).
  Proof.
    intros Hn. unfold resize_1d_axis_coeff. rewrite Z.geb_leb, (proj2 (Z.leb_le 0 ntor)) by assumption. cbn [raise_unless obind]. cbv zeta.
    rewrite Z.gtb_ltb. split; intros H.
    - rewrite (proj2 (Z.ltb_ge _ _)) by assumption. cbn [negb raise_unless obind]. eexists. split; [reflexivity|].
      apply (pad_ok (ntor + 1) a). unfold pad_or_reject_axis. rewrite Z.gtb_ltb, (proj2 (Z.ltb_ge _ _)) by assumption. reflexivity.
    - rewrite (proj2 (Z.ltb_lt _ _)) by lia. reflexivity.
  Qed.
End P.
