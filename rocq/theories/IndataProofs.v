(** Reading the input object: what the members of the JSON object become. *)
From Coq Require Import String ZArith List Bool Lia.
From Verif Require Import Base BaseLemmas Num IndataModel IndataSpec.
Import ListNotations.
Open Scope Z_scope.

Lemma obind_ok {A B} (o : outcome A) (f : A -> outcome B) b : obind o f = Ok b -> exists a, o = Ok a /\ f a = Ok b.
Proof. destruct o; cbn; try discriminate. intros H. eauto. Qed.
Lemma guard_ok b u : guard b = Ok u -> b = false.
Proof. destruct b; cbn; [discriminate|reflexivity]. Qed.
Lemma need_ok b u : need b = Ok u -> b = true.
Proof. destruct b; cbn; [reflexivity|discriminate]. Qed.

Lemma int_fits_spec z : int_fits z = true <-> fits32 z.
Proof. unfold int_fits, fits32. rewrite andb_true_iff, Z.leb_le, Z.ltb_lt. tauto. Qed.

Lemma to_int_fits z : fits32 (to_int z).
Proof. unfold to_int, fits32. assert (0 <= (z + 2 ^ 31) mod 2 ^ 32 < 2 ^ 32) by (apply Z.mod_pos_bound; lia). lia. Qed.
Lemma to_int_congr z : exists k, z = to_int z + k * 2 ^ 32.
Proof. exists ((z + 2 ^ 31) / 2 ^ 32). unfold to_int. pose proof (Z.div_mod (z + 2 ^ 31) (2 ^ 32) ltac:(lia)). lia. Qed.
Lemma to_int_id z : fits32 z -> to_int z = z.
Proof. unfold to_int, fits32. intros H. rewrite Z.mod_small by lia. lia. Qed.

Section P.
  Context {K : num}.

  Lemma find_member (j : list (string * json K)) name : find name j = member j name.
  Proof.
    unfold member. induction j as [|[k v] j IH]; [reflexivity|]. cbn. destruct (String.eqb k name); [reflexivity|exact IH].
  Qed.

  Lemma as_all_Forall2 {A} (f : json K -> option A) (d : json K -> A -> Prop) :
    (forall w a, f w = Some a -> d w a) -> forall l r, as_all f l = Some r -> Forall2 d l r.
  Proof.
    intros H. induction l as [|w l IH]; intros r E; cbn in E.
    - inversion E. constructor.
    - destruct (f w) eqn:E1; [|discriminate]. destruct (as_all f l) eqn:E2; [|discriminate]. inversion E. constructor; auto.
  Qed.

  Lemma as_int_is (w : json K) z : as_int w = Some z -> is_int w z.
  Proof.
    destruct w; cbn; try discriminate. intros E. inversion E; subst. destruct (to_int_congr z0) as [k Hk].
    exists z0, k. split; [reflexivity|]. split; [exact Hk|apply to_int_fits].
  Qed.
  Lemma as_num_is (w : json K) x : as_num w = Some x -> is_num w x.
  Proof. destruct w; cbn; try discriminate; intros E; inversion E; [right; eauto|left; reflexivity]. Qed.
  Lemma as_bool_is (w : json K) x : as_bool w = Some x -> is_bool w x.
  Proof. destruct w; cbn; try discriminate; intros E; inversion E. reflexivity. Qed.
  Lemma as_str_is (w : json K) x : as_str w = Some x -> is_str w x.
  Proof. destruct w; cbn; try discriminate; intros E; inversion E. reflexivity. Qed.
  Lemma as_vec_is {A} (f : json K -> option A) (d : json K -> A -> Prop) (H : forall w a, f w = Some a -> d w a) w l :
    as_vec f w = Some l -> is_list d w l.
  Proof. destruct w; cbn; try discriminate. intros E. eexists; split; [reflexivity|]. eapply as_all_Forall2; eauto. Qed.

  Lemma JsonRead_setting {A} (f : json K -> option A) (d : json K -> A -> Prop) (H : forall w a, f w = Some a -> d w a) j name o :
    JsonRead f j name = Ok o ->
    match o with Some v => exists w, member j name = Some w /\ d w v | None => member j name = None end.
  Proof.
    unfold JsonRead. rewrite find_member. destruct (member j name) as [w|]; intros E; [|inversion E; reflexivity].
    destruct (f w) eqn:E1; [|discriminate]. inversion E. eauto.
  Qed.

  Lemma read_setting {A} (f : json K -> option A) (d : json K -> A -> Prop) (H : forall w a, f w = Some a -> d w a) j name dflt v :
    read f j name dflt = Ok v -> setting d j name dflt v.
  Proof.
    unfold read. intros E. apply obind_ok in E. destruct E as (o & E & E2). inversion E2; subst.
    pose proof (JsonRead_setting f d H _ _ _ E) as Q. unfold setting.
    destruct o; [destruct Q as (w & -> & Q); exact Q|rewrite Q; reflexivity].
  Qed.

  Lemma method_of_is s m : method_of s = Ok m -> is_method (JStr s : json K) m.
  Proof.
    unfold method_of, is_method. repeat (match goal with |- context [String.eqb s ?t] => destruct (String.eqb_spec s t); [intros E; inversion E; subst; reflexivity|] end). intros E; discriminate E.
  Qed.
  Lemma style_of_is s m : style_of s = Ok m -> is_style (JStr s : json K) m.
  Proof.
    unfold style_of, is_style. repeat (match goal with |- context [String.eqb s ?t] => destruct (String.eqb_spec s t); [intros E; inversion E; subst; reflexivity|] end). intros E; discriminate E.
  Qed.

  Lemma zlen_app {A} (a b : list A) : zlen (a ++ b) = zlen a + zlen b.
  Proof. unfold zlen. rewrite app_length. lia. Qed.
  Lemma zlen_zeros n : 0 <= n -> zlen (zeros n : list K) = n.
  Proof. intros H. unfold zlen, zeros. rewrite repeat_length. lia. Qed.
  Lemma nth_zeros n i : nth i (zeros n : list K) (nZ 0) = nZ 0.
  Proof. unfold zeros. generalize (Z.to_nat n). intros k. revert i. induction k; intros [|i]; cbn; auto. Qed.

  Lemma pad_ok n (a b : list K) : pad_or_reject_axis n a = Ok b -> padded a b n.
  Proof.
    unfold pad_or_reject_axis. destruct (zlen a >? n) eqn:E; [discriminate|]. rewrite Z.gtb_ltb, Z.ltb_ge in E.
    intros H. inversion H; subst b. split; [exact E|]. split.
    - fold (zlen (a ++ zeros (n - zlen a))). rewrite zlen_app, zlen_zeros by lia. lia.
    - intros i. destruct (Nat.lt_ge_cases i (length a)).
      + now rewrite app_nth1.
      + rewrite app_nth2 by lia. rewrite nth_zeros, nth_overflow; auto.
  Qed.

  (** *** Entries. *)
  Lemma read_entries_spec (l : list (json K)) es : read_entries l = Ok es -> entries l es.
  Proof.
    revert es. induction l as [|w l IH]; intros es E; cbn in E; [inversion E; constructor|].
    destruct w; try discriminate.
    apply obind_ok in E. destruct E as (m & Em & E). apply (JsonRead_setting as_int is_int as_int_is) in Em.
    destruct m as [m|]; [|apply entries_skip; [eexists; split; [reflexivity|tauto]|auto]].
    apply obind_ok in E. destruct E as (n & En & E). apply (JsonRead_setting as_int is_int as_int_is) in En.
    destruct n as [n|]; [|apply entries_skip; [eexists; split; [reflexivity|tauto]|auto]].
    apply obind_ok in E. destruct E as (v & Ev & E). apply (JsonRead_setting as_num is_num as_num_is) in Ev.
    destruct v as [v|]; [|apply entries_skip; [eexists; split; [reflexivity|tauto]|auto]].
    apply obind_ok in E. destruct E as (t & Et & E). inversion E; subst es.
    apply entries_take; [|auto]. destruct Em as (wm & ? & ?), En as (wn & ? & ?), Ev as (wv & ? & ?).
    exists l0, wm, wn, wv. cbn. auto 10.
  Qed.

  (** *** Matrices. *)
  Lemma set_nth_length {A} n (a : A) l : length (set_nth n a l) = length l.
  Proof. revert n. induction l; intros [|n]; cbn; auto. Qed.
  Lemma nth_set_nth_eq {A} n (a d : A) l : (n < length l)%nat -> nth n (set_nth n a l) d = a.
  Proof. revert n. induction l; intros [|n] H; cbn in *; try lia; auto. apply IHl. lia. Qed.
  Lemma nth_set_nth_neq {A} n k (a d : A) l : n <> k -> nth k (set_nth n a l) d = nth k l d.
  Proof. revert n k. induction l; intros [|n] [|k] H; cbn in *; auto; try lia. Qed.

  Lemma shaped_row (b : mat K) r c i : shaped b r c -> 0 <= i < r -> Z.of_nat (length (nth (Z.to_nat i) (m_body b) [])) = c.
  Proof. intros (E1 & E2 & E3 & E4) H. apply E4. apply nth_In. lia. Qed.

  Lemma set_at_shaped r c (b : list (list K)) i j x : shaped (mkMat r c b) r c -> 0 <= i < r -> shaped (mkMat r c (set_at b i j x)) r c.
  Proof.
    intros S Hi. pose proof (shaped_row _ _ _ _ S Hi) as Hr. destruct S as (_ & _ & E3 & E4). cbn in *.
    repeat split; cbn; auto.
    - unfold set_at. rewrite set_nth_length. exact E3.
    - intros row Hin. unfold set_at in Hin.
      apply In_nth with (d := []) in Hin. destruct Hin as (k & Hk & <-). rewrite set_nth_length in Hk.
      destruct (Nat.eq_dec (Z.to_nat i) k) as [<-|Hne].
      + rewrite nth_set_nth_eq by lia. rewrite set_nth_length. exact Hr.
      + rewrite nth_set_nth_neq by auto. apply E4. apply nth_In. lia.
  Qed.

  Lemma set_at_get r c (b : list (list K)) i j x i' j' : shaped (mkMat r c b) r c -> 0 <= i < r -> 0 <= j < c -> 0 <= i' -> 0 <= j' ->
    at_ij (set_at b i j x) i' j' = if (i =? i') && (j =? j') then x else at_ij b i' j'.
  Proof.
    intros S Hi Hj Hi' Hj'. pose proof (shaped_row _ _ _ _ S Hi) as Hr. cbn in Hr. destruct S as (_ & _ & E3 & _). cbn in E3.
    unfold at_ij, set_at. destruct (Z.eqb_spec i i') as [->|Hne]; cbn [andb].
    - rewrite nth_set_nth_eq by lia. destruct (Z.eqb_spec j j') as [->|Hne].
      + rewrite nth_set_nth_eq by lia. reflexivity.
      + rewrite nth_set_nth_neq by lia. reflexivity.
    - rewrite nth_set_nth_neq by lia. reflexivity.
  Qed.

  Lemma zero_mat_shaped r c : 0 <= r -> 0 <= c -> shaped (zero_mat r c : mat K) r c.
  Proof.
    intros Hr Hc. repeat split; cbn; auto.
    - rewrite repeat_length. lia.
    - intros row Hin. apply repeat_spec in Hin. subst. unfold zeros. rewrite repeat_length. lia.
  Qed.
  Lemma zero_mat_get r c i j : at_ij (m_body (zero_mat r c : mat K)) i j = nZ 0.
  Proof.
    unfold at_ij. cbn. generalize (Z.to_nat i), (Z.to_nat r), (Z.to_nat j). intros p q s.
    revert p. induction q; intros [|p]; cbn; try (destruct s; reflexivity); auto. apply nth_zeros.
  Qed.
  Lemma set_zero_ok r c (z : mat K) : set_zero r c = Ok z -> 0 <= r /\ 0 <= c /\ z = zero_mat r c.
  Proof.
    unfold set_zero. destruct ((r <? 0) || (c <? 0)) eqn:E; [discriminate|]. apply orb_false_iff in E. rewrite !Z.ltb_ge in E.
    intros H. inversion H. split; [lia|]. split; [lia|reflexivity].
  Qed.
  Lemma set_zero_eq r c : 0 <= r -> 0 <= c -> set_zero r c = Ok (zero_mat r c : mat K).
  Proof. intros H1 H2. unfold set_zero. rewrite (proj2 (Z.ltb_ge r 0)), (proj2 (Z.ltb_ge c 0)) by lia. reflexivity. Qed.

  Lemma coef_at ntor (b : mat K) m n : coef ntor b m n = at_ij (m_body b) m (n + ntor).
  Proof. reflexivity. Qed.

  (** value of the last matching entry *)
  Definition lastv (es : list (coefficient K)) (m n : Z) (d : K) : K :=
    fold_left (fun acc e => if (c_m e =? m) && (c_n e =? n) then c_value e else acc) es d.
  Lemma lastv_none es m n d : no_entry es m n -> lastv es m n d = d.
  Proof.
    revert d. induction es as [|e es IH]; intros d H; [reflexivity|]. cbn.
    destruct (Z.eqb_spec (c_m e) m), (Z.eqb_spec (c_n e) n); cbn [andb];
      try solve [exfalso; apply (H e); [left; reflexivity|auto]]; apply IH; intros e' He'; apply H; right; exact He'.
  Qed.
  Lemma lastv_some es m n v d : last_entry es m n v -> lastv es m n d = v.
  Proof.
    intros (l1 & l2 & -> & H). unfold lastv. rewrite fold_left_app. cbn. rewrite !Z.eqb_refl. cbn.
    change (lastv l2 m n v = v). apply lastv_none. exact H.
  Qed.

  Lemma fold_not_ok {A} (f : outcome A -> coefficient K -> outcome A) (Hf : forall o e, (forall a, o <> Ok a) -> f o e = o) es o :
    (forall a, o <> Ok a) -> fold_left f es o = o.
  Proof. revert o. induction es as [|e es IH]; intros o H; [reflexivity|]. cbn. rewrite (Hf o e H). apply IH. exact H. Qed.

  Lemma write_entries_ok mpol ntor es : forall b r, 0 <= ntor -> shaped b mpol (2 * ntor + 1) ->
    write_entries mpol ntor es b = Ok r ->
    shaped r mpol (2 * ntor + 1) /\
    forall m n, 0 <= m < mpol -> - ntor <= n <= ntor -> at_ij (m_body r) m (n + ntor) = lastv es m n (at_ij (m_body b) m (n + ntor)).
  Proof.
    unfold write_entries. induction es as [|e es IH]; intros b r Hnt S E.
    - inversion E; subst. split; [exact S|reflexivity].
    - cbn [fold_left] in E. remember (write_entry mpol ntor (Ok b) e) as o eqn:Eo.
      assert (Eb : exists b', o = Ok b').
      { destruct o as [b'| | |]; [eauto| | |]; exfalso;
          (rewrite fold_not_ok in E; [discriminate| |discriminate]); intros o' e'; unfold write_entry; destruct o' as [bb| | |]; cbn; auto;
          intros Hn; exfalso; apply (Hn bb); reflexivity. }
      destruct Eb as (b' & ->). symmetry in Eo. unfold write_entry in Eo. cbn [obind] in Eo.
      destruct (c_m e >? mpol - 1) eqn:E1.
      { inversion Eo; subst b'. destruct (IH b r Hnt S E) as (Q1 & Q2). split; [exact Q1|]. intros m n Hm Hn. rewrite (Q2 m n Hm Hn). cbn.
        rewrite Z.gtb_ltb, Z.ltb_lt in E1. destruct (Z.eqb_spec (c_m e) m); [lia|]. reflexivity. }
      destruct (c_n e =? - 2 ^ 31) eqn:E2; [discriminate|].
      destruct (Z.abs (c_n e) >? ntor) eqn:E3.
      { inversion Eo; subst b'. destruct (IH b r Hnt S E) as (Q1 & Q2). split; [exact Q1|]. intros m n Hm Hn. rewrite (Q2 m n Hm Hn). cbn.
        rewrite Z.gtb_ltb, Z.ltb_lt in E3. destruct (Z.eqb_spec (c_n e) n); [lia|]. rewrite andb_false_r. reflexivity. }
      match type of Eo with (if ?c then _ else _) = _ => destruct c eqn:E4 end; [|discriminate].
      inversion Eo; subst b'. rewrite !andb_true_iff, !Z.leb_le, !Z.ltb_lt in E4. destruct E4 as (((? & ?) & ?) & ?).
      destruct b as [r0 c0 body]. pose proof S as (Sr & Sc & _). cbn [m_rows m_cols] in Sr, Sc, H0, H2. subst r0 c0. cbn [m_rows m_cols m_body] in *.
      destruct (IH _ r Hnt (set_at_shaped _ _ _ (c_m e) (ntor + c_n e) (c_value e) S ltac:(lia)) E) as (Q1 & Q2).
      split; [exact Q1|]. intros m n Hm Hn. rewrite (Q2 m n Hm Hn). cbn [m_body lastv fold_left].
      rewrite (set_at_get mpol (2 * ntor + 1)) by (auto; lia).
      replace (ntor + c_n e =? n + ntor) with (c_n e =? n); [reflexivity|].
      destruct (Z.eqb_spec (c_n e) n), (Z.eqb_spec (ntor + c_n e) (n + ntor)); auto; lia.
  Qed.

  (** no undefined behaviour when no entry has a negative m *)
  Definition entry_ok (e : coefficient K) : Prop := 0 <= c_m e /\ - 2 ^ 31 < c_n e.
  Lemma write_entries_total mpol ntor es : forall b, 0 <= ntor -> shaped b mpol (2 * ntor + 1) -> Forall entry_ok es ->
    exists r, write_entries mpol ntor es b = Ok r.
  Proof.
    unfold write_entries. induction es as [|e es IH]; intros b Hnt S F; [eexists; reflexivity|]. inversion F as [|? ? [H1 H2] F']; subst.
    cbn [fold_left]. unfold write_entry at 2. cbn [obind].
    destruct (c_m e >? mpol - 1) eqn:E1; [apply IH; auto|].
    destruct (Z.eqb_spec (c_n e) (- 2 ^ 31)); [lia|].
    destruct (Z.abs (c_n e) >? ntor) eqn:E3; [apply IH; auto|].
    rewrite Z.gtb_ltb, Z.ltb_ge in E1, E3.
    destruct b as [r0 c0 body]. pose proof S as (Sr & Sc & _). cbn [m_rows m_cols] in Sr, Sc. subst r0 c0. cbn [m_rows m_cols m_body] in *.
    match goal with |- context [if ?c then _ else _] => replace c with true end.
    - apply IH; auto. apply set_at_shaped; auto; lia.
    - symmetry. rewrite !andb_true_iff, !Z.leb_le, !Z.ltb_lt. lia.
  Qed.

  Lemma holds_entries_of mpol ntor es (b : mat K) : 0 <= ntor ->  0 <= mpol ->
    write_entries mpol ntor es (zero_mat mpol (2 * ntor + 1)) = Ok b -> holds_entries mpol ntor es b.
  Proof.
    intros Hn Hm E. destruct (write_entries_ok _ _ _ _ _ Hn (zero_mat_shaped mpol (2 * ntor + 1) Hm ltac:(lia)) E) as (Q1 & Q2).
    split; [exact Q1|]. intros m n Hm' Hn'. rewrite coef_at, (Q2 m n Hm' Hn'), zero_mat_get. split.
    - intros v L. apply lastv_some. exact L.
    - intros L. apply lastv_none. exact L.
  Qed.

  Lemma boundary_entries_spec (j : list (string * json K)) name o : boundary_entries j name = Ok o ->
    match o with Some es => exists ws, member j name = Some (JArr ws) /\ entries ws es | None => member j name = None end.
  Proof.
    unfold boundary_entries. rewrite find_member. destruct (member j name) as [w|]; [|intros E; inversion E; reflexivity].
    destruct w; try discriminate. intros E. apply obind_ok in E. destruct E as (es & E & E2). inversion E2; subst.
    eexists; split; [reflexivity|]. apply read_entries_spec. exact E.
  Qed.

  Lemma symmetric_spec (j : list (string * json K)) name mpol ntor d b : symmetric_coefficients j name mpol ntor d = Ok b -> boundary_setting j name mpol ntor d b.
  Proof.
    unfold symmetric_coefficients, boundary_setting. intros E. apply obind_ok in E. destruct E as (o & E1 & E).
    apply boundary_entries_spec in E1. destruct o as [es|].
    - destruct E1 as (ws & -> & E1). exists ws, es. split; [reflexivity|]. split; [exact E1|].
      apply obind_ok in E. destruct E as (? & ? & E). apply obind_ok in E. destruct E as (z & Ez & E).
      apply set_zero_ok in Ez. destruct Ez as (? & ? & ->). apply holds_entries_of; auto. lia.
    - rewrite E1. inversion E. reflexivity.
  Qed.
  Lemma asymmetric_spec (j : list (string * json K)) name mpol ntor b : 0 <= mpol -> 0 <= ntor ->
    asymmetric_coefficients j name mpol ntor (zero_mat mpol (2 * ntor + 1)) = Ok b -> boundary_setting j name mpol ntor (zero_mat mpol (2 * ntor + 1)) b.
  Proof.
    unfold asymmetric_coefficients, boundary_setting. intros Hm Hn E. apply obind_ok in E. destruct E as (o & E1 & E).
    apply boundary_entries_spec in E1. destruct o as [es|].
    - destruct E1 as (ws & -> & E1). exists ws, es. split; [reflexivity|]. split; [exact E1|]. apply holds_entries_of; auto.
    - rewrite E1. inversion E. reflexivity.
  Qed.
  Lemma asymmetric_axis_spec (j : list (string * json K)) name n a : asymmetric_axis j name n = Ok a ->
    exists w g, member j name = Some w /\ is_list is_num w g /\ padded g a n.
  Proof.
    unfold asymmetric_axis. intros E. apply obind_ok in E. destruct E as (o & E1 & E).
    apply (JsonRead_setting (as_vec as_num) (is_list is_num) (as_vec_is _ _ as_num_is)) in E1.
    destruct o as [g|]; [|discriminate]. destruct E1 as (w & E1 & E2). exists w, g. split; [exact E1|]. split; [exact E2|]. apply pad_ok. exact E.
  Qed.

  Lemma same_length_ok {A B} (a : list A) (b : list B) u : same_length a b = Ok u -> length a = length b.
  Proof. unfold same_length. intros E. apply guard_ok in E. apply negb_false_iff, Z.eqb_eq in E. unfold zlen in E. lia. Qed.

  Lemma string_setting {A} (of : string -> outcome A) (d : json K -> A -> Prop) (H : forall s m, of s = Ok m -> d (JStr s) m) j name o dflt v :
    JsonRead as_str j name = Ok o -> match o with Some s => of s | None => Ok dflt end = Ok v -> setting d j name dflt v.
  Proof.
    intros E1 E2. apply (JsonRead_setting as_str is_str as_str_is) in E1. unfold setting. destruct o as [s|].
    - destruct E1 as (w & -> & E1). hnf in E1. subst w. auto.
    - rewrite E1. inversion E2. reflexivity.
  Qed.

  Theorem FromJson_reads j (x : indata K) : FromJson (JObj j) = Ok x -> reads_as j x.
  Proof.
    intros E. unfold FromJson in E. cbv beta iota zeta in E.
    repeat (match type of E with obind _ _ = Ok _ => apply obind_ok in E; destruct E as (? & ? & E); cbv beta in E end).
    inversion E; subst x; clear E. unfold reads_as. cbv zeta.
    cbn [lasym nfp mpol ntor mpol_geometry ntor_geometry ntheta nzeta ns_array ftol_array niter_array phiedge ncurr
      pmass_type am am_aux_s am_aux_f pres_scale gamma spres_ped piota_type ai ai_aux_s ai_aux_f
      pcurr_type ac ac_aux_s ac_aux_f curtor bloat lfreeb mgrid_file extcur nvacskip free_boundary_method
      nstep aphi delt tcon0 lforbal iteration_style return_outputs raxis_c zaxis_s raxis_s zaxis_c rbc zbs rbs zbc].
    repeat match goal with |- _ /\ _ => split end;
      try solve [ eapply read_setting; [|eassumption]; first [exact as_bool_is | exact as_int_is | exact as_num_is | exact as_str_is
                    | exact (as_vec_is _ _ as_int_is) | exact (as_vec_is _ _ as_num_is)]
                | eapply same_length_ok; eassumption
                | eapply string_setting; [|eassumption|eassumption]; first [exact method_of_is|exact style_of_is]
                | apply symmetric_spec; assumption
                | eexists; split; [eapply read_setting; [exact (as_vec_is _ _ as_num_is)|eassumption]|apply pad_ok; eassumption] ].
    match goal with |- if ?l then _ else _ => destruct l end.
    - repeat match goal with H : obind _ _ = Ok _ |- _ => apply obind_ok in H; destruct H as (? & ? & H) end.
      repeat match goal with H : Ok (Some _, Some _) = Ok _ |- _ => inversion H; subst; clear H end. cbn [fst snd].
      match goal with H : set_zero _ _ = Ok _ |- _ => apply set_zero_ok in H; destruct H as (? & ? & ->) end.
      repeat match goal with H : asymmetric_axis _ _ _ = Ok _ |- _ => apply asymmetric_axis_spec in H; destruct H as (? & ? & ? & ? & ?) end.
      repeat split; [eauto 10|eauto 10| |]; eexists; (split; [reflexivity|]); apply asymmetric_spec; auto; lia.
    - repeat match goal with H : Ok (None, None) = Ok _ |- _ => inversion H; subst; clear H end. cbn [fst snd]. auto.
  Qed.
End P.
