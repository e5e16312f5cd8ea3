(** JSON round trip of NumPy fields. *)
From Coq Require Import ZArith List Bool String Lia.
From Verif Require Import PydModel PydSpec.
Import ListNotations.
Open Scope nat_scope.

Section P.
Variable A : Type.
Variable of_int : Z -> A.
Local Notation pv := (pv A).
Local Notation scalar := (scalar A).
Local Notation arr := (arr A).
Local Notation sanitize := (sanitize A).
Local Notation tolist := (tolist A).
Local Notation PScal := (PScal A).
Local Notation PList := (PList A).
Local Notation disc := (disc A).
Local Notation rec_floats := (rec_floats A).

Lemma map_res_ok {X Y} (f : X -> res Y) (g : X -> Y) l : Forall (fun x => f x = Good Y (g x)) l -> map_res f l = Good _ (map g l).
Proof. intros H. induction H as [|x l Hx _ IH]; cbn; [reflexivity|]. rewrite Hx. cbn. rewrite IH. reflexivity. Qed.
Lemma san_list l : sanitize (PList l) = bind (map_res sanitize l) (fun l => Good _ (PList l)).
Proof.
  cbn [PydModel.sanitize]. f_equal. induction l as [|x l IH]; [reflexivity|]. cbn [map_res]. destruct (sanitize x); cbn [bind]; [|reflexivity].
  rewrite IH. reflexivity.
Qed.
Lemma san_dict l : sanitize (PDict A l) = bind (map_res (fun kv => bind (sanitize (snd kv)) (fun w => Good _ (fst kv, w))) l) (fun l => Good _ (PDict A l)).
Proof.
  cbn [PydModel.sanitize]. f_equal. induction l as [|[k x] l IH]; [reflexivity|]. cbn [map_res fst snd]. destruct (sanitize x); cbn [bind]; [|reflexivity].
  rewrite IH. reflexivity.
Qed.
Lemma disc_list l : disc (PList l) = bind (map_res disc l)
      (fun rs => match rs with
                 | [] => Good _ ([0], [])
                 | (sh, _) :: _ => if forallb (fun r => shape_eqb sh (fst r)) rs
                                   then Good _ (List.length rs :: sh, List.concat (map snd rs)) else Raises _
                 end).
Proof.
  cbn [PydModel.disc]. f_equal. induction l as [|x l IH]; [reflexivity|]. cbn [map_res]. destruct (disc x); cbn [bind]; [|reflexivity].
  rewrite IH. reflexivity.
Qed.

Lemma chunk_len n k (d : list scalar) : List.length (chunk A n k d) = n.
Proof. revert d. induction n; intros; cbn; auto. Qed.
Lemma chunk_ok n k (d : list scalar) : List.length d = n * k ->
  Forall (fun c => List.length c = k) (chunk A n k d) /\ List.concat (chunk A n k d) = d.
Proof.
  revert d. induction n as [|n IH]; intros d H; cbn.
  - split; [constructor|]. destruct d; [reflexivity|discriminate].
  - destruct (IH (skipn k d)) as [I1 I2]; [rewrite skipn_length; lia|]. split.
    + constructor; [|exact I1]. rewrite firstn_length. lia.
    + rewrite I2. apply firstn_skipn.
Qed.

Definition enc (s : scalar) : pv := match s with SFlt _ f => san_float A f | _ => PScal s end.
Fixpoint jlist (sh : list nat) (d : list scalar) : pv :=
  match sh with
  | [] => match d with s :: _ => enc s | [] => PNone A end
  | n :: r => PList (map (jlist r) (chunk A n (prod r) d))
  end.
Lemma san_tolist sh : forall d, List.length d = prod sh -> sanitize (tolist sh d) = Good _ (jlist sh d).
Proof.
  induction sh as [|n r IH]; intros d H; cbn in H.
  - destruct d as [|s [|]]; try discriminate. destruct s; reflexivity.
  - cbn [PydModel.tolist jlist]. rewrite san_list. destruct (chunk_ok n (prod r) d H) as [C _].
    assert (E : map_res sanitize (map (tolist r) (chunk A n (prod r) d)) = Good _ (map (jlist r) (chunk A n (prod r) d))).
    { induction C as [|c l Hc _ IC]; cbn; [reflexivity|]. rewrite IH by exact Hc. cbn. rewrite IC. reflexivity. }
    rewrite E. reflexivity.
Qed.
Lemma rec_enc s : rec_float A (enc s) = PScal s.
Proof. destruct s as [[|[]|]| |]; reflexivity. Qed.
Lemma rec_floats_leaf s : rec_floats (enc s) = PScal s.
Proof. destruct s as [[|[]|]| |]; reflexivity. Qed.
Lemma rec_jlist sh : forall d, List.length d = prod sh -> rec_floats (jlist sh d) = tolist sh d.
Proof.
  induction sh as [|n r IH]; intros d H; cbn in H.
  - destruct d as [|s [|]]; try discriminate. apply rec_floats_leaf.
  - cbn [PydModel.tolist jlist PydModel.rec_floats]. f_equal. rewrite map_map. destruct (chunk_ok n (prod r) d H) as [C _].
    induction C as [|c l Hc _ IC]; cbn; [reflexivity|]. rewrite IH by exact Hc. rewrite IC. reflexivity.
Qed.
(** the shape that a nested list shows *)
Fixpoint trunc (sh : list nat) : list nat :=
  match sh with [] => [] | O :: _ => [0] | n :: r => n :: trunc r end.
Lemma shape_eqb_refl sh : shape_eqb sh sh = true.
Proof. unfold shape_eqb. destruct (list_eq_dec Nat.eq_dec sh sh); congruence. Qed.
Lemma disc_tolist sh : forall d, List.length d = prod sh -> disc (tolist sh d) = Good _ (trunc sh, map PScal d).
Proof.
  induction sh as [|n r IH]; intros d H; cbn in H.
  - destruct d as [|s [|]]; try discriminate. reflexivity.
  - cbn [PydModel.tolist]. rewrite disc_list. destruct (chunk_ok n (prod r) d H) as [C CC].
    assert (E : map_res disc (map (tolist r) (chunk A n (prod r) d)) = Good _ (map (fun c => (trunc r, map PScal c)) (chunk A n (prod r) d))).
    { clear CC. induction C as [|c l Hc _ IC]; cbn; [reflexivity|]. rewrite IH by exact Hc. cbn. rewrite IC. reflexivity. }
    rewrite E. cbn [bind]. pose proof (chunk_len n (prod r) d) as L. destruct n as [|n].
    + cbn. destruct d; [reflexivity|discriminate].
    + destruct (chunk A (S n) (prod r) d) as [|c l] eqn:EC; [discriminate|]. set (cs := c :: l) in *.
      change (map (fun c => (trunc r, map PScal c)) cs) with ((trunc r, map PScal c) :: map (fun c => (trunc r, map PScal c)) l).
      cbv iota beta.
      assert (F : forallb (fun q => shape_eqb (trunc r) (fst q)) ((trunc r, map PScal c) :: map (fun c => (trunc r, map PScal c)) l) = true).
      { apply forallb_forall. intros q Hq. assert (Hf : fst q = trunc r); [|rewrite Hf; apply shape_eqb_refl].
        destruct Hq as [<-|Hq]; [reflexivity|]. apply in_map_iff in Hq. destruct Hq as (c' & <- & _). reflexivity. }
      rewrite F. f_equal. f_equal.
      * cbn [trunc]. f_equal. cbn [List.length]. rewrite map_length. exact L.
      * change ((trunc r, map PScal c) :: map (fun c => (trunc r, map PScal c)) l) with (map (fun c => (trunc r, map PScal c)) cs).
        rewrite map_map. cbn [snd]. rewrite <- CC. rewrite concat_map. reflexivity.
Qed.

Lemma in_i64_ok z : (- 2 ^ 63 <= z < 2 ^ 63)%Z -> in_i64 z = true.
Proof. intros H. unfold in_i64. apply andb_true_iff. rewrite Z.leb_le, Z.ltb_lt. exact H. Qed.
Lemma leaf_ok d s : elem_ok A d s -> leaf_dtype A (PScal s) = d.
Proof. destruct d, s; cbn [elem_ok]; intros H; try contradiction; try reflexivity. cbn. rewrite in_i64_ok by exact H. reflexivity. Qed.
Lemma join_same d : join d d = d. Proof. destruct d; reflexivity. Qed.
Lemma leaves_ok d l : Forall (elem_ok A d) l -> leaves_dtype A (map PScal l) = match l with [] => DF64 | _ => d end.
Proof.
  intros H. destruct H as [|s l Hs H]; [reflexivity|]. cbn [map leaves_dtype]. rewrite (leaf_ok d s Hs).
  induction H as [|x l Hx _ IH]; [reflexivity|]. cbn [map fold_left]. rewrite (leaf_ok d x Hx), join_same. exact IH.
Qed.
Lemma cast_ok d s : elem_ok A d s -> cast A of_int d (PScal s) = s.
Proof. destruct d, s; cbn; intros H; try contradiction; reflexivity. Qed.
Lemma elem_allowed d s : elem_ok A d s -> allowed d = true.
Proof. destruct d, s; cbn; intros H; try contradiction; reflexivity. Qed.

Definition back (a : arr) : arr := mkArr A (match a_data A a with [] => DF64 | _ => a_dtype A a end) (trunc (a_shape A a)) (a_data A a).
Lemma prod_fold sh : fold_right Nat.mul 1 sh = prod sh.
Proof. induction sh; cbn; [reflexivity|]. rewrite IHsh. reflexivity. Qed.
Lemma deser_jlist (a : arr) : array_ok A a -> a_shape A a <> [] ->
  deser_array A of_int (jlist (a_shape A a) (a_data A a)) = Good _ (PArr A (back a)).
Proof.
  intros [L E] NE. rewrite prod_fold in L. pose proof (rec_jlist _ _ L) as R.
  destruct (a_shape A a) as [|n r] eqn:ES; [congruence|].
  cbn [jlist deser_array] in *. rewrite R. rewrite (disc_tolist (n :: r) (a_data A a) L). cbn [bind]. rewrite (leaves_ok _ _ E).
  assert (AL : allowed (match a_data A a with [] => DF64 | _ => a_dtype A a end) = true).
  { destruct E as [|s l Hs _]; [reflexivity|]. apply (elem_allowed _ _ Hs). }
  rewrite AL. unfold back. rewrite ES. f_equal. f_equal. f_equal. rewrite map_map. clear - E.
  destruct (a_data A a) as [|s0 l0] eqn:ED; [reflexivity|]. rewrite <- ED in E |- *. clear ED.
  induction E as [|x l Hx _ IH]; [reflexivity|]. cbn [map]. rewrite (cast_ok (a_dtype A a) x Hx). f_equal. exact IH.
Qed.
Lemma dtype_eqb_ok a b : dtype_eqb a b = true <-> a = b.
Proof. destruct a, b; cbn; split; congruence. Qed.
Lemma trunc_len sh : List.length (trunc sh) = List.length sh -> trunc sh = sh.
Proof. induction sh as [|[|n] r IH]; cbn; intros H; [reflexivity| |]. - destruct r; [reflexivity|discriminate]. - f_equal. apply IH. congruence. Qed.
Lemma trunc_ok sh : trunc sh = sh <-> Forall (fun n => n <> 0) (removelast sh).
Proof.
  induction sh as [|n r IH]; [cbn; split; auto; constructor|]. destruct r as [|m r].
  - cbn. split; [constructor|]. destruct n; reflexivity.
  - change (removelast (n :: m :: r)) with (n :: removelast (m :: r)). destruct n as [|n].
    + split; [cbn; discriminate|]. intros H. inversion H. congruence.
    + change (trunc (S n :: m :: r)) with (S n :: trunc (m :: r)). split.
      * intros H. constructor; [discriminate|]. apply IH. congruence.
      * intros H. f_equal. apply IH. inversion H. assumption.
Qed.

(** the result of writing and reading an array *)
Lemma array_trip d n (a : arr) : array_ok A a -> a_dtype A a = d -> List.length (a_shape A a) = n -> allowed d = true ->
  (faithful A a -> bind (dump A (TArr d n) (PArr A a)) (load A of_int (TArr d n)) = Good _ (PArr A a)) /\
  (~ faithful A a -> bind (dump A (TArr d n) (PArr A a)) (load A of_int (TArr d n)) = Raises _).
Proof.
  intros OK D N AL. pose proof OK as [L E]. rewrite prod_fold in L.
  assert (DU : dump A (TArr d n) (PArr A a) = Good _ (jlist (a_shape A a) (a_data A a))).
  { unfold dump. cbn [ser ser_array]. rewrite D, AL. cbn [bind]. apply san_tolist. exact L. }
  rewrite DU. cbn [bind]. unfold load. cbn [deser].
  destruct (a_shape A a) as [|m r] eqn:ES.
  - split; [intros (F & _); congruence|]. intros _. cbn in L. destruct (a_data A a) as [|s [|]]; try discriminate.
    destruct s as [[|[]|]| |]; reflexivity.
  - rewrite <- ES in *. assert (NE : a_shape A a <> []) by congruence. rewrite (deser_jlist a OK NE). cbn [bind validate].
    set (d' := match a_data A a with [] => DF64 | _ => d end).
    assert (Hd : d' = d <-> (a_data A a = [] -> d = DF64)).
    { unfold d'. destruct (a_data A a); split; auto; try congruence. intros H; symmetry; auto. }
    assert (B1 : a_dtype A (back a) = d') by (unfold back, d'; cbn; rewrite D; reflexivity).
    assert (B2 : a_shape A (back a) = trunc (a_shape A a)) by reflexivity.
    rewrite B1, B2. split.
    + intros (_ & F1 & F2). rewrite D in F2. apply Hd in F2. apply trunc_ok in F1. rewrite F1, F2, N, Nat.eqb_refl.
      rewrite (proj2 (dtype_eqb_ok d d) eq_refl). cbn [andb]. unfold back. rewrite F1, D. fold d'. rewrite F2.
      rewrite <- D. destruct a; reflexivity.
    + intros NF. destruct (dtype_eqb d' d) eqn:E1; [|reflexivity]. destruct (Nat.eqb_spec (List.length (trunc (a_shape A a))) n) as [E2|]; [|reflexivity].
      exfalso. apply NF. split; [exact NE|]. split.
      * apply trunc_ok, trunc_len. congruence.
      * rewrite D. apply Hd, dtype_eqb_ok. exact E1.
Qed.

(** the four passes in a row *)
Definition trip (t : ty) (v : pv) : Prop :=
  exists s j w, ser A t v = Good _ s /\ sanitize s = Good _ j /\ deser A of_int t j = Good _ w /\ validate A of_int t w = Good _ v.
Lemma trip_ok t v : trip t v -> bind (dump A t v) (load A of_int t) = Good _ v.
Proof. intros (s & j & w & H1 & H2 & H3 & H4). unfold dump, load. rewrite H1. cbn. rewrite H2. cbn. rewrite H3. cbn. exact H4. Qed.
Lemma trip_inv t v : bind (dump A t v) (load A of_int t) = Good _ v -> trip t v.
Proof.
  unfold dump, load. intros H. destruct (ser A t v) as [s|] eqn:E1; [|discriminate]. cbn in H. destruct (sanitize s) as [j|] eqn:E2; [|discriminate]. cbn in H.
  destruct (deser A of_int t j) as [w|] eqn:E3; [|discriminate]. cbn in H. exists s, j, w. auto.
Qed.
Lemma deser_none t : deser A of_int t (PNone A) = Good _ (PNone A) /\ ser A t (PNone A) = Good _ (PNone A).
Proof. induction t; cbn; auto. Qed.

Lemma trip_all t : forall v, has_ty A (fun a => faithful A a) t v -> trip t v.
Proof.
  induction t as [d n| | | |t IH|t IH|t IH]; intros v H; cbn [has_ty] in H.
  - destruct H as (a & -> & D & N & OK & F). apply trip_inv. destruct (allowed d) eqn:AL.
    + apply (array_trip d n a OK D N AL). exact F.
    + exfalso. destruct OK as [_ E]. destruct F as (_ & _ & F). destruct (a_data A a) as [|s l].
      * rewrite (F eq_refl) in D. subst d. discriminate.
      * inversion E as [|? ? Hs _]; subst. apply elem_allowed in Hs. congruence.
  - destruct H as (f & ->). exists (PScal (SFlt A f)), (san_float A f), (san_float A f). destruct f as [|[]|]; repeat split.
  - exists v, v, v. destruct H as [(z & ->)|[(b & ->)|(s & ->)]]; repeat split.
  - contradiction.
  - destruct H as [->|H].
    + exists (PNone A), (PNone A), (PNone A). cbn [ser deser]. destruct (deser_none t) as [-> ->]. repeat split.
    + destruct (IH v H) as (s & j & w & H1 & H2 & H3 & H4). exists s, j, w. cbn [ser deser validate]. repeat split; auto.
      destruct w; auto. revert H4. destruct v; auto; destruct t; cbn; try discriminate; auto; intros H4; try (destruct t; discriminate).
  - destruct H as (l & -> & F).
    assert (F' : Forall (trip t) l) by (revert F; apply Forall_impl; intros x Hx; apply IH; auto). clear F.
    assert (E : exists ls lj lw, map_res (ser A t) l = Good _ ls /\ map_res sanitize ls = Good _ lj /\ map_res (deser A of_int t) lj = Good _ lw /\ map_res (validate A of_int t) lw = Good _ l).
    { induction F' as [|x l (s & j & w & H1 & H2 & H3 & H4) _ (ls & lj & lw & I1 & I2 & I3 & I4)].
      - exists [], [], []. repeat split.
      - exists (s :: ls), (j :: lj), (w :: lw). cbn [map_res]. rewrite H1, H2, H3, H4. cbn [bind]. rewrite I1, I2, I3, I4. repeat split. }
    destruct E as (ls & lj & lw & I1 & I2 & I3 & I4). exists (PList ls), (PList lj), (PList lw). rewrite san_list.
    cbn [ser deser validate]. rewrite I1, I2, I3, I4. repeat split.
  - destruct H as (l & -> & F).
    assert (F' : Forall (fun kv => trip t (snd kv)) l) by (revert F; apply Forall_impl; intros x Hx; apply IH; auto). clear F.
    set (f (g : pv -> res pv) (kv : string * pv) := bind (g (snd kv)) (fun w => Good _ (fst kv, w))).
    assert (E : exists ls lj lw, map_res (f (ser A t)) l = Good _ ls /\ map_res (f sanitize) ls = Good _ lj /\ map_res (f (deser A of_int t)) lj = Good _ lw /\ map_res (f (validate A of_int t)) lw = Good _ l).
    { induction F' as [|[k x] l (s & j & w & H1 & H2 & H3 & H4) _ (ls & lj & lw & I1 & I2 & I3 & I4)].
      - exists [], [], []. repeat split.
      - exists ((k, s) :: ls), ((k, j) :: lj), ((k, w) :: lw). cbn [map_res]. unfold f at 1 3 5 7. cbn [fst snd] in *. rewrite H1, H2, H3, H4. cbn [bind]. rewrite I1, I2, I3, I4. repeat split. }
    destruct E as (ls & lj & lw & I1 & I2 & I3 & I4). exists (PDict A ls), (PDict A lj), (PDict A lw). rewrite san_dict.
    cbn [ser deser validate]. fold (f (ser A t)) (f sanitize) (f (deser A of_int t)) (f (validate A of_int t)). rewrite I1, I2, I3, I4. repeat split.
Qed.

Definition sound (t : ty) (v : pv) : Prop := forall s j w, ser A t v = Good _ s -> sanitize s = Good _ j -> deser A of_int t j = Good _ w ->
  (forall v', validate A of_int t w = Good _ v' -> v' = v) /\ (w = PNone A -> v = PNone A).
Lemma map_res_cons {X Y} (f : X -> res Y) x l ys : map_res f (x :: l) = Good _ ys -> exists y r, f x = Good _ y /\ map_res f l = Good _ r /\ ys = y :: r.
Proof. cbn. destruct (f x) as [y|]; [|discriminate]. cbn. destruct (map_res f l) as [r|]; [|discriminate]. cbn. intros H. injection H as <-. exists y, r. auto. Qed.
Lemma map_res_nil {X Y} (f : X -> res Y) ys : map_res f [] = Good _ ys -> ys = [].
Proof. cbn. congruence. Qed.
Lemma bind_inv {X Y} (r : res X) (f : X -> res Y) y : bind r f = Good _ y -> exists x, r = Good _ x /\ f x = Good _ y.
Proof. destruct r; cbn; [eauto|discriminate]. Qed.

Lemma sound_all t : forall v, has_ty A (fun _ => True) t v -> sound t v.
Proof.
  induction t as [d n| | | |t IH|t IH|t IH]; intros v H; cbn [has_ty] in H.
  - destruct H as (a & -> & D & N & OK & _). intros s j w H1 H2 H3.
    destruct (allowed d) eqn:AL; [|cbn [ser ser_array] in H1; rewrite D, AL in H1; discriminate].
    pose proof (array_trip d n a OK D N AL) as [T1 T2].
    assert (E : bind (dump A (TArr d n) (PArr A a)) (load A of_int (TArr d n)) = validate A of_int (TArr d n) w).
    { unfold dump, load. rewrite H1. cbn [bind]. rewrite H2. cbn [bind]. rewrite H3. reflexivity. }
    rewrite E in T1, T2. split.
    + intros v' Hv. destruct w; try discriminate Hv. cbn [validate] in *.
      destruct (dtype_eqb (a_dtype A a0) d && (List.length (a_shape A a0) =? n))%bool eqn:EB; [|discriminate].
      destruct OK as [L EE]. rewrite prod_fold in L. cbn [ser ser_array] in H1. rewrite D, AL in H1. injection H1 as <-. rewrite (san_tolist _ _ L) in H2.
      injection H2 as <-. cbn [deser] in H3. destruct (a_shape A a) as [|m r] eqn:ES.
      * exfalso. cbn in L. destruct (a_data A a) as [|q [|]]; try discriminate. destruct q as [[|[]|]| |]; discriminate H3.
      * rewrite <- ES in *. assert (NE : a_shape A a <> []) by congruence.
        assert (OK : array_ok A a) by (split; [rewrite prod_fold; exact L|exact EE]).
        rewrite (deser_jlist a OK NE) in H3. injection H3 as <-.
        apply andb_true_iff in EB. destruct EB as [E1 E2]. apply dtype_eqb_ok in E1. apply Nat.eqb_eq in E2.
        assert (F : faithful A a).
        { split; [exact NE|]. split.
          - apply trunc_ok, trunc_len. change (List.length (a_shape A (back a)) = List.length (a_shape A a)). congruence.
          - intros Z. unfold back in E1. cbn in E1. rewrite Z in E1. congruence. }
        specialize (T1 F). congruence.
    + intros ->. exfalso. cbn [ser ser_array] in H1. rewrite D, AL in H1. injection H1 as <-. destruct OK as [L EE]. rewrite prod_fold in L. rewrite (san_tolist _ _ L) in H2.
      injection H2 as <-. cbn [deser] in H3. destruct (a_shape A a) as [|m r] eqn:ES.
      * cbn in L. destruct (a_data A a) as [|q [|]]; try discriminate. destruct q as [[|[]|]| |]; discriminate H3.
      * rewrite <- ES in *. assert (NE : a_shape A a <> []) by congruence. rewrite (deser_jlist a) in H3; [discriminate| |exact NE].
        split; [rewrite prod_fold; exact L|exact EE].
  - destruct H as (f & ->). intros s j w H1 H2 H3. injection H1 as <-. injection H2 as <-. injection H3 as <-. split.
    + intros v' Hv. destruct f as [|[]|]; cbn in Hv; congruence.
    + destruct f as [|[]|]; discriminate.
  - intros s j w H1 H2 H3. destruct H as [(z & ->)|[(b & ->)|(q & ->)]]; injection H1 as <-; injection H2 as <-; injection H3 as <-;
      (split; [intros v' Hv; cbn in Hv; congruence|discriminate]).
  - contradiction.
  - intros s j w H1 H2 H3. cbn [ser deser] in H1, H3. destruct H as [->|H].
    + rewrite (proj2 (deser_none t)) in H1. injection H1 as <-. injection H2 as <-. rewrite (proj1 (deser_none t)) in H3. injection H3 as <-.
      split; [intros v' Hv; cbn in Hv; congruence|auto].
    + destruct (IH v H s j w H1 H2 H3) as [I1 I2]. split; [|exact I2]. intros v' Hv. cbn [validate] in Hv.
      destruct w; try (apply I1; exact Hv). rewrite (I2 eq_refl). congruence.
  - destruct H as (l & -> & F). intros s j w H1 H2 H3. cbn [ser] in H1. apply bind_inv in H1. destruct H1 as (ls & H1 & E). injection E as <-.
    rewrite san_list in H2. apply bind_inv in H2. destruct H2 as (lj & H2 & E). injection E as <-. cbn [deser] in H3.
    apply bind_inv in H3. destruct H3 as (lw & H3 & E). injection E as <-. split; [|discriminate].
    intros v' Hv. cbn [validate] in Hv. apply bind_inv in Hv. destruct Hv as (lv & H4 & E). injection E as <-. f_equal.
    revert ls lj lw lv H1 H2 H3 H4. induction F as [|x l Hx _ IF]; intros.
    + apply map_res_nil in H1. subst ls. apply map_res_nil in H2. subst lj. apply map_res_nil in H3. subst lw. apply map_res_nil in H4. exact H4.
    + apply map_res_cons in H1. destruct H1 as (? & ? & P1 & Q1 & ->). apply map_res_cons in H2. destruct H2 as (? & ? & P2 & Q2 & ->).
      apply map_res_cons in H3. destruct H3 as (? & ? & P3 & Q3 & ->). apply map_res_cons in H4. destruct H4 as (? & ? & P4 & Q4 & ->).
      f_equal; [|eapply IF; eauto]. destruct (IH x Hx _ _ _ P1 P2 P3) as [I1 _]. apply I1. exact P4.
  - destruct H as (l & -> & F). intros s j w H1 H2 H3. cbn [ser] in H1. apply bind_inv in H1. destruct H1 as (ls & H1 & E). injection E as <-.
    rewrite san_dict in H2. apply bind_inv in H2. destruct H2 as (lj & H2 & E). injection E as <-. cbn [deser] in H3.
    apply bind_inv in H3. destruct H3 as (lw & H3 & E). injection E as <-. split; [|discriminate].
    intros v' Hv. cbn [validate] in Hv. apply bind_inv in Hv. destruct Hv as (lv & H4 & E). injection E as <-. f_equal.
    revert ls lj lw lv H1 H2 H3 H4. induction F as [|[k x] l Hx _ IF]; intros.
    + apply map_res_nil in H1. subst ls. apply map_res_nil in H2. subst lj. apply map_res_nil in H3. subst lw. apply map_res_nil in H4. exact H4.
    + apply map_res_cons in H1. destruct H1 as (? & ? & P1 & Q1 & ->). apply map_res_cons in H2. destruct H2 as (? & ? & P2 & Q2 & ->).
      apply map_res_cons in H3. destruct H3 as (? & ? & P3 & Q3 & ->). apply map_res_cons in H4. destruct H4 as (? & ? & P4 & Q4 & ->).
      f_equal; [|eapply IF; eauto]. apply bind_inv in P1. destruct P1 as (a1 & P1 & E1). injection E1 as <-. apply bind_inv in P2. destruct P2 as (a2 & P2 & E2). injection E2 as <-.
      apply bind_inv in P3. destruct P3 as (a3 & P3 & E3). injection E3 as <-. apply bind_inv in P4. destruct P4 as (a4 & P4 & E4). injection E4 as <-.
      cbn [fst snd] in *. destruct (IH x Hx _ _ _ P1 P2 P3) as [I1 _]. rewrite (I1 _ P4). reflexivity.
Qed.

Fixpoint pv_rect' (P : pv -> Prop) (h0 : P (PNone A)) (h1 : forall s, P (PScal s)) (h2 : forall t, P (PStr A t))
  (h3 : forall l, Forall P l -> P (PList l)) (h4 : forall l, Forall (fun kv => P (snd kv)) l -> P (PDict A l)) (h5 : forall a, P (PArr A a)) (v : pv) : P v :=
  match v with
  | PydModel.PNone _ => h0 | PydModel.PScal _ s => h1 s | PStr _ t => h2 t | PArr _ a => h5 a
  | PydModel.PList _ l => h3 l ((fix go l : Forall P l := match l with [] => Forall_nil _ | x :: r => Forall_cons _ (pv_rect' P h0 h1 h2 h3 h4 h5 x) (go r) end) l)
  | PDict _ l => h4 l ((fix go l : Forall (fun kv => P (snd kv)) l := match l with [] => Forall_nil _ | x :: r => Forall_cons _ (pv_rect' P h0 h1 h2 h3 h4 h5 (snd x)) (go r) end) l)
  end.
Lemma san_json v : forall j, sanitize v = Good _ j -> json_ok A j.
Proof.
  induction v using pv_rect'; intros j Hj.
  - injection Hj as <-. exact I.
  - destruct s as [[|[]|]| |]; injection Hj as <-; exact I.
  - injection Hj as <-. exact I.
  - rewrite san_list in Hj. apply bind_inv in Hj. destruct Hj as (l' & H1 & E). injection E as <-. cbn [json_ok]. revert l' H1.
    induction H as [|x l Hx _ IF]; intros l' H1.
    + apply map_res_nil in H1. subst l'. exact I.
    + apply map_res_cons in H1. destruct H1 as (? & ? & P1 & Q1 & ->). split; [apply Hx; exact P1|apply IF; exact Q1].
  - rewrite san_dict in Hj. apply bind_inv in Hj. destruct Hj as (l' & H1 & E). injection E as <-. cbn [json_ok]. revert l' H1.
    induction H as [|[k x] l Hx _ IF]; intros l' H1.
    + apply map_res_nil in H1. subst l'. exact I.
    + apply map_res_cons in H1. destruct H1 as (? & ? & P1 & Q1 & ->). apply bind_inv in P1. destruct P1 as (a1 & P1 & E1). injection E1 as <-.
      split; [apply Hx; exact P1|apply IF; exact Q1].
  - discriminate.
Qed.

(** ** The statements *)
Lemma round_trip t v : has_ty A (faithful A) t v -> bind (dump A t v) (load A of_int t) = Good _ v.
Proof. intros H. apply trip_ok, trip_all, H. Qed.
Lemma never_wrong t v v' : has_ty A (fun _ => True) t v -> bind (dump A t v) (load A of_int t) = Good _ v' -> v' = v.
Proof.
  intros H E. apply bind_inv in E. destruct E as (j & E1 & E2). apply bind_inv in E1. destruct E1 as (s & E0 & E1).
  apply bind_inv in E2. destruct E2 as (w & E2 & E3). exact (proj1 (sound_all t v H s j w E0 E1 E2) v' E3).
Qed.
Lemma dump_json t v j : dump A t v = Good _ j -> json_ok A j.
Proof. intros H. apply bind_inv in H. destruct H as (s & _ & H). exact (san_json s j H). Qed.
End P.

(** Without the restriction the round trip fails: arrays that pydantic accepts. *)
Lemma all_refuted : exists (t : ty) (v : pv Z) j, has_ty Z (fun _ => True) t v /\ validate Z (fun z => z) t v = Good _ v /\
  dump Z t v = Good _ j /\ load Z (fun z => z) t j = Raises _.
Proof.
  exists (TArr DF64 2), (PArr Z (mkArr Z DF64 [0; 2] [])), (PList Z []). split; [|repeat split].
  exists (mkArr Z DF64 [0; 2] []). repeat split. constructor.
Qed.
Lemma empty_int_refuted : exists (v : pv Z) j, has_ty Z (fun _ => True) (TArr DI64 1) v /\ validate Z (fun z => z) (TArr DI64 1) v = Good _ v /\
  dump Z (TArr DI64 1) v = Good _ j /\ load Z (fun z => z) (TArr DI64 1) j = Raises _.
Proof.
  exists (PArr Z (mkArr Z DI64 [0] [])), (PList Z []). split; [|repeat split].
  exists (mkArr Z DI64 [0] []). repeat split. constructor.
Qed.
(** a 2 x 2 array with NaN and an infinity in an Optional *)
Definition case_v : pv Z := PArr Z (mkArr Z DF64 [2; 2] [SFlt Z (Fnan Z); SFlt Z (Ffin Z 3%Z); SFlt Z (Finf Z true); SFlt Z (Ffin Z 0%Z)]).
Lemma case_ok : has_ty Z (faithful Z) (TOpt (TArr DF64 2)) case_v /\
  dump Z (TOpt (TArr DF64 2)) case_v = Good _ (PList Z [PList Z [PStr Z "NaN"; PScal Z (SFlt Z (Ffin Z 3%Z))]; PList Z [PStr Z "-Infinity"; PScal Z (SFlt Z (Ffin Z 0%Z))]]) /\
  bind (dump Z (TOpt (TArr DF64 2)) case_v) (load Z (fun z => z) (TOpt (TArr DF64 2))) = Good _ case_v.
Proof.
  split; [|split; reflexivity]. right. eexists. split; [reflexivity|]. split; [reflexivity|]. split; [reflexivity|]. split.
  - split; [reflexivity|]. repeat constructor.
  - split; [discriminate|]. split; [repeat constructor; discriminate|discriminate].
Qed.
