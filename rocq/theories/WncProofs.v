(** Lemmas on saving and loading. *)
From Coq Require Import String Ascii ZArith List Bool Lia.
From Verif Require Import WncModel WncSpec.
Import ListNotations.
Open Scope nat_scope.

Lemma dimid_eqb_eq : forall a b, dimid_eqb a b = true <-> a = b.
Proof.
  intros [n|s] [m|t]; simpl; split; intro H; try discriminate.
  - apply Nat.eqb_eq in H. now subst.
  - inversion H. apply Nat.eqb_refl.
  - apply String.eqb_eq in H. now subst.
  - inversion H. apply String.eqb_refl.
Qed.
Lemma dimid_eqb_refl : forall a, dimid_eqb a a = true.
Proof. intro a. now apply dimid_eqb_eq. Qed.

(** *** strings *)
Lemma lstrip_head : forall p c r, p c = false -> lstrip p (c :: r) = c :: r.
Proof. intros. simpl. now rewrite H. Qed.
Lemma lstrip_rep : forall p c n l, p c = true -> lstrip p (repeat c n ++ l) = lstrip p l.
Proof. intros p c n l H. induction n; simpl; auto. now rewrite H. Qed.
Lemma rev_repeat : forall A (c : A) n, rev (repeat c n) = repeat c n.
Proof.
  intros A c n. induction n; simpl; auto. rewrite IHn.
  clear. induction n; simpl; auto. now rewrite IHn.
Qed.
Lemma strip_keep : forall p l,
  match l with [] => True | c :: _ => p c = false /\ p (last l c) = false end -> strip p l = l.
Proof.
  intros p [|c r] H; [reflexivity|]. destruct H as [H1 H2]. unfold strip.
  rewrite (lstrip_head p c r H1).
  destruct (exists_last (l := c :: r)) as [l' [x E]]; [discriminate|]. rewrite E in *.
  rewrite last_last in H2. rewrite rev_app_distr. simpl. rewrite H2.
  change (rev (x :: rev l') = l' ++ [x]). simpl. now rewrite rev_involutive.
Qed.
Lemma strip_pad : forall p c l n,
  p c = true -> match l with [] => True | d :: _ => p d = false /\ p (last l d) = false end ->
  strip p (l ++ repeat c n) = l.
Proof.
  intros p c [|d r] n Hc H.
  - simpl. unfold strip. rewrite <- (app_nil_r (repeat c n)), lstrip_rep by auto. reflexivity.
  - destruct H as [H1 H2]. unfold strip.
    change ((d :: r) ++ repeat c n) with (d :: (r ++ repeat c n)). rewrite lstrip_head by auto.
    change (d :: (r ++ repeat c n)) with ((d :: r) ++ repeat c n).
    rewrite rev_app_distr, rev_repeat, lstrip_rep by auto.
    destruct (exists_last (l := d :: r)) as [l' [x E]]; [discriminate|]. rewrite E in *.
    rewrite last_last in H2. rewrite rev_app_distr. simpl. rewrite H2. simpl. now rewrite rev_involutive.
Qed.
Lemma last_repeat : forall A (c d : A) n, last (repeat c (S n)) d = c.
Proof. intros A c d n. induction n; [reflexivity|]. change (last (c :: repeat c (S n)) d = c). exact IHn. Qed.
Lemma last_pad : forall A (l : list A) c n d, last (l ++ repeat c (S n)) d = c.
Proof.
  intros A l c n d. destruct (exists_last (l := repeat c (S n))) as [l' [x E]]; [discriminate|].
  assert (X : x = c). { transitivity (last (repeat c (S n)) x). rewrite E. now rewrite last_last. apply last_repeat. }
  rewrite E, app_assoc, last_last. exact X.
Qed.
Lemma no_edge_nul : forall c, c <> zero -> py_nul c = false.
Proof.
  intros c H. unfold py_nul. apply Nat.eqb_neq. intro E. apply H.
  rewrite <- (ascii_nat_embedding c), E. reflexivity.
Qed.
Lemma strip_text : forall l n, trimmed l -> strip py_space (strip py_nul (l ++ repeat " "%char n)) = l.
Proof.
  intros l n T. rewrite (strip_keep py_nul (l ++ repeat " "%char n)).
  - apply strip_pad; [reflexivity|]. destruct l as [|c r]; [exact I|]. destruct T as [[A _] [B _]]. now split.
  - destruct l as [|c r].
    + destruct n; [exact I|]. simpl repeat. simpl app. split; [reflexivity|].
      change (" "%char :: repeat " "%char n) with (repeat " "%char (S n)). rewrite last_repeat. reflexivity.
    + destruct T as [[_ A] [_ B]]. change ((c :: r) ++ repeat " "%char n) with (c :: (r ++ repeat " "%char n)).
      split; [now apply no_edge_nul|]. change (c :: (r ++ repeat " "%char n)) with ((c :: r) ++ repeat " "%char n).
      destruct n.
      * simpl repeat. rewrite app_nil_r. now apply no_edge_nul.
      * rewrite last_pad. reflexivity.
Qed.
Lemma ascii7_forallb : forall l, ascii7 l -> forallb is_ascii l = true.
Proof. intros l H. apply forallb_forall. intros c Hc. apply Nat.ltb_lt. now apply H. Qed.
Lemma forallb_pad : forall l n, forallb is_ascii l = true -> forallb is_ascii (l ++ repeat " "%char n) = true.
Proof.
  intros l n H. rewrite forallb_app, H. simpl. apply forallb_forall. intros c Hc.
  apply repeat_spec in Hc. now subst.
Qed.

Section Proofs.
  Context {F : Type}.
  Variables (fill_f : F) (fill_i : Z).
  Notation transpose := (transpose fill_f).

  (** *** transposition *)
  Lemma grid_len : forall (g : nat -> nat -> F) m n a,
    length (flat_map (fun j => map (g j) (seq 0 m)) (seq a n)) = n * m.
  Proof.
    intros g m n. induction n; intro a; simpl; auto.
    rewrite app_length, map_length, seq_length, IHn. lia.
  Qed.
  Lemma grid_nth : forall (g : nat -> nat -> F) m n a j i x, j < n -> i < m ->
    nth (j * m + i) (flat_map (fun j => map (g j) (seq 0 m)) (seq a n)) x = g (a + j) i.
  Proof.
    intros g m n. induction n; intros a j i x Hj Hi; [lia|]. simpl seq. simpl flat_map.
    destruct j as [|j].
    - rewrite app_nth1 by (rewrite map_length, seq_length; lia).
      rewrite (nth_indep _ x (g a 0)) by (rewrite map_length, seq_length; lia).
      rewrite map_nth. rewrite seq_nth by lia. f_equal; lia.
    - rewrite app_nth2 by (rewrite map_length, seq_length; simpl; lia).
      rewrite map_length, seq_length. replace (S j * m + i - m) with (j * m + i) by (simpl; lia).
      rewrite IHn by lia. f_equal; lia.
  Qed.
  Lemma transpose_len : forall nr nc d, length (transpose nr nc d) = nc * nr.
  Proof. intros. unfold WncModel.transpose. exact (grid_len (fun j i => nth (i * nc + j) d fill_f) nr nc 0). Qed.
  Lemma transpose_nth : forall nr nc d j i x, j < nc -> i < nr ->
    nth (j * nr + i) (transpose nr nc d) x = nth (i * nc + j) d fill_f.
  Proof.
    intros. unfold WncModel.transpose.
    exact (grid_nth (fun j i => nth (i * nc + j) d fill_f) nr nc 0 j i x H H0).
  Qed.
  Lemma transpose_twice : forall nr nc d, length d = nr * nc -> transpose nc nr (transpose nr nc d) = d.
  Proof.
    intros nr nc d L. apply nth_ext with (d := fill_f) (d' := fill_f).
    - rewrite transpose_len. lia.
    - intros k Hk. rewrite transpose_len in Hk.
      assert (Hc : nc <> 0) by (intro; subst; lia).
      pose proof (Nat.div_mod k nc Hc) as E. pose proof (Nat.mod_upper_bound k nc Hc) as M.
      assert (D : k / nc < nr) by (apply Nat.div_lt_upper_bound; lia).
      replace k with (k / nc * nc + k mod nc) at 1 by lia.
      rewrite transpose_nth by lia. rewrite transpose_nth by lia. f_equal. lia.
  Qed.

  (** *** dimensions *)
  Lemma dim_size_app : forall ds e d, dim_size (ds ++ [e]) d =
    match dim_size ds d with Some n => Some n | None => if dimid_eqb (fst e) d then Some (snd e) else None end.
  Proof. induction ds as [|[x n] r IH]; intros [y m] d; simpl; auto. destruct (dimid_eqb x d); auto. apply (IH (y, m)). Qed.
  Lemma dim_size_In : forall ds d n, In (d, n) ds -> dim_size ds d <> None.
  Proof.
    induction ds as [|[x m] r IH]; intros d n H; [destruct H|]. simpl.
    destruct H as [E|H]; [inversion E; subst; now rewrite dimid_eqb_refl|].
    destruct (dimid_eqb x d); [discriminate|]. now apply (IH d n).
  Qed.
  Lemma ensure_grows : forall d n ds ds', ensure_dim d n ds = Saved ds' ->
    (forall e k, dim_size ds e = Some k -> dim_size ds' e = Some k) /\
    dim_size ds' d = Some (match dim_size ds d with Some k => k | None => n end) /\
    (forall e, e <> d -> dim_size ds' e = dim_size ds e).
  Proof.
    intros d n ds ds' H. unfold ensure_dim in H. destruct (dim_size ds d) as [k|] eqn:E.
    - inversion H; subst. repeat split; auto.
    - destruct ((n =? 0) && existsb (fun e => snd e =? 0) ds); inversion H; subst.
      split; [|split].
      + intros e k He. rewrite dim_size_app, He. reflexivity.
      + rewrite dim_size_app, E. simpl. now rewrite dimid_eqb_refl.
      + intros e He. rewrite dim_size_app. destruct (dim_size ds e); auto. simpl.
        destruct (dimid_eqb d e) eqn:X; auto. apply dimid_eqb_eq in X. congruence.
  Qed.

  (** *** the expected variable of a field *)
  Definition expected (f : field F) : list (string * @ncval F) :=
    match f_val f with
    | WInt z => [(f_name f, NInt z)]
    | WFloat x => [(f_name f, NFloat x)]
    | WStr l => [(f_name f, NChars (l ++ repeat " "%char (match f_max f with Some m => m | None => length l end - length l)))]
    | WNone => []
    | WVec l => [(f_name f, NVec l)]
    | WIvec l => [(f_name f, NIvec l)]
    | WMat n m d => [(f_name f, NMat m n (transpose n m d))]
    end.
  Lemma expected_load : forall f, storable f -> f_val f <> WNone ->
    exists v, expected f = [(f_name f, v)] /\ load_var fill_f v = f_val f.
  Proof.
    intros f [_ S] N. unfold expected. destruct (f_val f) as [z|x|l| |l|l|n m d]; try (eexists; split; [reflexivity|reflexivity]).
    - destruct S as [A [T _]]. eexists; split; [reflexivity|]. simpl.
      rewrite forallb_pad by now apply ascii7_forallb. now rewrite strip_text.
    - congruence.
    - destruct S as [_ [_ L]]. eexists; split; [reflexivity|]. simpl. now rewrite transpose_twice.
  Qed.

  (** *** saving fields with agreeing dimensions *)
  Section Agree.
    Variables (size : dimid -> nat) (all : list (field F)).
    Hypothesis A : agree size all.
    Definition dims_ok (ds : list (dimid * nat)) : Prop :=
      (forall d n, dim_size ds d = Some n -> n = size d) /\
      (forall d, In (d, 0) ds -> exists f, In f all /\ In (d, 0) (uses f)).
    Lemma ensure_ok : forall f d n ds, In f all -> In (d, n) (uses f) -> dims_ok ds ->
      exists ds', ensure_dim d n ds = Saved ds' /\ dims_ok ds' /\ dim_size ds' d = Some n /\
        forall e k, dim_size ds e = Some k -> dim_size ds' e = Some k.
    Proof.
      intros f d n ds Hf Hu [D1 D2]. destruct A as [_ [_ [_ [A1 A2]]]].
      pose proof (A1 f d n Hf Hu) as En.
      destruct (ensure_dim d n ds) as [ds'| |] eqn:E.
      - destruct (ensure_grows _ _ _ _ E) as [G1 [G2 G3]]. exists ds'. split; [reflexivity|].
        assert (S : dim_size ds' d = Some n).
        { rewrite G2. destruct (dim_size ds d) eqn:X; auto. apply D1 in X. f_equal. congruence. }
        split; [|split]; auto. split.
        + intros e k He. destruct (dimid_eqb e d) eqn:X.
          * apply dimid_eqb_eq in X. subst e. congruence.
          * apply D1. rewrite <- G3; auto. intro Y. subst. rewrite dimid_eqb_refl in X. discriminate.
        + intros e He. unfold ensure_dim in E. destruct (dim_size ds d).
          * inversion E; subst. now apply D2.
          * destruct ((n =? 0) && _); inversion E; subst ds'. apply in_app_or in He. destruct He as [He|[He|[]]].
            -- now apply D2.
            -- inversion He; subst. exists f. split; auto. congruence.
      - exfalso. unfold ensure_dim in E. destruct (dim_size ds d) eqn:X; [discriminate|].
        destruct (Nat.eqb_spec n 0) as [N|N]; simpl in E; [|discriminate].
        destruct (existsb (fun e => snd e =? 0) ds) eqn:Y; [|discriminate].
        apply existsb_exists in Y. destruct Y as [[e k] [Y1 Y2]]. simpl in Y2. apply Nat.eqb_eq in Y2. subst k.
        destruct (D2 e Y1) as [g [G1 G2]]. rewrite N in Hu. pose proof (A2 f g d e Hf G1 Hu G2). subst e.
        now apply (dim_size_In ds d 0).
      - exfalso. unfold ensure_dim in E. destruct (dim_size ds d); [discriminate|].
        destruct ((n =? 0) && _); discriminate.
    Qed.
    Lemma put_exact : forall B (b : B) l, put b (length l) l = Saved l.
    Proof.
      intros B b l. unfold put. destruct (Nat.eqb_spec (length l) 0) as [E|E].
      - destruct l; [reflexivity|discriminate].
      - rewrite Nat.leb_refl, Nat.sub_diag. simpl. now rewrite app_nil_r.
    Qed.
    Lemma forallb_fits : forall l, (forall z, In z l -> int32 z) -> forallb fits32 l = true.
    Proof.
      intros l H. apply forallb_forall. intros z Hz. specialize (H z Hz). unfold fits32, int32 in *.
      apply andb_true_intro. split; [apply Z.leb_le | apply Z.ltb_lt]; lia.
    Qed.
    Lemma save_field_ok : forall f file, In f all -> storable f -> dims_ok (nc_dims file) ->
      exists file', save_field fill_f fill_i file f = Saved file' /\ dims_ok (nc_dims file') /\
        nc_vars file' = nc_vars file ++ expected f.
    Proof.
      intros f file Hf S D. unfold save_field, expected. destruct S as [Rk S].
      pose proof (fun d n => ensure_ok f d n (nc_dims file) Hf) as EN. unfold uses in EN. unfold rank_ok in Rk.
      destruct (f_val f) as [z|x|l| |l|l|n m d] eqn:V.
      - pose proof (forallb_fits [z]) as Z. simpl in Z. rewrite andb_true_r in Z.
        rewrite Z by (intros w [W|[]]; now subst). eexists; split; [reflexivity|]. now split.
      - eexists; split; [reflexivity|]. now split.
      - destruct S as [S1 [_ S2]]. set (n := match f_max f with Some m => m | None => length l end) in *.
        destruct (EN (DLen n) n (or_introl eq_refl) D) as [ds' [E [D' [_ _]]]]. rewrite E. simpl sbind.
        rewrite ascii7_forallb by auto.
        assert (L : length l <= n). { unfold n. destruct (f_max f) as [m|] eqn:M; [now apply S2|lia]. }
        assert (Ln : length (l ++ repeat " "%char (n - length l)) = n) by (rewrite app_length, repeat_length; lia).
        pose proof (put_exact _ zero (l ++ repeat " "%char (n - length l))) as P. rewrite Ln in P. rewrite P. simpl sbind.
        eexists; split; [reflexivity|]. now split.
      - eexists; split; [reflexivity|]. rewrite app_nil_r. now split.
      - assert (X : exists dd, dim1 f (length l) = Saved dd /\ In (dd, length l)
            match f_dims f with Some [a] => [(DName a, length l)] | _ => [(DLen (length l), length l)] end).
        { unfold dim1. destruct (f_dims f) as [[|a [|b r]]|]; simpl in Rk; try discriminate; eexists; split; try reflexivity; now left. }
        destruct X as [dd [X1 X2]]. rewrite X1. simpl sbind.
        destruct (EN dd (length l) X2 D) as [ds' [E [D' [Sz _]]]]. rewrite E. simpl sbind.
        unfold size_of. rewrite Sz, put_exact. simpl sbind. eexists; split; [reflexivity|]. now split.
      - assert (X : exists dd, dim1 f (length l) = Saved dd /\ In (dd, length l)
            match f_dims f with Some [a] => [(DName a, length l)] | _ => [(DLen (length l), length l)] end).
        { unfold dim1. destruct (f_dims f) as [[|a [|b r]]|]; simpl in Rk; try discriminate; eexists; split; try reflexivity; now left. }
        destruct X as [dd [X1 X2]]. rewrite X1. simpl sbind.
        destruct (EN dd (length l) X2 D) as [ds' [E [D' [Sz _]]]]. rewrite E. simpl sbind.
        rewrite forallb_fits by auto.
        unfold size_of. rewrite Sz, put_exact. simpl sbind. eexists; split; [reflexivity|]. now split.
      - assert (X : exists a b, dim2 f n m = Saved (a, b) /\
            match f_dims f with Some [a; b] => [(DName a, n); (DName b, m)] | _ => [(DLen n, n); (DLen m, m)] end = [(a, n); (b, m)]).
        { unfold dim2. destruct (f_dims f) as [[|a [|b [|c r]]]|]; simpl in Rk; try discriminate; eexists; eexists; split; try reflexivity. }
        destruct X as [a [b [X1 X2]]]. rewrite X1. simpl sbind. rewrite X2 in EN.
        destruct (EN a n (or_introl eq_refl) D) as [ds1 [E1 [D1 [Sz1 _]]]]. rewrite E1. simpl sbind.
        assert (U : In (b, m) (uses f)). { unfold uses. rewrite V, X2. right. now left. }
        destruct (ensure_ok f b m ds1 Hf U D1) as [ds2 [E2 [D2 [Sz2 K2]]]]. rewrite E2. simpl sbind.
        unfold size_of. rewrite Sz2, (K2 a n Sz1), !Nat.eqb_refl. simpl.
        destruct S as [S1 [S2 _]]. destruct (Nat.eqb_spec n 0); [lia|]. destruct (Nat.eqb_spec m 0); [lia|]. simpl.
        eexists; split; [reflexivity|]. now split.
    Qed.
    Lemma save_fields_ok : forall fs file, (forall f, In f fs -> In f all /\ storable f) -> dims_ok (nc_dims file) ->
      exists file', save_fields fill_f fill_i file fs = Saved file' /\
        nc_vars file' = nc_vars file ++ flat_map expected fs.
    Proof.
      induction fs as [|f r IH]; intros file H D; simpl.
      - exists file. now rewrite app_nil_r.
      - destruct (H f (or_introl eq_refl)) as [H1 H2].
        destruct (save_field_ok f file H1 H2 D) as [file1 [E1 [D1 V1]]]. rewrite E1. simpl sbind.
        destruct (IH file1) as [file2 [E2 V2]]; [intros g Hg; apply H; now right|exact D1|].
        exists file2. split; [exact E2|]. now rewrite V2, V1, app_assoc.
    Qed.
    Lemma start_ok : dims_ok (@nc_dims F start_file).
    Proof.
      destruct A as [A1 [A2 [A3 _]]]. split.
      - intros d n. unfold start_file, nc_dims. cbn [dim_size].
        destruct (dimid_eqb (DName "mn_mode_pot") d) eqn:E1.
        { intro H. injection H as H. apply dimid_eqb_eq in E1. subst d n. now rewrite A1. }
        destruct (dimid_eqb (DName "current_label") d) eqn:E2.
        { intro H. injection H as H. apply dimid_eqb_eq in E2. subst d n. now rewrite A2. }
        destruct (dimid_eqb (DLen 6) d) eqn:E3; [|discriminate].
        intro H. injection H as H. apply dimid_eqb_eq in E3. subst d n. now rewrite A3.
      - intros d [H|[H|[H|[]]]]; discriminate.
    Qed.
  End Agree.

  (** *** attributes of the file *)
  Lemma attr_app : forall l1 l2 s, attr (F:=F) (l1 ++ l2) s = match attr l1 s with Some v => Some v | None => attr l2 s end.
  Proof. induction l1 as [|[t v] r IH]; intros; simpl; auto. destruct (String.eqb t s); auto. Qed.
  Definition lv (e : string * @ncval F) : string * wval F := (fst e, load_var fill_f (snd e)).
  Lemma attr_expected : forall fs f, NoDup (names fs) -> (forall g, In g fs -> storable g) -> In f fs ->
    attr (map lv (flat_map expected fs)) (f_name f) = match f_val f with WNone => None | v => Some v end.
  Proof.
    induction fs as [|g r IH]; intros f ND S Hf; [destruct Hf|].
    simpl names in ND. inversion ND as [|x l Hx ND']; subst. simpl flat_map. rewrite map_app, attr_app.
    assert (Out : forall s l, ~ In s (names l) -> attr (map lv (flat_map expected l)) s = None).
    { clear. intros s l. induction l as [|g l IH]; intro H; simpl; auto. rewrite map_app, attr_app.
      rewrite IH by (intro X; apply H; now right).
      assert (N : String.eqb (f_name g) s = false) by (apply String.eqb_neq; intro X; apply H; left; exact X).
      unfold expected. destruct (f_val g); simpl; auto; now rewrite N. }
    destruct Hf as [E|Hf].
    - subst g. specialize (S f (or_introl eq_refl)).
      assert (DN : f_val f = WNone \/ f_val f <> WNone) by (destruct (f_val f); auto; right; discriminate).
      destruct DN as [Z|Z].
      + unfold expected at 1. rewrite Z. simpl. now apply Out.
      + destruct (expected_load f S Z) as [v [E1 E2]]. rewrite E1. simpl. rewrite String.eqb_refl, E2.
        destruct (f_val f); auto; congruence.
    - assert (N : String.eqb (f_name g) (f_name f) = false).
      { apply String.eqb_neq. intro X. apply Hx. rewrite X. now apply in_map. }
      replace (attr (map lv (expected g)) (f_name f)) with (@None (wval F)).
      + apply IH; auto. intros h Hh. apply S. now right.
      + unfold expected. destruct (f_val g); simpl; auto; now rewrite N.
  Qed.
  Lemma attr_absent : forall fs s, ~ In s (names fs) -> attr (map lv (flat_map expected fs)) s = None.
  Proof.
    intros fs s. induction fs as [|g l IH]; intro H; simpl; auto. rewrite map_app, attr_app.
    rewrite IH by (intro X; apply H; now right).
    assert (N : String.eqb (f_name g) s = false) by (apply String.eqb_neq; intro X; apply H; left; exact X).
    unfold expected. destruct (f_val g); simpl; auto; now rewrite N.
  Qed.
  Lemma set_default_noop : forall s v w l, attr l s = Some w -> set_default (F:=F) s v l = l.
  Proof. intros. unfold set_default. now rewrite H. Qed.
  Lemma set_default_get : forall s v l t, attr (set_default (F:=F) s v l) t =
    match attr l t with Some w => Some w | None => if String.eqb s t then Some v else None end.
  Proof.
    intros. unfold set_default. destruct (attr l s) eqn:E.
    - destruct (attr l t) eqn:X; auto. destruct (String.eqb s t) eqn:Y; auto. apply String.eqb_eq in Y. congruence.
    - rewrite attr_app. destruct (attr l t); auto.
  Qed.

  Theorem round_trip : forall fzero size fs,
    NoDup (names fs) -> (forall f, In f fs -> storable f) -> agree size fs -> complete fs ->
    exists file, save_netcdf fill_f fill_i fs = Saved file /\
      (forall f, In f fs -> loaded fill_f fzero file (f_name f) = Some (f_val f)) /\
      (forall s, ~ In s (names fs) -> loaded fill_f fzero file s = Some WNone).
  Proof.
    intros fzero size fs ND S Ag C.
    destruct (save_fields_ok size fs Ag fs start_file) as [file [E V]];
      [intros f Hf; split; auto|now apply start_ok|].
    exists file. split; [exact E|]. simpl app in V.
    assert (AT : attrs_of fill_f file = map lv (flat_map expected fs)) by (unfold attrs_of; rewrite V; reflexivity).
    destruct C as [[z1 [f1 [I1 [N1 V1]]]] [[z2 [f2 [I2 [N2 V2]]]] [[z3 [f3 [I3 [N3 V3]]]] [[z4 [f4 [I4 [N4 V4]]]] [[f5 [I5 [N5 V5]]] C6]]]]].
    pose proof (attr_expected fs f1 ND S I1) as T1. rewrite N1, V1 in T1.
    pose proof (attr_expected fs f2 ND S I2) as T2. rewrite N2, V2 in T2.
    pose proof (attr_expected fs f3 ND S I3) as T3. rewrite N3, V3 in T3.
    pose proof (attr_expected fs f4 ND S I4) as T4. rewrite N4, V4 in T4.
    pose proof (attr_expected fs f5 ND S I5) as T5. rewrite N5 in T5.
    assert (T5' : exists w, attr (map lv (flat_map expected fs)) "lmns_full" = Some w)
      by (rewrite T5; destruct (f_val f5); try congruence; eexists; reflexivity).
    destruct T5' as [w5 T5'].
    assert (L : load_netcdf fill_f fzero file = Some (map lv (flat_map expected fs))).
    { unfold load_netcdf. rewrite AT, T1, T2, T3. rewrite (set_default_noop "lmns_full" _ w5) by exact T5'.
      destruct (Z.eqb_spec z3 0) as [Z0|Z0].
      - rewrite (set_default_noop "lrfp__logical__" _ (WInt z4)); auto.
      - destruct C6 as [[g [G1 [G2 G3]]]|[g [G1 [G2 G3]]]].
        + exfalso. pose proof (attr_expected fs g ND S G1) as Tg. rewrite G2, G3 in Tg. congruence.
        + pose proof (attr_expected fs g ND S G1) as Tg. rewrite G2 in Tg.
          assert (Tg' : exists w, attr (map lv (flat_map expected fs)) "lmnc_full" = Some w)
            by (rewrite Tg; destruct (f_val g); try congruence; eexists; reflexivity).
          destruct Tg' as [wg Tg']. rewrite (set_default_noop "lmnc_full" _ wg) by exact Tg'.
          rewrite (set_default_noop "lrfp__logical__" _ (WInt z4)); auto. }
    unfold loaded. rewrite L. split.
    - intros f Hf. rewrite attr_expected by auto. destruct (f_val f); reflexivity.
    - intros s Hs. now rewrite attr_absent.
  Qed.

  (** *** arrays of different lengths along one dimension *)
  Lemma save_fields_app : forall a b file, save_fields fill_f fill_i file (a ++ b) =
    sbind (save_fields fill_f fill_i file a) (fun file => save_fields fill_f fill_i file b).
  Proof.
    induction a as [|f r IH]; intros; simpl; auto. destruct (save_field fill_f fill_i file f); simpl; auto.
  Qed.
  (** The effect of one pass on the dimensions and the variables *)
  Lemma sbind_inv : forall A B (x : saved A) (g : A -> saved B) b, sbind x g = Saved b -> exists a, x = Saved a /\ g a = Saved b.
  Proof. intros A B [a| |] g b H; simpl in H; try discriminate. now exists a. Qed.
  Lemma save_field_dims : forall f file file', save_field fill_f fill_i file f = Saved file' ->
    (forall e k, dim_size (nc_dims file) e = Some k -> dim_size (nc_dims file') e = Some k) /\
    (forall e, ~ In e (map fst (uses f)) -> dim_size (nc_dims file') e = dim_size (nc_dims file) e) /\
    (exists l, nc_vars file' = nc_vars file ++ l /\ forall e, In e l -> fst e = f_name f).
  Proof.
    intros f file file' H. unfold save_field, uses in *. destruct (f_val f) as [z|x|l| |l|l|n m d].
    - destruct (fits32 z); inversion H; subst. simpl. split; [auto|]. split; [auto|].
      eexists; split; [reflexivity|]. intros e [X|[]]; now subst.
    - inversion H; subst. simpl. split; [auto|]. split; [auto|].
      eexists; split; [reflexivity|]. intros e [X|[]]; now subst.
    - apply sbind_inv in H. destruct H as [ds [H1 H]]. destruct (forallb is_ascii l); [|discriminate].
      apply sbind_inv in H. destruct H as [v [H2 H]]. inversion H; subst. simpl.
      destruct (ensure_grows _ _ _ _ H1) as [G1 [_ G3]]. split; [auto|]. split.
      + intros e He. apply G3. intro X. apply He. left. now symmetry.
      + eexists; split; [reflexivity|]. intros e [X|[]]; now subst.
    - inversion H; subst. split; [auto|]. split; [auto|]. exists []. rewrite app_nil_r. split; auto. intros e [].
    - apply sbind_inv in H. destruct H as [dd [H0 H]]. apply sbind_inv in H. destruct H as [ds [H1 H]].
      apply sbind_inv in H. destruct H as [v [H2 H]]. inversion H; subst. simpl.
      destruct (ensure_grows _ _ _ _ H1) as [G1 [_ G3]]. split; [auto|]. split.
      + intros e He. apply G3. intro X. subst e. apply He. unfold dim1 in H0.
        destruct (f_dims f) as [[|a [|b r]]|]; inversion H0; now left.
      + eexists; split; [reflexivity|]. intros e [X|[]]; now subst.
    - apply sbind_inv in H. destruct H as [dd [H0 H]]. apply sbind_inv in H. destruct H as [ds [H1 H]].
      destruct (forallb fits32 l); [|discriminate].
      apply sbind_inv in H. destruct H as [v [H2 H]]. inversion H; subst. simpl.
      destruct (ensure_grows _ _ _ _ H1) as [G1 [_ G3]]. split; [auto|]. split.
      + intros e He. apply G3. intro X. subst e. apply He. unfold dim1 in H0.
        destruct (f_dims f) as [[|a [|b r]]|]; inversion H0; now left.
      + eexists; split; [reflexivity|]. intros e [X|[]]; now subst.
    - apply sbind_inv in H. destruct H as [ab [H0 H]]. apply sbind_inv in H. destruct H as [ds [H1 H]].
      apply sbind_inv in H. destruct H as [ds2 [H2 H]].
      destruct (_ && _ && _ && _); [|discriminate]. inversion H; subst. simpl.
      destruct (ensure_grows _ _ _ _ H1) as [G1 [_ G3]]. destruct (ensure_grows _ _ _ _ H2) as [J1 [_ J3]].
      split; [auto|]. split.
      + assert (X : map fst match f_dims f with Some [a; b] => [(DName a, n); (DName b, m)] | _ => [(DLen n, n); (DLen m, m)] end = [fst ab; snd ab]).
        { unfold dim2 in H0. destruct (f_dims f) as [[|a [|b [|c r]]]|]; inversion H0; reflexivity. }
        rewrite X. intros e He. rewrite J3, G3; auto; intro Y; apply He; subst e; [now left | right; now left].
      + eexists; split; [reflexivity|]. intros e [X|[]]; now subst.
  Qed.
  Lemma save_fields_dims : forall fs file file', save_fields fill_f fill_i file fs = Saved file' ->
    (forall e k, dim_size (nc_dims file) e = Some k -> dim_size (nc_dims file') e = Some k) /\
    (forall e, (forall f, In f fs -> ~ In e (map fst (uses f))) -> dim_size (nc_dims file') e = dim_size (nc_dims file) e) /\
    (exists l, nc_vars file' = nc_vars file ++ l /\ forall e, In e l -> In (fst e) (names fs)).
  Proof.
    induction fs as [|f r IH]; intros file file' H; simpl in H.
    - inversion H; subst. split; [auto|]. split; [auto|]. exists []. rewrite app_nil_r. split; [reflexivity|intros e []].
    - apply sbind_inv in H. destruct H as [file1 [H1 H2]].
      destruct (save_field_dims _ _ _ H1) as [A1 [A2 [l1 [A3 A4]]]].
      destruct (IH _ _ H2) as [B1 [B2 [l2 [B3 B4]]]].
      split; [auto|]. split.
      + intros e He. rewrite B2, A2; auto. apply He. now left. intros g Hg. apply He. now right.
      + exists (l1 ++ l2). rewrite B3, A3, app_assoc. split; auto. intros e He. apply in_app_or in He.
        simpl. destruct He as [He|He]; [left; symmetry; now apply A4|right; now apply B4].
  Qed.
  Lemma attr_skip : forall l s, (forall e, In e l -> fst e <> s) -> attr (F:=F) l s = None.
  Proof.
    induction l as [|[t v] r IH]; intros s H; simpl; auto.
    assert (N : String.eqb t s = false) by (apply String.eqb_neq; exact (H (t, v) (or_introl eq_refl))).
    rewrite N. apply IH. intros e He. apply H. now right.
  Qed.

  Definition vec_field (s x : string) (l : list F) : field F := mkField s (WVec l) None (Some [x]).

  Lemma shared_dim : forall pre mid post s1 s2 x l1 l2,
    0 < length l1 -> x <> "mn_mode_pot"%string -> x <> "current_label"%string ->
    (forall f, In f pre -> ~ In (DName x) (map fst (uses f))) ->
    forall file, save_netcdf fill_f fill_i (pre ++ vec_field s1 x l1 :: mid ++ vec_field s2 x l2 :: post) = Saved file ->
    length l2 <= length l1 /\
    (NoDup (names (pre ++ vec_field s1 x l1 :: mid ++ vec_field s2 x l2 :: post)) ->
     attr (attrs_of fill_f file) s2 = Some (WVec (l2 ++ repeat fill_f (length l1 - length l2)))).
  Proof.
    intros pre mid post s1 s2 x l1 l2 L1 X1 X2 HP file H. unfold save_netcdf in H.
    rewrite save_fields_app in H. apply sbind_inv in H. destruct H as [file1 [H1 H]].
    simpl save_fields in H. apply sbind_inv in H. destruct H as [file2 [H2 H]].
    rewrite save_fields_app in H. apply sbind_inv in H. destruct H as [file3 [H3 H]].
    simpl save_fields in H. apply sbind_inv in H. destruct H as [file4 [H4 H5]].
    destruct (save_fields_dims _ _ _ H1) as [_ [D1 [v1 [V1 N1]]]].
    assert (Z1 : dim_size (nc_dims file1) (DName x) = None).
    { rewrite (D1 _ HP). unfold start_file, nc_dims. cbn [dim_size dimid_eqb].
      destruct (String.eqb_spec "mn_mode_pot" x); [congruence|]. destruct (String.eqb_spec "current_label" x); [congruence|]. reflexivity. }
    destruct (save_fields_dims _ _ _ H3) as [D3 [_ [v3 [V3 N3]]]].
    destruct (save_fields_dims _ _ _ H5) as [_ [_ [v5 [V5 N5]]]].
    destruct (save_field_dims _ _ _ H2) as [_ [_ [v2 [V2 N2]]]].
    unfold save_field in H2. simpl in H2. apply sbind_inv in H2. destruct H2 as [ds2 [E2 H2]].
    destruct (ensure_grows _ _ _ _ E2) as [_ [G2 _]]. rewrite Z1 in G2.
    apply sbind_inv in H2. destruct H2 as [w2 [P2 H2]]. inversion H2; subst file2. clear H2. simpl nc_dims in D3.
    pose proof (D3 _ _ G2) as G3.
    unfold save_field in H4. simpl in H4. apply sbind_inv in H4. destruct H4 as [ds4 [E4 H4]].
    destruct (ensure_grows _ _ _ _ E4) as [_ [G4 _]]. rewrite G3 in G4.
    apply sbind_inv in H4. destruct H4 as [w4 [P4 H4]]. inversion H4; subst file4. clear H4.
    unfold size_of in P4. rewrite G4 in P4. unfold put in P4.
    destruct (Nat.eqb_spec (length l1) 0); [lia|].
    destruct (Nat.leb_spec (length l2) (length l1)) as [Le|Lt]; [|discriminate].
    split; [exact Le|]. intro ND. injection P4 as P4.
    unfold attrs_of. rewrite V5. simpl nc_vars. rewrite V3, V2, V1. simpl nc_vars. simpl app.
    rewrite !map_app, !attr_app.
    assert (Q : forall (l : list (string * @ncval F)) (gs : list (field F)), (forall e, In e l -> In (fst e) (names gs)) -> ~ In s2 (names gs) ->
      attr (map (fun e => (fst e, load_var fill_f (snd e))) l) s2 = None).
    { intros l gs A B. apply attr_skip. intros e He. apply in_map_iff in He. destruct He as [e' [E' He]]. subst e. simpl.
      intro W. apply B. rewrite <- W. now apply A. }
    unfold names in ND. rewrite map_app in ND. simpl map in ND. rewrite map_app in ND. simpl map in ND.
    assert (ND2 : ~ In s2 (map (@f_name F) pre) /\ s1 <> s2 /\ ~ In s2 (map (@f_name F) mid)).
    { change (map (@f_name F) pre ++ s1 :: map (@f_name F) mid ++ s2 :: map (@f_name F) post) with
        (map (@f_name F) pre ++ (s1 :: map (@f_name F) mid) ++ s2 :: map (@f_name F) post) in ND.
      rewrite app_assoc in ND. apply NoDup_remove_2 in ND.
      repeat split; intro Y; apply ND; apply in_or_app; left; apply in_or_app; [now left|right; now left|right; now right]. }
    destruct ND2 as [Np [N12 Nm]].
    rewrite (Q v1 pre N1 Np).
    rewrite (Q v2 [vec_field s1 x l1]); [|intros e He; left; symmetry; now apply N2|intros [Y|[]]; now apply N12].
    rewrite (Q v3 mid N3 Nm).
    simpl. rewrite String.eqb_refl. subst w4. reflexivity.
  Qed.
End Proofs.
