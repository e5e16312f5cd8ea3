(** The profile coefficients of a run through saving and loading, and the file system. *)
From Coq Require Import String Ascii ZArith List Bool Lia.
From Verif Require Import WncModel WncSpec WncProofs.
Import ListNotations.
Open Scope nat_scope.

Section Final.
  Context {F : Type}.
  Variables (fill_f : F) (fill_i : Z) (fzero : F).

  Lemma wout_coefs_short : forall l, length l <= 21 ->
    wout_coefs fzero l = l ++ repeat fzero (21 - length l).
  Proof.
    intros l H. unfold wout_coefs, pad_vector, non_empty_or. destruct l as [|a r].
    - reflexivity.
    - destruct (Nat.ltb_spec (length (a :: r)) 21) as [L|L]; [reflexivity|].
      replace (21 - length (a :: r)) with 0 by lia. simpl. now rewrite app_nil_r.
  Qed.
  Lemma wout_coefs_long : forall l, 21 <= length l -> wout_coefs fzero l = l.
  Proof.
    intros l H. unfold wout_coefs, pad_vector, non_empty_or. destruct l as [|a r]; [simpl in H; lia|].
    destruct (Nat.ltb_spec (length (a :: r)) 21); [lia|reflexivity].
  Qed.
  Lemma wout_coefs_len : forall l, length (wout_coefs fzero l) = Nat.max 21 (length l).
  Proof.
    intro l. destruct (le_lt_dec (length l) 21) as [H|H].
    - rewrite wout_coefs_short, app_length, repeat_length by auto. lia.
    - rewrite wout_coefs_long by lia. lia.
  Qed.

  Lemma attr_keeps : forall s v l t w, attr l t = Some w -> attr (set_default (F:=F) s v l) t = Some w.
  Proof. intros. rewrite set_default_get, H. reflexivity. Qed.
  Lemma loaded_attr : forall file s v, attr (attrs_of fill_f file) s = Some v ->
    forall w, loaded fill_f fzero file s = Some w -> w = v.
  Proof.
    intros file s v A w. unfold loaded, load_netcdf.
    destruct (attr (attrs_of fill_f file) "mnmax") as [[]|]; try discriminate.
    destruct (attr (attrs_of fill_f file) "ns") as [[]|]; try discriminate.
    destruct (attr (attrs_of fill_f file) "lasym__logical__") as [[]|]; try discriminate.
    intro H. injection H as H. subst w.
    match goal with |- context[attr (set_default ?a ?b ?c) s] => rewrite (attr_keeps a b c s v) end; auto.
    destruct (z1 =? 0)%Z; repeat apply attr_keeps; exact A.
  Qed.

  Theorem profiles : forall pre mid post am ac,
    let fs := pre ++ vec_field "am" "preset" (wout_coefs fzero am) :: mid ++ vec_field "ac" "preset" (wout_coefs fzero ac) :: post in
    NoDup (names fs) -> (forall f, In f pre -> ~ In (DName "preset") (map fst (uses f))) ->
    forall file, save_netcdf fill_f fill_i fs = Saved file ->
    length ac <= Nat.max 21 (length am) /\
    forall v, loaded fill_f fzero file "ac" = Some v ->
      v = WVec (wout_coefs fzero ac ++ repeat fill_f (Nat.max 21 (length am) - Nat.max 21 (length ac))).
  Proof.
    intros pre mid post am ac fs ND HP file H.
    destruct (shared_dim fill_f fill_i pre mid post "am" "ac" "preset" (wout_coefs fzero am) (wout_coefs fzero ac)) with (file := file)
      as [L A]; auto; try discriminate.
    { rewrite wout_coefs_len. lia. }
    rewrite !wout_coefs_len in *. split; [lia|].
    intros v Hv. exact (loaded_attr file "ac" _ (A ND) v Hv).
  Qed.

  Theorem save_disk : forall h5 tmp out fs part d r d',
    d tmp = None -> tmp <> out -> save fill_f fill_i h5 tmp out fs part d = (r, d') -> r <> Unspecified ->
    (r = Raises -> forall q, d' q = d q) /\
    (r = Saved tt -> exists file, save_netcdf fill_f fill_i fs = Saved file /\
       d' out = Some file /\ forall q, q <> out -> d' q = d q).
  Proof.
    intros h5 tmp out fs part d r d' Ht Ho H N. unfold save in H. destruct h5.
    - inversion H; subst. split; [auto|discriminate].
    - destruct (save_netcdf fill_f fill_i fs) as [file| |]; inversion H; subst; clear H.
      + split; [discriminate|]. intros _. exists file. split; [reflexivity|]. unfold on_disk. split.
        * destruct (String.eqb_spec out tmp); [congruence|]. now rewrite String.eqb_refl.
        * intros q Hq. destruct (String.eqb_spec q tmp); [congruence|].
          destruct (String.eqb_spec q out); [congruence|]. reflexivity.
      + split; [|discriminate]. intros _ q. unfold on_disk. destruct (String.eqb_spec q tmp); congruence.
      + congruence.
  Qed.

  (** A small wout object *)
  Definition small (am ac : list F) (mgrid : list ascii) : list (field F) :=
    [ mkField "ns" (WInt 2) None None; mkField "mnmax" (WInt 3) None None;
      mkField "lasym__logical__" (WInt 0) None None; mkField "lrfp__logical__" (WInt 0) None None;
      mkField "mgrid_file" (WStr mgrid) (Some 200) None;
      vec_field "am" "preset" (wout_coefs fzero am);
      vec_field "ac" "preset" (wout_coefs fzero ac);
      mkField "restart_reasons" (WIvec []) None (Some ["time"%string]);
      mkField "rmns" WNone None (Some ["mn_mode"; "radius"]%string);
      mkField "lmns_full" (WMat 3 2 (repeat fzero 6)) None (Some ["mn_mode"; "radius"]%string) ].

  Definition small_size (d : dimid) : nat :=
    match d with
    | DLen n => n
    | DName s => if String.eqb s "mn_mode_pot" then 100 else if String.eqb s "current_label" then 30
                 else if String.eqb s "preset" then 21 else if String.eqb s "mn_mode" then 3
                 else if String.eqb s "radius" then 2 else 0
    end.
  Definition demo_text : list ascii := list_ascii_of_string "mgrid w7x.nc".
  Lemma small_ok : forall am ac, length am <= 21 -> length ac <= 21 ->
    NoDup (names (small am ac demo_text)) /\ (forall f, In f (small am ac demo_text) -> storable f) /\
    agree small_size (small am ac demo_text) /\ complete (small am ac demo_text).
  Proof.
    intros am ac Ha Hc.
    assert (La : length (wout_coefs fzero am) = 21) by (rewrite wout_coefs_len; lia).
    assert (Lc : length (wout_coefs fzero ac) = 21) by (rewrite wout_coefs_len; lia).
    split; [|split; [|split]].
    - unfold small, names. simpl. repeat (constructor; [simpl; intuition discriminate|]). constructor.
    - unfold small. simpl. intros f Hf.
      repeat (destruct Hf as [Hf|Hf]; [subst f; unfold storable, rank_ok; simpl; unfold int32; repeat split; try lia; try discriminate|]);
        try destruct Hf.
      all: try (intros m E; inversion E; subst; vm_compute; lia).
      all: try (intros ? []; fail).
      + intros c Hc'. unfold demo_text in Hc'. simpl in Hc'.
        repeat (destruct Hc' as [E|Hc']; [subst c; vm_compute; lia|]). destruct Hc'.
    - split; [reflexivity|]. split; [reflexivity|]. split; [reflexivity|]. split.
      + unfold small. simpl. intros f d n Hf Hd.
        repeat (destruct Hf as [Hf|Hf]; [subst f; cbn in Hd; rewrite ?La, ?Lc in Hd;
          repeat (destruct Hd as [Hd|Hd]; [inversion Hd; subst; cbn; try reflexivity; try lia|]); try destruct Hd|]); try destruct Hf.
      + unfold small. simpl. intros f g d e Hf Hg Hd He.
        assert (Z : forall h x, In h (small am ac demo_text) -> In (x, 0) (uses h) -> x = DName "time").
        { clear - La Lc. unfold small. simpl. intros f d Hf Hd.
          repeat (destruct Hf as [Hf|Hf]; [subst f; cbn in Hd; rewrite ?La, ?Lc in Hd;
            repeat (destruct Hd as [Hd|Hd]; [inversion Hd; subst; cbn; try reflexivity; try lia|]); try destruct Hd|]); try destruct Hf. }
        rewrite (Z f d Hf Hd), (Z g e Hg He). reflexivity.
    - unfold complete, small, is_int.
      split; [exists 3%Z, (mkField "mnmax" (WInt 3) None None); simpl; tauto|].
      split; [exists 2%Z, (mkField "ns" (WInt 2) None None); simpl; tauto|].
      split; [exists 0%Z, (mkField "lasym__logical__" (WInt 0) None None); simpl; tauto|].
      split; [exists 0%Z, (mkField "lrfp__logical__" (WInt 0) None None); simpl; tauto|].
      split.
      + exists (mkField "lmns_full" (WMat 3 2 (repeat fzero 6)) None (Some ["mn_mode"; "radius"]%string)).
        split; [simpl; tauto|]. split; [reflexivity|discriminate].
      + left. exists (mkField "lasym__logical__" (WInt 0) None None). simpl; tauto.
  Qed.

  Theorem lost : fill_f <> fzero -> forall x, exists am ac : list F, exists file,
    length am = 22 /\ ac = [x] /\
    save_netcdf fill_f fill_i (small am ac demo_text) = Saved file /\
    loaded fill_f fzero file "ac" = Some (WVec ([x] ++ repeat fzero 20 ++ [fill_f])) /\
    ~ In (WVec ([x] ++ repeat fzero 20 ++ [fill_f])) (map (@f_val F) (small am ac demo_text)).
  Proof.
    intros N x. exists (repeat fzero 22), [x]. eexists. split; [reflexivity|]. split; [reflexivity|].
    split; [vm_compute; reflexivity|]. split; [vm_compute; reflexivity|].
    intro H. unfold small in H. simpl in H.
    repeat (destruct H as [H|H]; [try discriminate; inversion H; congruence|]). exact H.
  Qed.
  Theorem refused : forall am, length am <= 21 -> forall ac, 21 < length ac ->
    forall file, save_netcdf fill_f fill_i (small am ac demo_text) <> Saved file.
  Proof.
    intros am Ha ac Hc file H.
    destruct (profiles [ mkField "ns" (WInt 2) None None; mkField "mnmax" (WInt 3) None None;
      mkField "lasym__logical__" (WInt 0) None None; mkField "lrfp__logical__" (WInt 0) None None;
      mkField "mgrid_file" (WStr demo_text) (Some 200) None] []
      [mkField "restart_reasons" (WIvec []) None (Some ["time"%string]);
      mkField "rmns" WNone None (Some ["mn_mode"; "radius"]%string);
      mkField "lmns_full" (WMat 3 2 (repeat fzero 6)) None (Some ["mn_mode"; "radius"]%string)] am ac) with (file := file) as [L _].
    - unfold names. simpl. repeat (constructor; [simpl; intuition discriminate|]). constructor.
    - intros f Hf. simpl in Hf. repeat (destruct Hf as [Hf|Hf]; [subst f; simpl; intuition discriminate|]). destruct Hf.
    - exact H.
    - lia.
  Qed.
End Final.
