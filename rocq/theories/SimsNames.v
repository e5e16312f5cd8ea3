(** File names of the SIMSOPT wrapper. *)
From Coq Require Import ZArith List Bool String Ascii Lia.
From Verif Require Import SimsModel SimsSpec.
Import ListNotations.
Open Scope string_scope.

Lemma len_app a b : str_len (a ++ b) = (str_len a + str_len b)%nat.
Proof. induction a; cbn; [reflexivity|]. rewrite IHa. reflexivity. Qed.
Lemma drop_app a b : drop (str_len a) (a ++ b) = b.
Proof. induction a; cbn; [destruct b; reflexivity|exact IHa]. Qed.
Lemma take_app a b : take (str_len a) (a ++ b) = a.
Proof. induction a; cbn; [destruct b; reflexivity|]. rewrite IHa. reflexivity. Qed.
Lemma app_nil a : a ++ "" = a.
Proof. induction a; cbn; [reflexivity|]. rewrite IHa. reflexivity. Qed.
Lemma app_assoc' a b c : (a ++ b) ++ c = a ++ (b ++ c).
Proof. induction a; cbn; [reflexivity|]. rewrite IHa. reflexivity. Qed.
Lemma ends_app p x : ends p (x ++ p) = true.
Proof.
  unfold ends. rewrite len_app. replace (str_len x + str_len p - str_len p)%nat with (str_len x) by lia. rewrite drop_app.
  apply andb_true_iff. split; [apply Nat.leb_le; lia|apply String.eqb_refl].
Qed.
Lemma starts_app p x : starts p (p ++ x) = true.
Proof. induction p; cbn; [reflexivity|]. rewrite Ascii.eqb_refl. exact IHp. Qed.
Lemma split_nonempty s : split_dot s <> [].
Proof. destruct s as [|a r]; cbn; [discriminate|]. destruct (Ascii.eqb a "."); [discriminate|]. destruct (split_dot r); discriminate. Qed.
Lemma split_app a b : split_dot (a ++ "." ++ b) = (split_dot a ++ split_dot b)%list.
Proof.
  induction a as [|c a IH]; [reflexivity|]. change ((String c a ++ "." ++ b)) with (String c (a ++ "." ++ b)). cbn [split_dot]. rewrite IH.
  destruct (Ascii.eqb c "."); [reflexivity|]. pose proof (split_nonempty a). destruct (split_dot a); [congruence|reflexivity].
Qed.
Lemma join_cons w l : l <> [] -> join_dot (w :: l) = w ++ "." ++ join_dot l.
Proof. destruct l; [congruence|reflexivity]. Qed.
Lemma join_split s : join_dot (split_dot s) = s.
Proof.
  induction s as [|a r IH]; [reflexivity|]. cbn [split_dot]. pose proof (split_nonempty r). destruct (Ascii.eqb_spec a "."%char).
  - subst a. rewrite join_cons by exact H. rewrite IH. reflexivity.
  - destruct (split_dot r) as [|w ws] eqn:E; [congruence|]. destruct ws as [|x xs].
    + cbn in IH |- *. rewrite IH. reflexivity.
    + rewrite join_cons by discriminate. rewrite join_cons in IH by discriminate.
      change (String a w ++ "." ++ join_dot (x :: xs)) with (String a (w ++ "." ++ join_dot (x :: xs))). rewrite IH. reflexivity.
Qed.

Lemma rule_both foo : make_wout_filename ("input." ++ foo ++ ".json") = Some ("wout_" ++ foo ++ ".nc").
Proof.
  unfold make_wout_filename. rewrite (starts_app "input." (foo ++ ".json")). rewrite <- (app_assoc' "input." foo ".json"), ends_app. cbn [andb].
  rewrite app_assoc'. change ("input." ++ foo ++ ".json") with ("input" ++ "." ++ (foo ++ "." ++ "json")). rewrite (split_app "input"), split_app.
  change (split_dot "input") with ["input"]. change (split_dot "json") with ["json"]. cbn [List.app tl]. rewrite removelast_last, join_split. reflexivity.
Qed.
Lemma rule_json foo : starts "input." (foo ++ ".json") = false -> make_wout_filename (foo ++ ".json") = Some ("wout_" ++ foo ++ ".nc").
Proof.
  intros H. unfold make_wout_filename. rewrite H, ends_app. cbn [andb]. rewrite len_app.
  replace (str_len foo + str_len ".json" - str_len ".json")%nat with (str_len foo) by lia. rewrite take_app. reflexivity.
Qed.
Lemma rule_input foo : ends ".json" ("input." ++ foo) = false -> make_wout_filename ("input." ++ foo) = Some ("wout_" ++ foo ++ ".nc").
Proof. intros H. unfold make_wout_filename. rewrite H, starts_app. cbn [andb]. rewrite drop_app. reflexivity. Qed.

(** ** Witnesses *)
Lemma input_json_refuted : make_wout_filename "input.json" = Some "wout_.nc" /\ make_wout_filename "input.json" <> Some "wout_input.nc".
Proof. split; [reflexivity|discriminate]. Qed.
Lemma distinct_refuted : exists a b f, a <> b /\ accepts_input a = true /\ accepts_input b = true /\
  make_wout_filename a = Some f /\ make_wout_filename b = Some f.
Proof. exists "input.w7x", "w7x.json", "wout_w7x.nc". repeat split. discriminate. Qed.
Definition in0 : @indata Z unit := mkIn 1%Z 0%Z false (mkDofs 1%Z 1%Z 1%Z 0%Z 0%Z) [5%Z] [1%Z] [100%Z] [[3%Z]] [[0%Z]] [] [] [3%Z] [0%Z] [] [] tt.
(** a solver that returns its toroidal flux and the major radius *)
Definition solve0 (i : @indata Z unit) (_ : option (Z * Z)) : option (Z * Z) := Some (phiedge (i_dofs i), nth 0 (nth 0 (i_rbc i) []) 7%Z).
Definition resize0 (i : @indata Z unit) (m n : Z) : list (list Z) * list (list Z) * list (list Z) * list (list Z) * (list Z * list Z * list Z * list Z) :=
  ([], [], i_rbs i, i_zbc i, (repeat 1%Z (Z.to_nat (n + 1)), repeat 1%Z (Z.to_nat (n + 1)), if i_lasym i then repeat 1%Z (Z.to_nat (n + 1)) else i_raxis_s i, if i_lasym i then repeat 1%Z (Z.to_nat (n + 1)) else i_zaxis_c i)).
Lemma saved_refuted : exists file, accepts_input file = true /\
  let v := init 0%Z file true in0 in
  solve0 (want 0%Z in0 (at_start 0%Z in0)) None <> None /\
  snd (access 0%Z solve0 (fun q => q) fst v) = None.
Proof. exists "input_w7x". split; [reflexivity|]. split; [discriminate|reflexivity]. Qed.
Lemma edit_refuted : exists (ops : list (@op Z unit (Z * Z))),
  let v := steps 0%Z solve0 (fun q => q) resize0 ops (init 0%Z "input.x" false in0) in
  snd (access 0%Z solve0 (fun q => q) fst v) <> option_map fst (solve0 (v_indata v) None).
Proof.
  exists [OpAccess; OpEdit (fun i => mkIn (i_mpol i) (i_ntor i) (i_lasym i) (mkDofs 1%Z 1%Z 2%Z 0%Z 0%Z) (i_ns i) (i_ftol i) (i_niter i) (i_rbc i) (i_zbs i) (i_rbs i) (i_zbc i) (i_raxis_c i) (i_zaxis_s i) (i_raxis_s i) (i_zaxis_c i) (i_other i))].
  cbv. discriminate.
Qed.
(** several changes, reads in between, and a read at the end *)
Definition ops0 : list (@op Z unit (Z * Z)) :=
  [OpAccess; OpDofs (mkDofs 1%Z 1%Z 4%Z 0%Z 0%Z); OpMpolNtor 2%Z 1%Z; OpAccess; OpGetInput;
   OpSurface (mkSurf 0%Z 0%Z (fun _ _ => 9%Z) (fun _ _ => 0%Z) (fun _ _ => 0%Z) (fun _ _ => 0%Z)); OpRun None].
Lemma case0 : axis_ok in0 /\ resize_ok resize0 /\ Forall plain ops0 /\ accepts_input "input.x" = true /\ make_wout_filename "input.x" = Some "wout_x.nc" /\
  snd (access 0%Z solve0 (fun q => q) (fun q => q) (steps 0%Z solve0 (fun q => q) resize0 ops0 (init 0%Z "input.x" true in0))) = Some (4%Z, 0%Z) /\
  i_rbc (want 0%Z in0 (situation_after 0%Z in0 ops0)) = [[0%Z; 9%Z; 0%Z]; [0%Z; 0%Z; 0%Z]] /\
  List.length (v_calls (steps 0%Z solve0 (fun q => q) resize0 ops0 (init 0%Z "input.x" true in0))) = 3%nat.
Proof.
  split; [repeat split; discriminate|]. split.
  - intros vi m n. unfold resize0. cbn. rewrite !repeat_length. split; [reflexivity|]. split; [reflexivity|]. destruct (i_lasym vi); [rewrite !repeat_length|]; auto.
  - split; [repeat constructor|]. repeat split.
Qed.
