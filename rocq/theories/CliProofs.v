(** Proofs about the names of the command line program. *)
From Coq Require Import ZArith List Bool String Ascii Lia.
From Verif Require Import SimsModel SimsNames CliModel.
Open Scope string_scope.
Open Scope nat_scope.

Lemma starts_true p : forall s, starts p s = true -> exists b, s = (p ++ b)%string.
Proof.
  induction p as [|a p IH]; intros s H; [exists s; reflexivity|]. destruct s as [|c s]; [discriminate|]. cbn in H. apply andb_true_iff in H.
  destruct H as [H1 H2]. apply Ascii.eqb_eq in H1. subst c. destruct (IH s H2) as [b ->]. exists b. reflexivity.
Qed.
Lemma take_drop n : forall s, (take n s ++ drop n s)%string = s.
Proof. induction n as [|n IH]; intros s; [reflexivity|]. destruct s; [reflexivity|]. cbn. rewrite IH. reflexivity. Qed.
Lemma len_drop n : forall s, str_len (drop n s) = str_len s - n.
Proof. induction n as [|n IH]; intros s; [destruct s; cbn; lia|]. destruct s; [reflexivity|]. cbn. apply IH. Qed.
Lemma ends_true p s : ends p s = true -> exists a, s = (a ++ p)%string.
Proof.
  unfold ends. intros H. apply andb_true_iff in H. destruct H as [_ H]. apply String.eqb_eq in H. exists (take (str_len s - str_len p) s).
  rewrite <- H at 2. symmetry. apply take_drop.
Qed.

(** ** convert *)
Lemma remove_len s : forall k, k <= str_len s -> exists j, str_len (remove_all "input." s k) + 6 * j + k = str_len s.
Proof.
  induction s as [|a r IH]; intros k K; [exists 0; cbn in *; lia|]. cbn [remove_all]. destruct k as [|k].
  - destruct (starts "input." (String a r)) eqn:E.
    + destruct (starts_true _ _ E) as [b Eb]. assert (L : str_len (String a r) = 6 + str_len b) by (rewrite Eb; reflexivity). cbn [str_len] in L.
      change (str_len "input." - 1) with 5. destruct (IH 5) as [j J]; [lia|]. exists (S j). cbn [str_len]. lia.
    + destruct (IH 0) as [j J]; [lia|]. exists j. cbn [str_len]. lia.
  - destruct (IH k) as [j J]; [cbn in K; lia|]. exists j. cbn [str_len]. lia.
Qed.
Lemma convert_keeps f : convert_name f <> f.
Proof.
  intros H. assert (L : str_len (convert_name f) = str_len f) by (rewrite H; reflexivity). unfold convert_name in L. rewrite len_app in L.
  destruct (remove_len f 0) as [j J]; [lia|]. change (str_len ".json") with 5 in L. lia.
Qed.
Lemma remove_none s : (forall a b, s <> (a ++ "input." ++ b)%string) -> remove_all "input." s 0 = s.
Proof.
  induction s as [|c r IH]; intros H; [reflexivity|]. cbn [remove_all]. destruct (starts "input." (String c r)) eqn:E.
  - destruct (starts_true _ _ E) as [b Eb]. exfalso. exact (H "" b Eb).
  - rewrite IH; [reflexivity|]. intros a b Er. apply (H (String c a) b). rewrite Er. reflexivity.
Qed.
Lemma remove_skip p x : forall q, remove_all p (q ++ x)%string (str_len q) = remove_all p x 0.
Proof. induction q as [|a q IH]; [reflexivity|]. exact IH. Qed.
Lemma convert_input foo : (forall a b, foo <> (a ++ "input." ++ b)%string) -> convert_name ("input." ++ foo) = (foo ++ ".json")%string.
Proof.
  intros H. unfold convert_name. f_equal. change ("input." ++ foo)%string with (String "i" ("nput." ++ foo)). cbn [remove_all].
  change (starts "input." (String "i" ("nput." ++ foo))) with true. cbn iota. change (str_len "input." - 1) with (str_len "nput.").
  rewrite remove_skip. exact (remove_none foo H).
Qed.
Lemma config_json foo : config_name (foo ++ ".json") = Some foo.
Proof.
  unfold config_name. rewrite ends_app, len_app. change (str_len ".json") with 5. replace (str_len foo + 5 - 5) with (str_len foo) by lia.
  rewrite take_app. reflexivity.
Qed.
Lemma config_input foo : ends ".json" ("input." ++ foo) = false -> config_name ("input." ++ foo) = Some foo.
Proof. intros H. unfold config_name. rewrite H, starts_app. change 6 with (str_len "input."). rewrite drop_app. reflexivity. Qed.
Lemma convert_case foo : (forall a b, foo <> (a ++ "input." ++ b)%string) -> ends ".json" ("input." ++ foo) = false ->
  convert_name ("input." ++ foo) = (foo ++ ".json")%string /\ config_name (convert_name ("input." ++ foo)) = config_name ("input." ++ foo).
Proof. intros H E. split; [exact (convert_input foo H)|]. rewrite (convert_input foo H), config_json, config_input by exact E. reflexivity. Qed.

(** ** run *)
Section Run.
Variable content : Type.
Variables is_indata reads solves : content -> bool.
Notation run := (run_cli content is_indata reads solves).
Lemma run_ok f c n : reads c = true -> solves c = true -> config_name f = Some n -> run f c = Written ("wout_" ++ n ++ ".nc").
Proof. intros R S N. unfold run_cli. rewrite N, R, S. destruct (is_indata c); reflexivity. Qed.
Lemma run_lost f c : reads c = true -> solves c = true -> config_name f = None -> run f c = if is_indata c then NotRead else NameError.
Proof. intros R S N. unfold run_cli. rewrite N, R, S. destruct (is_indata c); reflexivity. Qed.
Lemma app_inj_l p : forall x y, (p ++ x)%string = (p ++ y)%string -> x = y.
Proof. induction p as [|a p IH]; intros x y H; [exact H|]. injection H as H. exact (IH x y H). Qed.
Lemma ends_app_neq a b : (a ++ ".json")%string <> (b ++ ".nc")%string.
Proof.
  intros H. assert (L : str_len (a ++ ".json")%string = str_len (b ++ ".nc")%string) by (rewrite H; reflexivity). rewrite !len_app in L. cbn in L.
  revert b H L. induction a as [|c a IH]; intros b H L.
  - cbn in L. destruct b as [|c1 [|c2 [|c3 b]]]; cbn in L; try lia. discriminate H.
  - destruct b as [|c' b]; cbn in L; [lia|]. injection H as _ H. apply (IH b H). cbn in L |- *. lia.
Qed.
Lemma keeps_input f c g : run f c = Written g -> (starts "wout_" f && ends ".nc" f = false \/ ends ".json" f = true \/ starts "input." f = true) -> g <> f.
Proof.
  unfold run_cli. intros H N E. subst g.
  destruct (negb _); [discriminate|]. destruct (negb _); [discriminate|]. destruct (config_name f) as [n|] eqn:C; [|discriminate].
  injection H as H. unfold config_name in C. destruct (ends ".json" f) eqn:J.
  - destruct (ends_true _ _ J) as [a Ea]. exact (ends_app_neq a ("wout_" ++ n) (eq_trans (eq_sym Ea) (eq_sym H))).
  - destruct (starts "input." f) eqn:I; [rewrite <- H in I; discriminate I|]. destruct (starts "wout_" f && ends ".nc" f); [|discriminate].
    destruct N as [N|[N|N]]; discriminate.
Qed.
Lemma overwrites n c : reads c = true -> solves c = true -> run ("wout_" ++ n ++ ".nc") c = Written ("wout_" ++ n ++ ".nc").
Proof.
  intros R S. apply run_ok; auto. unfold config_name.
  assert (J : ends ".json" ("wout_" ++ n ++ ".nc") = false).
  { destruct (ends ".json" ("wout_" ++ n ++ ".nc")) eqn:J; [|reflexivity]. destruct (ends_true _ _ J) as [a Ea].
    exfalso. exact (ends_app_neq a ("wout_" ++ n) (eq_sym Ea)). }
  rewrite J. change (starts "input." ("wout_" ++ n ++ ".nc")) with false. cbn iota. rewrite starts_app, <- (app_assoc' "wout_" n ".nc"), ends_app. cbn [andb].
  f_equal. rewrite len_app. change (str_len ".nc") with 3. replace (str_len ("wout_" ++ n) + 3 - 3) with (str_len ("wout_" ++ n)) by lia.
  rewrite take_app. exact (drop_app "wout_" n).
Qed.
End Run.

Lemma convert_refuted : convert_name "input.my_input.v2" = "my_v2.json" /\ config_name "input.my_input.v2" = Some "my_input.v2" /\
  convert_name "a.json" = "a.json.json" /\ config_name (convert_name "a.json") <> config_name "a.json" /\ convert_name "input.a" = convert_name "a".
Proof. vm_compute. repeat split; discriminate. Qed.
Lemma case_ok : (forall a b, "w7x.v2" <> (a ++ "input." ++ b)%string) /\ ends ".json" "input.w7x.v2" = false.
Proof.
  split; [|reflexivity]. intros a b H. assert (L : str_len "w7x.v2" = str_len (a ++ "input." ++ b)%string) by (rewrite H; reflexivity).
  rewrite !len_app in L. cbn in L. destruct a; [discriminate|cbn in L; lia].
Qed.
