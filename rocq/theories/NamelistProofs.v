From Coq Require Import String Ascii ZArith List Bool Lia.
From Verif Require Import Base BaseLemmas Num IndataModel IndataSpec IndataProofs NamelistModel NamelistSpec.
Import ListNotations.
Open Scope Z_scope.

Section P.
  Context {K : num}.
  Implicit Types (j : list (string * json K)) (ls : list (line K)).

  Definition line_name (l : line K) : string := match l with Assign n _ => n | Indexed n _ _ _ => n end.

  Lemma coefficient_lines_name name l : forall ls, coefficient_lines (K := K) name l = Ok ls -> forall x, In x ls -> line_name x = name.
  Proof.
    induction l as [|c l IH]; intros ls E x Hx; cbn in E; [inversion E; subst; contradiction|].
    repeat (match type of E with obind _ _ = Ok _ => apply obind_ok in E; destruct E as (? & ? & E); cbv beta in E end).
    inversion E; subst. destruct Hx as [<-|Hx]; [reflexivity|]. eapply IH; eassumption.
  Qed.

  Lemma convert_name k name j ls : convert k name j = Ok ls -> forall x, In x ls -> line_name x = name.
  Proof.
    destruct k; cbn [convert]; unfold bool_to_namelist, int_to_namelist, float_to_namelist, string_to_namelist, int_array_to_namelist,
      float_array_to_namelist, fourier_coefficients_to_namelist; destruct (find name j) as [v|]; intros E x Hx.
    all: try (inversion E; subst; try contradiction; destruct Hx as [<-|[]]; reflexivity).
    - apply obind_ok in E. destruct E as (y & _ & E). inversion E; subst. destruct Hx as [<-|[]]; reflexivity.
    - destruct v; inversion E; subst; destruct Hx as [<-|[]]; reflexivity.
    - apply obind_ok in E. destruct E as ([l|] & _ & E); inversion E; subst; [|contradiction]. destruct Hx as [<-|[]]; reflexivity.
    - apply obind_ok in E. destruct E as ([l|] & _ & E); [|inversion E; subst; contradiction]. apply obind_ok in E. destruct E as (y & _ & E). inversion E; subst. destruct Hx as [<-|[]]; reflexivity.
    - apply obind_ok in E. destruct E as ([l|] & _ & E); [|inversion E; subst; contradiction]. eapply coefficient_lines_name; eassumption.
  Qed.

  (** Splitting at one call. *)
  Lemma run_calls_split c j : forall ls, run_calls c j = Ok ls -> NoDup (map snd c) -> forall k name, In (k, name) c ->
    exists mine, convert k name j = Ok mine /\ (forall x, In x mine -> In x ls) /\ (forall x, In x ls -> line_name x = name -> In x mine) /\
      filter (fun x => String.eqb (line_name x) name) ls = mine.
  Proof.
    induction c as [|(k0, n0) c IH]; intros ls E D k name Hin; [contradiction|]. cbn [run_calls] in E.
    apply obind_ok in E. destruct E as (a & Ea & E). apply obind_ok in E. destruct E as (b & Eb & E). inversion E; subst. cbn in D. inversion D; subst.
    assert (Fb : forall l, run_calls c j = Ok l -> forall x, In x l -> In (line_name x) (map snd c)).
    { clear. induction c as [|(k1, n1) c IH]; intros l El x Hx; cbn in El; [inversion El; subst; contradiction|].
      apply obind_ok in El. destruct El as (a1 & E1 & El). apply obind_ok in El. destruct El as (b1 & E2 & El). inversion El; subst.
      apply in_app_or in Hx. destruct Hx as [Hx|Hx]; [left; symmetry; eapply convert_name; eassumption|right; eapply IH; eassumption]. }
    assert (FN : forall (l : list (line K)) nm, (forall x, In x l -> line_name x = nm) -> filter (fun x => String.eqb (line_name x) nm) l = l).
    { induction l as [|x l IHl]; intros nm H; [reflexivity|]. cbn. rewrite (H x) by (left; reflexivity). rewrite String.eqb_refl. f_equal. apply IHl. intros; apply H; right; assumption. }
    assert (FE : forall (l : list (line K)) nm, (forall x, In x l -> line_name x <> nm) -> filter (fun x => String.eqb (line_name x) nm) l = []).
    { induction l as [|x l IHl]; intros nm H; [reflexivity|]. cbn. destruct (String.eqb_spec (line_name x) nm) as [E'|E']; [exfalso; eapply H; [left; reflexivity|exact E']|]. apply IHl. intros; apply H; right; assumption. }
    destruct Hin as [Eq|Hin].
    - inversion Eq; subst k0 n0. exists a. split; [exact Ea|]. split; [intros; apply in_or_app; auto|]. split.
      + intros x Hx Hn. apply in_app_or in Hx. destruct Hx as [Hx|Hx]; [exact Hx|]. exfalso. match goal with H : ~ In name _ |- _ => apply H end. rewrite <- Hn. eapply Fb; eassumption.
      + rewrite filter_app, (FN a) by (intros; eapply convert_name; eassumption). rewrite (FE b), app_nil_r; [reflexivity|].
        intros x Hx Hn. match goal with H : ~ In name _ |- _ => apply H end. rewrite <- Hn. eapply Fb; eassumption.
    - destruct (IH b Eb ltac:(assumption) k name Hin) as (mine & M1 & M2 & M3 & M4). exists mine. split; [exact M1|].
      assert (Ne : name <> n0) by (intros ->; match goal with H : ~ In n0 _ |- _ => apply H end; change n0 with (snd (k, n0)); apply in_map; exact Hin).
      split; [intros; apply in_or_app; auto|]. split.
      + intros x Hx Hn. apply in_app_or in Hx. destruct Hx as [Hx|Hx]; [|auto]. exfalso. apply Ne. rewrite <- Hn. eapply convert_name; eassumption.
      + rewrite filter_app, (FE a), M4; [reflexivity|]. intros x Hx Hn. apply Ne. rewrite <- Hn. eapply convert_name; eassumption.
  Qed.

  Lemma calls_NoDup : NoDup (map snd calls).
  Proof.
    unfold calls. cbn [map snd].
    repeat (constructor; [cbn [In]; intros H; repeat match goal with H : _ \/ _ |- _ => destruct H as [H|H] | H : False |- _ => destruct H | H : _ = _ :> string |- _ => discriminate H end|]).
    constructor.
  Qed.

  Lemma at_call j ls k name : vmecpp_json_to_indata j = Ok ls -> In (k, name) calls ->
    exists mine, convert k name j = Ok mine /\ (forall x, In x mine -> In x ls) /\ (forall x, In x ls -> line_name x = name -> In x mine) /\
      filter (fun x => String.eqb (line_name x) name) ls = mine.
  Proof. intros E H. exact (run_calls_split calls j ls E calls_NoDup k name H). Qed.

  Lemma sets_one j ls k name r : vmecpp_json_to_indata j = Ok ls -> In (k, name) calls -> convert k name j = Ok [Assign name r] -> sets ls name r.
  Proof.
    intros E H C. destruct (at_call j ls k name E H) as (mine & M1 & M2 & M3 & _). rewrite C in M1. inversion M1; subst mine. split; [apply M2; left; reflexivity|].
    intros r' Hr. destruct (M3 _ Hr eq_refl) as [Eq|[]]. now inversion Eq.
  Qed.

  Lemma find_of j a w : member j a = Some w -> find a j = Some w.
  Proof. intros H. rewrite find_member. exact H. Qed.

  Lemma fmt_float_num (w : json K) x : is_num w x -> fmt_float w = Ok x.
  Proof. intros [->|(z & -> & ->)]; reflexivity. Qed.
  Lemma fmt_floats_num ws (l : list K) : Forall2 is_num ws l -> fmt_floats ws = Ok l.
  Proof. induction 1 as [|w x ws l H F IH]; [reflexivity|]. cbn. rewrite (fmt_float_num _ _ H). cbn. rewrite IH. reflexivity. Qed.

  Ltac inlist := unfold calls, shared_bools, shared_ints, shared_floats, shared_strings, shared_int_lists, shared_float_lists, shared_boundary, shared_axis, same in *; cbn [In map] in *.
  (** Each shared name is handled by the call of its kind. *)
  Lemma shared_call_bool a b : In (a, b) shared_bools -> a = b /\ In (KBool, b) calls.
  Proof. inlist. intuition (match goal with H : _ = (a, b) |- _ => inversion H; subst end; intuition congruence). Qed.
  Lemma shared_call_int a b : In (a, b) shared_ints -> a = b /\ In (KInt, b) calls.
  Proof. inlist. intuition (match goal with H : _ = (a, b) |- _ => inversion H; subst end; intuition congruence). Qed.
  Lemma shared_call_float a b : In (a, b) shared_floats -> a = b /\ In (KFloat, b) calls.
  Proof. inlist. intuition (match goal with H : _ = (a, b) |- _ => inversion H; subst end; intuition congruence). Qed.
  Lemma shared_call_string a b : In (a, b) shared_strings -> a = b /\ In (KString, b) calls.
  Proof. inlist. intuition (match goal with H : _ = (a, b) |- _ => inversion H; subst end; intuition congruence). Qed.
  Lemma shared_call_ints a b : In (a, b) shared_int_lists -> a = b /\ In (KInts, b) calls.
  Proof. inlist. intuition (match goal with H : _ = (a, b) |- _ => inversion H; subst end; intuition congruence). Qed.
  Lemma shared_call_floats a b : In (a, b) shared_float_lists -> a = b /\ In (KFloats, b) calls.
  Proof. inlist. intuition (match goal with H : _ = (a, b) |- _ => inversion H; subst end; intuition congruence). Qed.
  Lemma shared_call_boundary a b : In (a, b) shared_boundary -> a = b /\ In (KFourier, b) calls.
  Proof. inlist. intuition (match goal with H : _ = (a, b) |- _ => inversion H; subst end; intuition congruence). Qed.

  Theorem keeps_scalars_ok j ls : vmecpp_json_to_indata j = Ok ls -> keeps_scalars j ls.
  Proof.
    intros E. split; [|split].
    - intros a b v H M. destruct (shared_call_bool a b H) as (-> & C). apply (sets_one j ls KBool b _ E C).
      cbn [convert]. unfold bool_to_namelist. rewrite (find_of _ _ _ M). destruct v; reflexivity.
    - intros a b v H M. destruct (shared_call_int a b H) as (-> & C). apply (sets_one j ls KInt b _ E C).
      cbn [convert]. unfold int_to_namelist. rewrite (find_of _ _ _ M). reflexivity.
    - intros a b w x H M N. destruct (shared_call_float a b H) as (-> & C). apply (sets_one j ls KFloat b _ E C).
      cbn [convert]. unfold float_to_namelist. rewrite (find_of _ _ _ M), (fmt_float_num _ _ N). reflexivity.
  Qed.

  Lemma zlen_pos {A} (l : list A) : l <> [] -> zlen l >? 0 = true.
  Proof. destruct l; [congruence|]. intros _. unfold zlen. cbn [length]. apply Z.gtb_lt. lia. Qed.

  Theorem keeps_lists_ok j ls : vmecpp_json_to_indata j = Ok ls -> keeps_lists j ls.
  Proof.
    intros E. split.
    - intros a b l H M N. destruct (shared_call_ints a b H) as (-> & C). apply (sets_one j ls KInts b _ E C).
      cbn [convert]. unfold int_array_to_namelist. rewrite (find_of _ _ _ M). cbn [elements obind]. rewrite zlen_pos; [reflexivity|]. destruct l; [congruence|discriminate].
    - intros a b w l H M ((ws & -> & F) & N). destruct (shared_call_floats a b H) as (-> & C). apply (sets_one j ls KFloats b _ E C).
      cbn [convert]. unfold float_array_to_namelist. rewrite (find_of _ _ _ M). cbn [elements obind]. rewrite zlen_pos.
      + rewrite (fmt_floats_num _ _ F). reflexivity.
      + intros ->. inversion F; subst. congruence.
  Qed.

  Lemma app_assoc_s (a b c : string) : ((a ++ b) ++ c = a ++ (b ++ c))%string.
  Proof. induction a; cbn; [reflexivity|]. now rewrite IHa. Qed.
  Lemma literal_body_plain s : no_quote s -> literal_body (s ++ quote) = Some s.
  Proof.
    unfold no_quote. induction s as [|c s IH]; intros H; [reflexivity|]. cbn [String.append literal_body].
    destruct (Ascii.eqb_spec c (ascii_of_nat 39)) as [->|Ne]; [exfalso; apply H; left; reflexivity|].
    rewrite IH by (intros H'; apply H; right; exact H'). reflexivity.
  Qed.
  Lemma literal_plain s : no_quote s -> literal (quote ++ s ++ quote) = Some s.
  Proof. intros H. change (quote ++ s ++ quote)%string with (String (ascii_of_nat 39) (s ++ quote)). cbn [literal]. rewrite Ascii.eqb_refl. apply literal_body_plain. exact H. Qed.

  Theorem keeps_strings_ok j ls : vmecpp_json_to_indata j = Ok ls ->
    (forall a b s, In (a, b) shared_strings -> member j a = Some (JStr s) -> no_quote s) -> keeps_strings j ls.
  Proof.
    intros E Q a b s H M. pose proof (Q a b s H M) as N. destruct (shared_call_string a b H) as (-> & C). exists (quote ++ s ++ quote)%string. split; [|apply literal_plain; exact N].
    apply (sets_one j ls KString b _ E C). cbn [convert]. unfold string_to_namelist. rewrite (find_of _ _ _ M). reflexivity.
  Qed.

  Lemma coefficient_lines_ok name ws es : Forall2 (mode_entry (K := K)) ws es -> coefficient_lines name ws = Ok (map (fun e => Indexed name (fst (fst e)) (snd (fst e)) (snd e)) es).
  Proof.
    induction 1 as [|w e ws es H F IH]; [reflexivity|]. destruct e as ((n, m), x). destruct H as (l & wv & -> & M1 & M2 & M3 & M4).
    cbn [coefficient_lines key]. rewrite (find_of _ _ _ M1). cbn [obind]. rewrite (find_of _ _ _ M2). cbn [obind]. rewrite (find_of _ _ _ M3). cbn [obind].
    rewrite (fmt_float_num _ _ M4). cbn [obind]. rewrite IH. reflexivity.
  Qed.
  Lemma elements_set_filter ls name : elements_set ls name = elements_set (filter (fun x => String.eqb (line_name x) name) ls) name.
  Proof.
    induction ls as [|l ls IH]; [reflexivity|]. unfold elements_set in *. cbn [flat_map filter]. rewrite IH. destruct l as [nm r|nm n m x]; cbn [line_name].
    - destruct (String.eqb nm name); reflexivity.
    - destruct (String.eqb_spec nm name); cbn [flat_map]; [|reflexivity]. destruct (String.eqb_spec nm name); [reflexivity|contradiction].
  Qed.
  Theorem keeps_boundary_ok j ls : vmecpp_json_to_indata j = Ok ls -> keeps_boundary j ls.
  Proof.
    intros E a b ws es H M F. destruct (shared_call_boundary a b H) as (-> & C).
    destruct (at_call j ls KFourier b E C) as (mine & M1 & _ & _ & M4). rewrite elements_set_filter, M4.
    cbn [convert] in M1. unfold fourier_coefficients_to_namelist in M1. rewrite (find_of _ _ _ M) in M1. cbn [elements obind] in M1.
    destruct ws as [|w ws].
    - inversion F; subst. cbn in M1. inversion M1. reflexivity.
    - rewrite zlen_pos in M1 by discriminate. rewrite (coefficient_lines_ok b _ _ F) in M1. inversion M1. clear. induction es as [|((n, m), x) es IH]; [reflexivity|].
      unfold elements_set in *. cbn. rewrite String.eqb_refl. cbn. f_equal. exact IH.
  Qed.

  Theorem adds_nothing_ok j ls : vmecpp_json_to_indata j = Ok ls -> adds_nothing j ls.
  Proof.
    intros E a b H M.
    assert (C : a = b /\ exists k, In (k, b) calls).
    { rewrite !in_app_iff in H. destruct H as [H|[H|[H|[H|[H|[H|H]]]]]];
        [apply shared_call_bool in H|apply shared_call_int in H|apply shared_call_float in H|apply shared_call_string in H|apply shared_call_ints in H|apply shared_call_floats in H|apply shared_call_boundary in H];
        destruct H; split; eauto. }
    destruct C as (-> & k & C). destruct (at_call j ls k b E C) as (mine & M1 & _ & M3 & _).
    assert (mine = []).
    { rewrite <- find_member in M. destruct k; cbn [convert] in M1; unfold bool_to_namelist, int_to_namelist, float_to_namelist, string_to_namelist, int_array_to_namelist,
      float_array_to_namelist, fourier_coefficients_to_namelist in M1; rewrite M in M1; now inversion M1. }
    subst mine. split; intros; intros I; exact (M3 _ I eq_refl).
  Qed.

  (** The axis: nothing is written unless the input has members that are not part of its format. *)
  Theorem axis_dropped j ls : vmecpp_json_to_indata j = Ok ls ->
    (forall b, In b (map snd shared_axis) -> member j b = None) -> forall b, In b (map snd shared_axis) -> leaves_default ls b.
  Proof.
    intros E N b Hb. pose proof (N b Hb) as M.
    assert (C : In (KFloats, b) calls) by (inlist; intuition (subst; intuition congruence)).
    destruct (at_call j ls KFloats b E C) as (mine & M1 & _ & M3 & _). cbn [convert] in M1. unfold float_array_to_namelist in M1.
    rewrite <- find_member in M. rewrite M in M1. inversion M1; subst mine. split; intros; intros I; exact (M3 _ I eq_refl).
  Qed.

  (** Success on well-typed inputs. *)
  Lemma run_calls_total c j : (forall k name, In (k, name) c -> exists ls, convert k name j = Ok ls) -> exists ls, run_calls c j = Ok ls.
  Proof.
    induction c as [|(k, name) c IH]; intros H; [eexists; reflexivity|]. cbn [run_calls]. destruct (H k name (or_introl eq_refl)) as (a & ->). cbn [obind].
    destruct IH as (b & ->); [intros; apply H; right; assumption|]. eexists. reflexivity.
  Qed.
  Theorem converts_well_typed j : well_typed j -> exists ls, vmecpp_json_to_indata j = Ok ls.
  Proof.
    intros (W1 & W2 & W3 & W4 & W5). apply run_calls_total. intros k name H.
    assert (U : forall k', k = k' -> k' = KFloat -> In (name, name) shared_floats) by (intros k' -> ->; inlist; intuition congruence).
    assert (U2 : k = KInts -> In (name, name) shared_int_lists) by (intros ->; inlist; intuition congruence).
    assert (U3 : k = KFloats -> In (name, name) shared_float_lists \/ In name (map snd shared_axis)) by (intros ->; inlist; cbn [snd] in *; intuition congruence).
    assert (U4 : k = KFourier -> In (name, name) shared_boundary) by (intros ->; inlist; intuition congruence).
    clear H. destruct k; cbn [convert]; unfold bool_to_namelist, int_to_namelist, float_to_namelist, string_to_namelist, int_array_to_namelist,
      float_array_to_namelist, fourier_coefficients_to_namelist; rewrite find_member; destruct (member j name) as [w|] eqn:M; try (eexists; reflexivity).
    - destruct (W1 _ _ _ (U _ eq_refl eq_refl) M) as (x & N). rewrite (fmt_float_num _ _ N). eexists. reflexivity.
    - destruct w; eexists; reflexivity.
    - destruct (W2 _ _ _ (U2 eq_refl) M) as [->|(l & ->)]; cbn; eexists; reflexivity.
    - destruct (U3 eq_refl) as [S|S].
      + destruct (W3 _ _ _ S M) as [->|(l & ws & -> & F)]; [eexists; reflexivity|]. cbn [elements obind]. destruct (zlen ws >? 0); [|eexists; reflexivity].
        rewrite (fmt_floats_num _ _ F). eexists. reflexivity.
      + exfalso. exact (W4 _ _ S M).
    - destruct (W5 _ _ _ (U4 eq_refl) M) as [->|(ws & es & -> & F)]; [eexists; reflexivity|]. cbn [elements obind]. destruct (zlen ws >? 0); [|eexists; reflexivity].
      rewrite (coefficient_lines_ok name _ _ F). eexists. reflexivity.
  Qed.
End P.
