(** C39: conversion of a JSON input to a VMEC2000 namelist. *)
From Coq Require Import String Ascii ZArith List Bool Lia.
From Verif Require Import Base Num IndataModel IndataSpec NamelistModel NamelistSpec NamelistProofs.
Import ListNotations.
Open Scope Z_scope.

(** A well-typed input is converted, and every shared setting except the axis is
    kept: flags, integers, numbers, lists, boundary coefficients and strings
    without a quote; nothing absent is set. Any arithmetic.
    Missing from the full claim: the axis, strings with a quote, lists in place
    of the resolution. *)
Theorem C39_keeps_settings_partial :
  forall (K : num) (j : list (string * json K)), well_typed j ->
    (forall a b s, In (a, b) shared_strings -> member j a = Some (JStr s) -> no_quote s) ->
    exists ls, vmecpp_json_to_indata j = Ok ls /\
      keeps_scalars j ls /\ keeps_lists j ls /\ keeps_strings j ls /\ keeps_boundary j ls /\ adds_nothing j ls.
Proof.
  intros K j W Q. destruct (converts_well_typed j W) as (ls & E). exists ls. split; [exact E|].
  split; [exact (keeps_scalars_ok j ls E)|]. split; [exact (keeps_lists_ok j ls E)|]. split; [exact (keeps_strings_ok j ls E Q)|].
  split; [exact (keeps_boundary_ok j ls E)|exact (adds_nothing_ok j ls E)].
Qed.
Print Assumptions C39_keeps_settings_partial.

(** The same whenever the conversion returns at all. *)
Theorem C39_keeps_what_it_converts_partial :
  forall (K : num) (j : list (string * json K)) ls, vmecpp_json_to_indata j = Ok ls ->
    keeps_scalars j ls /\ keeps_lists j ls /\ keeps_boundary j ls /\ adds_nothing j ls.
Proof.
  intros K j ls E. split; [exact (keeps_scalars_ok j ls E)|]. split; [exact (keeps_lists_ok j ls E)|].
  split; [exact (keeps_boundary_ok j ls E)|exact (adds_nothing_ok j ls E)].
Qed.
Print Assumptions C39_keeps_what_it_converts_partial.

(** The axis guess is dropped from every well-typed input: the namelist never
    sets an axis array. *)
Theorem C39_refuted_axis :
  forall (K : num) (j : list (string * json K)), well_typed j ->
    exists ls, vmecpp_json_to_indata j = Ok ls /\ forall b, In b (map snd shared_axis) -> leaves_default ls b.
Proof.
  intros K j W. destruct (converts_well_typed j W) as (ls & E). exists ls. split; [exact E|]. apply (axis_dropped j ls E).
  intros b Hb. destruct W as (_ & _ & _ & W4 & _). destruct (member j b) as [w|] eqn:M; [|reflexivity]. exfalso. exact (W4 b w Hb M).
Qed.
Print Assumptions C39_refuted_axis.

(** A small input with an axis guess, a boundary and a quote in a file name. *)
Definition sample {K : num} : list (string * json K) := [
  ("lasym", JBool false); ("nfp", JInt 5); ("mpol", JInt 2); ("delt", JNum (nfrac 9 10)); ("phiedge", JInt 1);
  ("ns_array", JArr (map JInt [11; 51])); ("am", JArr [JInt 1; JNum (nfrac 1 2)]); ("aphi", JArr []);
  ("mgrid_file", JStr "it's.nc"); ("pmass_type", JStr "power_series");
  ("raxis_c", JArr [JNum (nfrac 3 2)]);
  ("rbc", JArr [JObj [("m", JInt 1); ("n", JInt (-2)); ("value", JNum (nfrac 1 4))]])]%string.

Lemma sample_typed (K : num) : well_typed (sample (K := K)).
Proof.
  unfold sample, well_typed, shared_floats, shared_int_lists, shared_float_lists, shared_axis, shared_boundary, same. cbn [map In snd].
  repeat split.
  - intros a b w H M. repeat (destruct H as [H|H]; [inversion H; subst; cbv [member List.find option_map fst snd String.eqb Ascii.eqb Bool.eqb andb] in M; try discriminate M|]); try contradiction.
    all: inversion M; subst; eexists; first [left; reflexivity|right; eexists; split; reflexivity].
  - intros a b w H M. repeat (destruct H as [H|H]; [inversion H; subst; cbv [member List.find option_map fst snd String.eqb Ascii.eqb Bool.eqb andb] in M; try discriminate M|]); try contradiction.
    inversion M; subst. right. exists [11; 51]. reflexivity.
  - intros a b w H M. repeat (destruct H as [H|H]; [inversion H; subst; cbv [member List.find option_map fst snd String.eqb Ascii.eqb Bool.eqb andb] in M; try discriminate M|]); try contradiction.
    all: inversion M; subst; right.
    + exists [], []. split; [reflexivity|constructor].
    + exists [nZ 1; nfrac 1 2], [JInt 1; JNum (nfrac 1 2)]. split; [reflexivity|]. constructor; [right; eexists; split; reflexivity|]. constructor; [left; reflexivity|constructor].
  - intros b w H M. intuition (subst; cbv [member List.find option_map fst snd String.eqb Ascii.eqb Bool.eqb andb] in M; discriminate M).
  - intros a b w H M. repeat (destruct H as [H|H]; [inversion H; subst; cbv [member List.find option_map fst snd String.eqb Ascii.eqb Bool.eqb andb] in M; try discriminate M|]); try contradiction.
    inversion M; subst. right. eexists _, [(JInt (-2), JInt 1, nfrac 1 4)]. split; [reflexivity|]. constructor; [|constructor].
    eexists _, _. split; [reflexivity|]. split; [reflexivity|]. split; [reflexivity|]. split; [reflexivity|]. left. reflexivity.
Qed.

(** The axis setting of the sample is not kept, nor is its file name. *)
Theorem C39_refuted :
  forall K : num, exists (j : list (string * json K)) ls, well_typed j /\ vmecpp_json_to_indata j = Ok ls /\ ~ keeps_axis j ls /\ ~ keeps_strings j ls.
Proof.
  intros K. destruct (C39_refuted_axis K sample (sample_typed K)) as (ls & E & H). exists sample, ls. split; [exact (sample_typed K)|]. split; [exact E|]. split.
  - intros A. destruct (H "raxis_cc"%string) as (H1 & _); [left; reflexivity|].
    destruct (A "raxis_c"%string "raxis_cc"%string (JArr [JNum (nfrac 3 2)]) [nfrac 3 2]) as (A1 & _); [left; reflexivity|reflexivity| |exact (H1 _ A1)].
    split; [|discriminate]. exists [JNum (nfrac 3 2)]. split; [reflexivity|]. constructor; [left; reflexivity|constructor].
  - intros A. destruct (A "mgrid_file"%string "mgrid_file"%string "it's.nc"%string) as (text & (S1 & _) & L); [unfold shared_strings, same; cbn; auto|reflexivity|].
    assert (S : sets ls "mgrid_file" (RQuoted (quote ++ "it's.nc" ++ quote))).
    { apply (sets_one sample ls KString); [exact E|unfold calls; cbn; intuition|reflexivity]. }
    destruct S as (_ & S). specialize (S _ S1). inversion S; subst text. vm_compute in L. discriminate.
Qed.
Print Assumptions C39_refuted.

(** A schedule of resolutions, which the Python input object accepts, is written
    as a Python list: the namelist holds no integer for it. *)
Theorem C39_refuted_schedule :
  forall K : num, exists ls, vmecpp_json_to_indata [("mpol"%string, JArr (map JInt [4; 6]) : json K)] = Ok ls /\
    forall z, ~ says_int ls "mpol" z.
Proof.
  intros K. eexists. split; [reflexivity|]. intros z (I & _). cbn in I. destruct I as [I|[]]. inversion I.
Qed.
Print Assumptions C39_refuted_schedule.

Example C39_case : forall K : num, exists ls, vmecpp_json_to_indata (sample (K := K)) = Ok ls /\
  says_int ls "nfp" 5 /\ says_float ls "phiedge" (nZ 1) /\ elements_set ls "rbc" = [(JInt (-2), JInt 1, nfrac 1 4)].
Proof.
  intros K. destruct (converts_well_typed sample (sample_typed K)) as (ls & E). exists ls. split; [exact E|].
  destruct (keeps_scalars_ok _ _ E) as (_ & K2 & K3). split; [|split].
  - apply (K2 "nfp"%string "nfp"%string); [left; reflexivity|reflexivity].
  - apply (K3 "phiedge"%string "phiedge"%string (JInt 1)); [unfold shared_floats, same; cbn; auto|reflexivity|right; eexists; split; reflexivity].
  - apply (keeps_boundary_ok _ _ E "rbc"%string "rbc"%string [JObj [("m"%string, JInt 1); ("n"%string, JInt (-2)); ("value"%string, JNum (nfrac 1 4))]]); [left; reflexivity|reflexivity|].
    constructor; [|constructor]. eexists _, _. split; [reflexivity|]. split; [reflexivity|]. split; [reflexivity|]. split; [reflexivity|]. left. reflexivity.
Qed.
