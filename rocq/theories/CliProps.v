(** C136: the command line program keeps the result and the input file, and names files
    after the case. *)
From Coq Require Import ZArith List Bool String Ascii.
From Verif Require Import SimsModel CliModel CliProofs.
Open Scope string_scope.

(** If the input is read and the solver returns, foo.json and input.foo (not ending in
    .json) store the result in wout_foo.nc. *)
Theorem C136_names content is_indata reads solves foo c : reads c = true -> solves c = true ->
  run_cli content is_indata reads solves (foo ++ ".json") c = Written ("wout_" ++ foo ++ ".nc") /\
  (ends ".json" ("input." ++ foo) = false -> run_cli content is_indata reads solves ("input." ++ foo) c = Written ("wout_" ++ foo ++ ".nc")).
Proof.
  exact (fun R S => conj (run_ok content is_indata reads solves _ c foo R S (config_json foo))
    (fun E => run_ok content is_indata reads solves _ c foo R S (config_input foo E))).
Qed.
Print Assumptions C136_names.

(** The result is never stored over the input, unless the input has the name of a wout file. *)
Theorem C136_keeps_input content is_indata reads solves f c g : run_cli content is_indata reads solves f c = Written g ->
  (starts "wout_" f && ends ".nc" f = false \/ ends ".json" f = true \/ starts "input." f = true) -> g <> f.
Proof. exact (keeps_input content is_indata reads solves f c g). Qed.
Print Assumptions C136_keeps_input.

(** False in general: a JSON input of another name, like case.txt, is read and solved and
    the result is then lost in an exception; a JSON input named wout_x.nc is replaced. *)
Theorem C136_refuted :
  (exists f c, run_cli bool (fun b => b) (fun _ => true) (fun _ => true) f c = NameError) /\
  (exists f c, run_cli bool (fun b => b) (fun _ => true) (fun _ => true) f c = Written f).
Proof.
  exact (conj (ex_intro _ "case.txt" (ex_intro _ false eq_refl)) (ex_intro _ "wout_x.nc" (ex_intro _ false eq_refl))).
Qed.
Print Assumptions C136_refuted.

(** A Fortran input of such a name is refused before the solver starts. *)
Theorem C136_indata content is_indata reads solves f c : reads c = true -> solves c = true -> config_name f = None ->
  run_cli content is_indata reads solves f c = if is_indata c then NotRead else NameError.
Proof. exact (run_lost content is_indata reads solves f c). Qed.
Print Assumptions C136_indata.

(** convert never writes over its source, whatever its name. *)
Theorem C136_convert_keeps f : convert_name f <> f.
Proof. exact (convert_keeps f). Qed.
Print Assumptions C136_convert_keeps.

(** It turns input.foo into foo.json, which gives the same name of the result. *)
Theorem C136_convert foo : (forall a b, foo <> a ++ "input." ++ b) -> ends ".json" ("input." ++ foo) = false ->
  convert_name ("input." ++ foo) = foo ++ ".json" /\ config_name (convert_name ("input." ++ foo)) = config_name ("input." ++ foo).
Proof. exact (convert_case foo). Qed.
Print Assumptions C136_convert.

(** False if the case name contains "input." or the source is a JSON file; two sources in
    one directory may share their target. *)
Theorem C136_convert_refuted : convert_name "input.my_input.v2" = "my_v2.json" /\ config_name "input.my_input.v2" = Some "my_input.v2" /\
  convert_name "a.json" = "a.json.json" /\ config_name (convert_name "a.json") <> config_name "a.json" /\ convert_name "input.a" = convert_name "a".
Proof. exact convert_refuted. Qed.
Print Assumptions C136_convert_refuted.

(** Case: input.w7x.v2. *)
Theorem C136_case : (forall a b, "w7x.v2" <> a ++ "input." ++ b) /\ ends ".json" "input.w7x.v2" = false.
Proof. exact case_ok. Qed.
Print Assumptions C136_case.
