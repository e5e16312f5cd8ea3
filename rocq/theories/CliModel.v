(** The command line program: src/vmecpp/__main__.py:72-105 (main), _util.py:58-73
    (get_vmec_configuration_name), __init__.py:658-674 (VmecInput.from_file), 2484-2530
    (ensure_vmecpp_input).  File names are base names; [starts], [ends], [take], [drop]
    are those of SimsModel.v.  External: reading the content ([reads]) and the solver
    ([solves], whether vmecpp.run returns).  Printing, the verbosity flags and the
    temporary JSON file next to an INDATA input are left out; saving the wout succeeds. *)
From Coq Require Import ZArith List Bool String Ascii.
From Verif Require Import SimsModel.
Open Scope string_scope.

(** _util.py:58-73; None is the ValueError *)
Definition config_name (f : string) : option string :=
  if ends ".json" f then Some (take (str_len f - 5) f)
  else if starts "input." f then Some (drop 6 f)
  else if starts "wout_" f && ends ".nc" f then Some (drop 5 (take (str_len f - 3) f))
  else None.

(** str.replace(p, ""): occurrences from the left, not overlapping; [k] characters of the
    current occurrence remain to be dropped *)
Fixpoint remove_all (p s : string) (k : nat) : string :=
  match s with
  | EmptyString => EmptyString
  | String a r =>
      match k with
      | S k => remove_all p r k
      | O => if starts p s then remove_all p r (str_len p - 1) else String a (remove_all p r 0)
      end
  end.
(** __main__.py:77-78, the name of the converted file, in the directory of the input *)
Definition convert_name (f : string) : string := remove_all "input." f 0 ++ ".json".

Section Run.
Variable content : Type.
Variable is_indata : content -> bool. (* is_vmec2000_input, 2484-2494 *)
Variable reads : content -> bool.
Variable solves : content -> bool.
(** [NotRead]: an exception before the solver; [Failed]: the solver raises; [NameError]:
    the exception after the solver has returned, nothing is written; [Written f] *)
Inductive outcome := NotRead | Failed | NameError | Written (f : string).
(** 93-102; the output is written in the working directory *)
Definition run_cli (f : string) (c : content) : outcome :=
  let loaded := if is_indata c then match config_name f with Some _ => reads c | None => false end else reads c in
  if negb loaded then NotRead
  else if negb (solves c) then Failed
  else match config_name f with Some n => Written ("wout_" ++ n ++ ".nc") | None => NameError end.
End Run.
