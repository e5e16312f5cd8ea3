(** C138: Fortran and JSON inputs are told apart. *)
From Coq Require Import List Bool Ascii String Arith.
From Verif Require Import DetectModel DetectSpec DetectProofs.
Import ListNotations.

(** A file is taken for Fortran exactly if only blank lines and comments come before a line
    that holds "&INDATA" and white space; what follows does not matter. *)
Theorem C138_fortran ls : is_indata ls = true <-> exists p l q, ls = p ++ l :: q /\ Forall (fun l => blank l \/ comment l) p /\ opening l.
Proof. exact (detect_iff ls). Qed.
Print Assumptions C138_fortran.

(** A JSON input is never taken for Fortran. *)
Theorem C138_json ls : json ls -> is_indata ls = false.
Proof. exact (json_not ls). Qed.
Print Assumptions C138_json.

(** Not every Fortran input is recognised: the name in lower case, or an item on the line
    of the name, makes it a JSON input. *)
Theorem C138_refuted : fortran_opening (txt "&indata") /\ is_indata [txt "&indata"; txt "/"] = false /\
  fortran_opening (txt "&INDATA LASYM = F") /\ is_indata [txt "&INDATA LASYM = F"; txt "/"] = false.
Proof. exact refuted. Qed.
Print Assumptions C138_refuted.

(** Case: a comment, an empty line, the opening; a JSON text. *)
Theorem C138_case : is_indata [txt "! W7-X"; txt ""; txt "  &INDATA "; txt "LASYM = F"; txt "/"] = true /\ json [txt ""; txt "  {""lasym"": false}"].
Proof. exact case. Qed.
Print Assumptions C138_case.
