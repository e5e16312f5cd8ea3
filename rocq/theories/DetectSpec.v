(** Lines of a Fortran input. *)
From Coq Require Import List Bool Ascii String Arith.
From Verif Require Import DetectModel.
Import ListNotations.
Definition blank (l : line) : Prop := Forall (fun a => space a = true) l.
(** A comment: an exclamation mark after white space *)
Definition comment (l : line) : Prop := exists a b, l = a ++ "!"%char :: b /\ blank a.
(** The opening of the namelist, alone on its line and in capitals *)
Definition opening (l : line) : Prop := exists a b, l = a ++ txt "&INDATA" ++ b /\ blank a /\ blank b.
(** Text of JSON: white space and a brace *)
Definition json (ls : list line) : Prop := exists p a b q, ls = p ++ (a ++ "{"%char :: b) :: q /\ Forall blank p /\ blank a.
(** Fortran: names of namelists in any case, items may follow on the same line *)
Definition lower (a : ascii) : ascii := let n := nat_of_ascii a in if (65 <=? n)%nat && (n <=? 90)%nat then ascii_of_nat (n + 32) else a.
Definition fortran_opening (l : line) : Prop :=
  exists a w b, l = a ++ w ++ b /\ blank a /\ map lower w = txt "&indata" /\ match b with [] => True | c :: _ => space c = true end.
