(** Telling a Fortran input file from a JSON one: is_vmec2000_input,
    src/vmecpp/__init__.py:2484-2494.  A text is the list of its lines (opened in text
    mode, with or without the line end), a line the list of its characters.  str.strip is
    restricted to the white space of ASCII. *)
From Coq Require Import List Bool Ascii String Arith.
Import ListNotations.

Definition line := list ascii.
Definition txt (s : string) : line := list_ascii_of_string s.
(** Characters 9-13, 28-32 *)
Definition space (a : ascii) : bool := let n := nat_of_ascii a in ((9 <=? n) && (n <=? 13) || (28 <=? n) && (n <=? 32))%nat.
Fixpoint lstrip (l : line) : line := match l with [] => [] | a :: r => if space a then lstrip r else l end.
(** str.strip() *)
Definition strip (l : line) : line := rev (lstrip (rev (lstrip l))).
Fixpoint eq_line (a b : line) : bool :=
  match a, b with [], [] => true | x :: a, y :: b => Ascii.eqb x y && eq_line a b | _, _ => false end.
Fixpoint is_indata (ls : list line) : bool :=
  match ls with
  | [] => false
  | l :: r =>
      match strip l with
      | [] => is_indata r
      | a :: _ => if Ascii.eqb a "!" then is_indata r else eq_line (strip l) (txt "&INDATA")
      end
  end.
