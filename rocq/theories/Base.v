(** Common definitions used by every model file: integer ranges, C-style
    counted loops, updates of arrays represented as functions. *)
From Coq Require Import ZArith List Lia Bool.
Import ListNotations.
Open Scope Z_scope.

(** [zseq lo n] is [lo; lo+1; ...; lo+n-1]. *)
Fixpoint zseq (lo : Z) (n : nat) : list Z :=
  match n with
  | O => []
  | S k => lo :: zseq (lo + 1) k
  end.

(** The integers [lo <= j < hi], increasing. *)
Definition zrange (lo hi : Z) : list Z := zseq lo (Z.to_nat (hi - lo)).

(** [for (int j = lo; j < hi; ++j) body] on a state. *)
Definition for_up {S : Type} (lo hi : Z) (body : Z -> S -> S) (s : S) : S :=
  fold_left (fun s j => body j s) (zrange lo hi) s.

(** [for (int j = hi; j >= lo; --j) body] on a state ([hi] included). *)
Definition for_down {S : Type} (hi lo : Z) (body : Z -> S -> S) (s : S) : S :=
  fold_left (fun s j => body j s) (rev (zrange lo (hi + 1))) s.

(** Store into an array represented as a function. *)
Definition upd {A : Type} (f : Z -> A) (i : Z) (v : A) : Z -> A :=
  fun j => if j =? i then v else f j.

(** Two-index store. *)
Definition upd2 {A : Type} (f : Z -> Z -> A) (i j : Z) (v : A) : Z -> Z -> A :=
  fun a b => if (a =? i) && (b =? j) then v else f a b.
