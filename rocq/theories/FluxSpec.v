(** The flux profiles a user expects in the output file. *)
From Coq Require Import ZArith Reals.
Open Scope R_scope.

(** Position of surface [j] of [ns]. *)
Definition pos (ns j : Z) : R := IZR j / (IZR ns - 1).
(** [phi] is the enclosed flux: the share [T s / T 1] of the edge flux. *)
Definition enclosed (ns : Z) (phiedge : R) (T : R -> R) (phi : Z -> R) : Prop :=
  forall j, (0 <= j < ns)%Z -> phi j = phiedge * (T (pos ns j) / T 1).
(** [d] is the radial derivative of [f] on the inner surfaces, by central differences. *)
Definition radial_derivative (ns : Z) (f d : Z -> R) : Prop :=
  forall j, (0 < j < ns - 1)%Z -> (f (j + 1)%Z - f (j - 1)%Z) / (pos ns (j + 1) - pos ns (j - 1)) = d j.
(** [h] holds, midway between the surfaces, the values of the straight line [a + b s]. *)
Definition line_between (ns : Z) (a b : R) (h : Z -> R) : Prop :=
  forall j, (0 <= j < ns - 1)%Z -> h j = a + b * ((pos ns j + pos ns (j + 1)) / 2).
