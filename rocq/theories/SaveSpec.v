(** What a reader may see at a file name while objects are being saved. *)
From Coq Require Import String List Bool Arith.
From Verif Require Import SaveModel.
Import ListNotations.

Section Spec.
  Context {C : Type}.

  (** Contents found under a name. *)
  Definition read (f : fs C) (name : string) : option C := option_map (data f) (dir f name).

  (** Nothing has started; inodes in the directory are allocated. *)
  Definition initial (procs : nat -> call C * pc) (f : fs C) : Prop :=
    (forall k, snd (procs k) = Start) /\ (forall name i, dir f name = Some i -> i < fresh f).

  (** The name holds what it held at first, or the whole of an object being saved there. *)
  Definition old_or_complete (procs : nat -> call C * pc) (f0 f : fs C) (name : string) : Prop :=
    read f name = read f0 name \/ exists k, target (fst (procs k)) = name /\ read f name = Some (content (fst (procs k))).

  (** Names that are the target of some process. *)
  Definition is_target (procs : nat -> call C * pc) (name : string) : Prop := exists k, target (fst (procs k)) = name.
End Spec.
