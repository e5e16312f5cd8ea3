(** A team of OpenMP threads running the same straight-line code on a shared
    state. Used for the accumulation pattern "omp single / omp barrier /
    omp critical / omp barrier / omp single" that occurs in
    vmec/ideal_mhd_model/ideal_mhd_model.cc:488-561 (evalFResInvar,
    evalFResPrecd), 1713-1772 (volumes), 1962-1990 (energies), 2099-2133 (force
    norms).

    Simplifications: the bodies of [single] and [critical] constructs execute
    atomically (they are mutually exclusive by the OpenMP rules, and between
    barriers the shared data of the pattern is touched only inside them); the
    implicit barrier at the end of a [single] is written as an explicit
    [IBarrier]; threads are numbered [0 <= t < T]. *)
From Coq Require Import ZArith List Bool Lia.
Import ListNotations.
Open Scope Z_scope.

Section Omp.
  Context {S : Type}.

  Inductive instr :=
  | ISingle (f : S -> S)          (* executed by the first thread to arrive *)
  | ICritical (f : Z -> S -> S)   (* executed by every thread, one at a time *)
  | IBarrier.

  Record config := mk_config {
    pc : Z -> nat;           (* next instruction of every thread *)
    fired : nat -> bool;     (* which [ISingle] have been executed *)
    shared : S
  }.

  Definition set_pc (p : Z -> nat) (t : Z) (k : nat) : Z -> nat :=
    fun u => if u =? t then k else p u.

  Definition set_fired (f : nat -> bool) (k : nat) : nat -> bool :=
    fun i => if Nat.eqb i k then true else f i.

  (** One thread executes one instruction. A thread at a barrier can go on
      only when every thread of the team has arrived there (or is past it). *)
  Inductive step (prog : list instr) (T : Z) : config -> config -> Prop :=
  | step_single_first : forall c t f,
      0 <= t < T -> nth_error prog (pc c t) = Some (ISingle f) ->
      fired c (pc c t) = false ->
      step prog T c (mk_config (set_pc (pc c) t (Datatypes.S (pc c t)))
                        (set_fired (fired c) (pc c t)) (f (shared c)))
  | step_single_skip : forall c t f,
      0 <= t < T -> nth_error prog (pc c t) = Some (ISingle f) ->
      fired c (pc c t) = true ->
      step prog T c (mk_config (set_pc (pc c) t (Datatypes.S (pc c t)))
                        (fired c) (shared c))
  | step_critical : forall c t f,
      0 <= t < T -> nth_error prog (pc c t) = Some (ICritical f) ->
      step prog T c (mk_config (set_pc (pc c) t (Datatypes.S (pc c t)))
                        (fired c) (f t (shared c)))
  | step_barrier : forall c t,
      0 <= t < T -> nth_error prog (pc c t) = Some IBarrier ->
      (forall u, 0 <= u < T -> (pc c t <= pc c u)%nat) ->
      step prog T c (mk_config (set_pc (pc c) t (Datatypes.S (pc c t)))
                        (fired c) (shared c)).

  Inductive steps (prog : list instr) (T : Z) : config -> config -> Prop :=
  | steps_refl : forall c, steps prog T c c
  | steps_cons : forall a b c, step prog T a b -> steps prog T b c -> steps prog T a c.

  Definition start (s : S) : config := mk_config (fun _ => 0%nat) (fun _ => false) s.

  Definition finished (prog : list instr) (T : Z) (c : config) : Prop :=
    forall t, 0 <= t < T -> pc c t = length prog.

  (** The accumulation pattern; [a], [b], [c] count the barriers (the implicit
      one of [single] plus explicit ones) in the three places. *)
  Definition reduce_prog (init : S -> S) (add : Z -> S -> S) (fin : S -> S)
      (a b c : nat) : list instr :=
    ISingle init :: repeat IBarrier a ++ ICritical add :: repeat IBarrier b
      ++ ISingle fin :: repeat IBarrier c.
End Omp.
Arguments instr : clear implicits.
Arguments config : clear implicits.
