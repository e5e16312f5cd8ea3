(** Saving a wout file, VmecWOut.save, src/vmecpp/__init__.py:1401-1433, by any
    number of processes on one directory. Every system call is one event; the
    events also choose which calls fail, the name mkstemp picks, the contents a
    file has while it is written, and when a process is killed. A file is an
    inode: a reader that opened it keeps reading it after a rename. Power loss
    (unsynchronised disk caches) is not modelled. netCDF4 is not part of the
    repository: while _save_to_netcdf3 runs the temporary file may hold anything,
    and it holds the complete representation when it returns without exception. *)
From Coq Require Import String List Bool Arith.
Import ListNotations.

Section Save.
  Context {C : Type}.

  Record fs := mkFs {
    dir : string -> option nat;      (* name -> inode *)
    data : nat -> C;                 (* inode -> contents *)
    fresh : nat }.                   (* number of inodes in use *)

  (** Where a process is in save. *)
  Inductive pc :=
  | Start                            (* before line 1421 *)
  | Writing (tmp : string)           (* in _save_to_netcdf3, line 1426 *)
  | Failed (tmp : string)            (* in the except branch, line 1428 *)
  | Ready (tmp : string)             (* before replace, line 1430 *)
  | Done | Raised | Killed.

  (** One call of save: the target and the representation of the object. *)
  Record call := mkCall { target : string; content : C }.

  Inductive event :=
  | Check                            (* suffix test, line 1411 *)
  | Mkstemp (tmp : string)           (* lines 1421-1424, with close *)
  | MkstempFails
  | Modify (c : C)                   (* the file is changed while being written *)
  | WriteReturns | WriteRaises
  | Unlink | UnlinkFails
  | Replace | ReplaceFails           (* line 1430 *)
  | Kill.

  (** out_path.suffix == ".h5" (the last dot is not the first character). *)
  Definition is_h5 (name : string) : bool :=
    Nat.ltb 3 (String.length name) && String.eqb (substring (String.length name - 3) 3 name) ".h5".
  (** Names mkstemp can return for a target. *)
  Definition temp_name (out tmp : string) : Prop := exists random, tmp = (out ++ "." ++ random ++ ".tmp")%string.

  Definition set_dir (f : fs) (name : string) (v : option nat) : fs :=
    mkFs (fun n => if String.eqb n name then v else dir f n) (data f) (fresh f).
  Definition set_data (f : fs) (i : nat) (c : C) : fs :=
    mkFs (dir f) (fun k => if Nat.eqb k i then c else data f k) (fresh f).

  (** Creation of a new empty file ([empty] is its contents); fails if the name exists (O_EXCL). *)
  Definition create (f : fs) (name : string) (empty : C) : option fs :=
    match dir f name with
    | Some _ => None
    | None => Some (mkFs (fun n => if String.eqb n name then Some (fresh f) else dir f n)
                         (fun k => if Nat.eqb k (fresh f) then empty else data f k) (S (fresh f)))
    end.

  Context (empty : C).

  (** One step of one process; [None] when the event cannot happen there. *)
  Definition step (c : call) (p : pc) (e : event) (f : fs) : option (pc * fs) :=
    match p, e with
    | Start, Check => if is_h5 (target c) then Some (Raised, f) else None
    | Start, MkstempFails => if is_h5 (target c) then None else Some (Raised, f)
    | Start, Mkstemp tmp =>
        if is_h5 (target c) then None
        else match create f tmp empty with Some f' => Some (Writing tmp, f') | None => None end
    | Writing tmp, Modify d => match dir f tmp with Some i => Some (Writing tmp, set_data f i d) | None => None end
    | Writing tmp, WriteReturns => match dir f tmp with Some i => Some (Ready tmp, set_data f i (content c)) | None => None end
    | Writing tmp, WriteRaises => Some (Failed tmp, f)
    | Failed tmp, Unlink => Some (Raised, set_dir f tmp None)
    | Failed tmp, UnlinkFails => Some (Raised, f)
    | Ready tmp, Replace => match dir f tmp with Some i => Some (Done, set_dir (set_dir f (target c) (Some i)) tmp None) | None => None end
    | Ready tmp, ReplaceFails => Some (Raised, f)
    | Killed, _ | Done, _ | Raised, _ => None
    | _, Kill => Some (Killed, f)
    | _, _ => None
    end.

  (** A sequence of steps of one process. *)
  Fixpoint steps (c : call) (p : pc) (es : list event) (f : fs) : option (pc * fs) :=
    match es with
    | [] => Some (p, f)
    | e :: r => match step c p e f with Some (p', f') => steps c p' r f' | None => None end
    end.

  (** Any number of processes. [procs k] is the call of process [k] and its position. *)
  Definition state := ((nat -> call * pc) * fs)%type.
  Definition allowed (c : call) (e : event) : Prop := match e with Mkstemp tmp => temp_name (target c) tmp | _ => True end.
  Inductive reachable (s0 : state) : state -> Prop :=
  | reach_refl : reachable s0 s0
  | reach_step procs f k e p' f' :
      reachable s0 (procs, f) -> allowed (fst (procs k)) e ->
      step (fst (procs k)) (snd (procs k)) e f = Some (p', f') ->
      reachable s0 (fun j => if Nat.eqb j k then (fst (procs k), p') else procs j, f').
End Save.
Arguments fs : clear implicits.
Arguments call : clear implicits.
Arguments event : clear implicits.
Arguments state : clear implicits.
