(** A team of OpenMP threads running one program with branches, barriers and
    single regions.  Unlike OmpModel.v (straight-line code), the path of each
    thread is decided by what it reads: threads can part. *)
From Coq Require Import ZArith List Bool.
From Verif Require Import Base.
Import ListNotations.
Open Scope Z_scope.

Section Team.
  Context {val : Type}.

  (** Shared variables, private variables and labels are numbered. *)
  Definition store := Z -> val.

  Inductive instr :=
  (** A write to shared variable [v]: whatever thread [t], having passed [nb]
      barriers, computes from what it sees; [None]: this thread does not write. *)
  | Wr (v : Z) (f : Z -> nat -> store -> store -> option val)
  (** A private variable set from data of this thread only. *)
  | Lp (p : Z) (f : Z -> nat -> val)
  (** A private variable computed from shared variables [rs] and private
      variables [rp], by the same code on every thread. *)
  | Up (p : Z) (rs rp : list Z) (f : list val -> list val -> val)
  (** [#pragma omp barrier]. *)
  | Bar
  (** [#pragma omp single nowait]: executed by the first thread that gets here;
      a list of writes to shared variables. [single] is this followed by [Bar]. *)
  | Sg (ws : list (Z * (Z -> nat -> store -> store -> option val)))
  (** Branch to label [l] if the condition holds. *)
  | Br (rs rp : list Z) (c : list val -> list val -> bool) (l : Z)
  | Jm (l : Z)
  (** End of the parallel region for this thread. *)
  | Rt.

  Record thread := mkThread { code : list instr; pv : store; nb : nat; nsg : nat }.
  Record config := mkConfig { sh : store; fired : nat; th : Z -> thread }.

  Definition set_opt (s : store) (v : Z) (o : option val) : store :=
    match o with None => s | Some x => upd s v x end.

  Context (prog : Z -> list instr) (T : Z).

  Definition put (c : config) (t : Z) (x : thread) : config := mkConfig (sh c) (fired c) (upd (th c) t x).

  (** Has thread [x] reached barrier number [n] (or gone past it)? *)
  Definition reached (n : nat) (x : thread) : bool :=
    Nat.ltb n (nb x) || (Nat.eqb n (nb x) && match code x with Bar :: _ => true | _ => false end).

  (** One step of thread [t]; [None]: blocked or finished. *)
  Definition fire (c : config) (t : Z) : option config :=
    let x := th c t in
    let go k := mkThread k (pv x) (nb x) (nsg x) in
    match code x with
    | [] => None
    | Rt :: _ => None
    | Wr v f :: k =>
        Some (mkConfig (set_opt (sh c) v (f t (nb x) (sh c) (pv x))) (fired c) (upd (th c) t (go k)))
    | Lp p f :: k => Some (put c t (mkThread k (upd (pv x) p (f t (nb x))) (nb x) (nsg x)))
    | Up p rs rp f :: k =>
        Some (put c t (mkThread k (upd (pv x) p (f (map (sh c) rs) (map (pv x) rp))) (nb x) (nsg x)))
    | Bar :: k =>
        if forallb (fun t' => reached (nb x) (th c t')) (zrange 0 T)
        then Some (put c t (mkThread k (pv x) (S (nb x)) (nsg x))) else None
    | Sg ws :: k =>
        let x' := mkThread k (pv x) (nb x) (S (nsg x)) in
        if Nat.eqb (nsg x) (fired c)
        then Some (mkConfig (fold_left (fun s w => set_opt s (fst w) (snd w t (nb x) s (pv x))) ws (sh c))
                     (S (fired c)) (upd (th c) t x'))
        else Some (put c t x')
    | Br rs rp b l :: k =>
        Some (put c t (go (if b (map (sh c) rs) (map (pv x) rp) then prog l else k)))
    | Jm l :: k => Some (put c t (go (prog l)))
    end.

  Inductive runs : config -> config -> Prop :=
  | runs_refl c : runs c c
  | runs_step c c' c'' t : runs c c' -> 0 <= t < T -> fire c' t = Some c'' -> runs c c''.

  Definition starts (P : list instr) (s : store) (u : store) : config :=
    mkConfig s 0 (fun _ => mkThread P u 0 0).

  Definition ended (x : thread) : Prop := exists k, code x = Rt :: k.
End Team.

Arguments instr : clear implicits.
Arguments config : clear implicits.
Arguments thread : clear implicits.
