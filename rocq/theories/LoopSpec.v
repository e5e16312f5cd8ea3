(** Specification vocabulary for the stage loop, in terms of the observable
    history (newest event first) only. *)
From Coq Require Import ZArith List Bool.
From Verif Require Import Base Num LoopModel.
Import ListNotations.

Section Spec.
Context {K : num} {G V : Type}.
Notation event := (@event K G V).

Definition is_eval (e : event) : bool :=
  match e with EvEval _ _ _ _ _ => true | _ => false end.

(** Number of force evaluations in a history. *)
Definition evals (tr : list event) : nat := length (filter is_eval tr).

(** The most recent force evaluation. *)
Fixpoint last_eval (tr : list event) : option (G * bool * K * K * K) :=
  match tr with
  | [] => None
  | EvEval g b r z l :: _ => Some (g, b, r, z, l)
  | _ :: t => last_eval t
  end.

(** The most recently saved geometry. *)
Fixpoint last_save (tr : list event) : option G :=
  match tr with
  | [] => None
  | EvSave g :: _ => Some g
  | _ :: t => last_save t
  end.

(** The most recent event that moved the geometry. *)
Fixpoint last_move (tr : list event) : option event :=
  match tr with
  | [] => None
  | (EvStep _ _ _ as e) :: _ | (EvRollback _ as e) :: _ | (EvReinit _ as e) :: _
      => Some e
  | _ :: t => last_move t
  end.

(** Property of every event in the history, given the history before it. *)
Fixpoint always (P : event -> list event -> Prop) (tr : list event) : Prop :=
  match tr with
  | [] => True
  | e :: t => P e t /\ always P t
  end.

(** What C++ accepts as converged: finite and at most the tolerance. *)
Definition within (ftol : K) (r z l : K) : bool :=
  nfinite r && nfinite z && nfinite l && nle r ftol && nle z ftol && nle l ftol.

(** Roll-backs and time steps: a roll-back returns to the last saved geometry; a
    time step has an admissible length, and one that directly follows a
    roll-back starts at rest from the restored geometry. *)
Definition roll_ok (vzero : V) (mask : G -> G) (good : K -> Prop)
  (e : event) (past : list event) : Prop :=
  match e with
  | EvRollback g => last_save past = Some g
  | EvStep dt w g => good dt /\
      forall g0, last_move past = Some (EvRollback g0) ->
        w = vzero /\ (g = g0 \/ g = mask g0)
  | _ => True
  end.

(** ** Vacuum coupling *)

(** Position of a coupling state in the order off, initializing, initialized,
    active. *)
Definition vac_rank (v : vacuum_state) : Z :=
  match v with VOff => 0 | VInitializing => 1 | VInitialized => 2 | VActive => 3 end%Z.

(** The coupling state after the events of a history that began in state [v0]. *)
Fixpoint coupling (v0 : vacuum_state) (tr : list event) : vacuum_state :=
  match tr with
  | [] => v0
  | EvCouple v :: _ => v
  | _ :: t => coupling v0 t
  end.

(** The vacuum field was solved at least once. *)
Definition solved (tr : list event) : bool :=
  existsb (fun e => match e with EvVac _ _ => true | _ => false end) tr.

(** A roll-back happened, and since then no time step was taken, no new geometry
    was set up and no iteration was counted. *)
Fixpoint restarted (tr : list event) : bool :=
  match tr with
  | [] => false
  | EvRollback _ :: _ => true
  | EvStep _ _ _ :: _ | EvReinit _ :: _ | EvCount _ :: _ => false
  | _ :: t => restarted t
  end.

(** A roll-back happened, and since then no vacuum update was made. *)
Fixpoint rolled_back (tr : list event) : bool :=
  match tr with
  | [] => false
  | EvRollback _ :: _ => true
  | EvVac _ _ :: _ => false
  | _ :: t => rolled_back t
  end.

(** Coupling states are entered one after the other. *)
Definition couple_ok (v0 : vacuum_state) (e : event) (past : list event) : Prop :=
  match e with
  | EvCouple v => (vac_rank v = vac_rank (coupling v0 past) + 1)%Z
  | _ => True
  end.

(** The edge force uses a vacuum field that was solved before. *)
Definition edge_ok (e : event) (past : list event) : Prop :=
  match e with EvEdge => solved past = true | _ => True end.

(** Update interval in force at a vacuum update. *)
Definition interval_ok (n0 : Z) (e : event) (past : list event) : Prop :=
  match e with EvVac _ n => (1 <= n <= Z.max n0 10)%Z | _ => True end.

(** A vacuum update for which [after past] holds is a full one. *)
Definition full_ok (after : list event -> bool) (e : event) (past : list event) : Prop :=
  match e with EvVac full _ => after past = true -> full = true | _ => True end.

(** ** Interrupt callback *)

Definition is_count (e : event) : bool :=
  match e with EvCount _ => true | _ => false end.

(** Number of iterations counted. *)
Definition counted (tr : list event) : Z := Z.of_nat (length (filter is_count tr)).

(** Number of iterations counted since the callback was last asked. *)
Fixpoint since_asked (tr : list event) : Z :=
  match tr with
  | [] => 0
  | EvCallback _ :: _ => 0
  | EvCount _ :: t => since_asked t + 1
  | _ :: t => since_asked t
  end%Z.

(** The callback requested an interrupt. *)
Definition requested (tr : list event) : bool :=
  existsb (fun e => match e with EvCallback b => b | _ => false end) tr.

(** Iterations are counted one by one; fewer than [nstep] are counted between two
    questions to the callback; nothing is evaluated, stepped or counted after
    the callback requested an interrupt. *)
Definition interrupt_ok (nstep : Z) (e : event) (past : list event) : Prop :=
  match e with
  | EvCount i => (i = counted past + 1)%Z /\ (since_asked past < nstep)%Z /\ requested past = false
  | EvEval _ _ _ _ _ | EvStep _ _ _ => requested past = false
  | _ => True
  end.

End Spec.
Arguments evals : simpl never.
Arguments counted : simpl never.
Arguments requested : simpl never.
