(** One multigrid stage of the equilibrium solver: [Vmec::SolveEquilibrium],
    [Vmec::SolveEquilibriumLoop], [Vmec::Evolve], [Vmec::RestartIteration],
    [Vmec::UpdateForwardModel] and the control-flow part of
    [IdealMhdModel::update].

    All C++ paths are relative to /repo/src/vmecpp/cpp/vmecpp.

    Simplifications, common to the whole file:
    - one thread's view: the flags read here are shared variables written in
      [omp single] blocks separated by barriers (thread agreement is the subject
      of other files);
    - the forward model is an oracle: a function of the whole solver state, so
      any residuals, Jacobian failures or errors may be reported in any
      order;
    - no checkpoint is requested ([VmecCheckpoint::NONE], the production
      setting);
    - log output is left out;
    - the geometry, velocity and force vectors are abstract types.
    [trace] (newest first) is a ghost record of the observable actions. *)
From Coq Require Import ZArith List Bool.
From Verif Require Import Base Num.
Import ListNotations.
Open Scope Z_scope.

(** vmec/vmec/flow control: [RestartReason], flow_control.h. *)
Inductive restart_reason : Type :=
| NO_RESTART | BAD_JACOBIAN | BAD_PROGRESS | HUGE_INITIAL_FORCES.

(** [VmecStatus]: the values the stage loop can assign. *)
Inductive vmec_status : Type :=
| ST_NORMAL | ST_SUCCESS | ST_BAD_JACOBIAN | ST_JAC75 | ST_UNRECOVERABLE.

(** [VacuumPressureState]: kOff < kInitializing < kInitialized < kActive. *)
Inductive vacuum_state : Type := VOff | VInitializing | VInitialized | VActive.

Definition rr_eqb (a b : restart_reason) : bool :=
  match a, b with
  | NO_RESTART, NO_RESTART | BAD_JACOBIAN, BAD_JACOBIAN
  | BAD_PROGRESS, BAD_PROGRESS | HUGE_INITIAL_FORCES, HUGE_INITIAL_FORCES => true
  | _, _ => false
  end.

Definition st_eqb (a b : vmec_status) : bool :=
  match a, b with
  | ST_NORMAL, ST_NORMAL | ST_SUCCESS, ST_SUCCESS
  | ST_BAD_JACOBIAN, ST_BAD_JACOBIAN | ST_JAC75, ST_JAC75
  | ST_UNRECOVERABLE, ST_UNRECOVERABLE => true
  | _, _ => false
  end.

Definition vac_eqb (a b : vacuum_state) : bool :=
  match a, b with
  | VOff, VOff | VInitializing, VInitializing
  | VInitialized, VInitialized | VActive, VActive => true
  | _, _ => false
  end.

(** [static_cast<VacuumPressureState>(static_cast<int>(state) + 1)],
    ideal_mhd_model.cc:762-764; only evaluated for a state different from
    kActive. *)
Definition vac_next (a : vacuum_state) : vacuum_state :=
  match a with
  | VOff => VInitializing | VInitializing => VInitialized
  | VInitialized => VActive | VActive => VActive
  end.

Section Loop.
Context {K : num} {G V F : Type}.

(** Observable actions of the solver. *)
Inductive event : Type :=
| EvEval (g : G) (complete : bool) (r z l : K)
                                (* a force evaluation of geometry g *)
| EvVac (full : bool) (every : Z)
                                (* the vacuum field was solved; [every]: update
                                   interval in force *)
| EvCouple (v : vacuum_state)   (* the vacuum coupling entered state v *)
| EvEdge                        (* the vacuum pressure entered the edge force *)
| EvStep (dt : K) (w : V) (g : G)
                                (* a pseudo-time step of length dt from
                                   velocity w and geometry g *)
| EvSave (g : G)                (* g stored as roll-back target *)
| EvRollback (g : G)            (* geometry reset to g, velocity to zero *)
| EvReinit (g : G)              (* geometry set anew: start of a stage, or
                                   rebuilt from the re-guessed axis *)
| EvCount (i : Z)               (* iteration number i was counted *)
| EvCallback (answer : bool).   (* the interrupt callback was asked *)

(** Solver state: members of [Vmec], [FlowControl] and (vacuum part)
    [IdealMhdModel]. *)
Record st : Type := mkSt {
  x : G;
  v : V;
  bak : G;
  f : F;
  iter1 : Z;
  iter2 : Z;
  ijacob : Z;
  reason : restart_reason;
  res0 : K;
  res1 : K;
  delt0r : K;
  fsq : K;
  fsqr : K;
  fsqz : K;
  fsql : K;
  fsqr1 : K;
  fsqz1 : K;
  fsql1 : K;
  invtau : list K;
  vac : vacuum_state;
  nvacskip : Z;
  ivacskip : Z;
  status : vmec_status;
  liter : bool;
  interrupted : bool;
  lreset : bool;
  ncall : Z;
  trace : list event
}.

Definition set_x (w : G) (s : st) : st :=
  mkSt w (v s) (bak s) (f s) (iter1 s) (iter2 s) (ijacob s) (reason s) (res0 s) (res1 s) (delt0r s) (fsq s) (fsqr s) (fsqz s) (fsql s) (fsqr1 s) (fsqz1 s) (fsql1 s) (invtau s) (vac s) (nvacskip s) (ivacskip s) (status s) (liter s) (interrupted s) (lreset s) (ncall s) (trace s).
Definition set_v (w : V) (s : st) : st :=
  mkSt (x s) w (bak s) (f s) (iter1 s) (iter2 s) (ijacob s) (reason s) (res0 s) (res1 s) (delt0r s) (fsq s) (fsqr s) (fsqz s) (fsql s) (fsqr1 s) (fsqz1 s) (fsql1 s) (invtau s) (vac s) (nvacskip s) (ivacskip s) (status s) (liter s) (interrupted s) (lreset s) (ncall s) (trace s).
Definition set_bak (w : G) (s : st) : st :=
  mkSt (x s) (v s) w (f s) (iter1 s) (iter2 s) (ijacob s) (reason s) (res0 s) (res1 s) (delt0r s) (fsq s) (fsqr s) (fsqz s) (fsql s) (fsqr1 s) (fsqz1 s) (fsql1 s) (invtau s) (vac s) (nvacskip s) (ivacskip s) (status s) (liter s) (interrupted s) (lreset s) (ncall s) (trace s).
Definition set_f (w : F) (s : st) : st :=
  mkSt (x s) (v s) (bak s) w (iter1 s) (iter2 s) (ijacob s) (reason s) (res0 s) (res1 s) (delt0r s) (fsq s) (fsqr s) (fsqz s) (fsql s) (fsqr1 s) (fsqz1 s) (fsql1 s) (invtau s) (vac s) (nvacskip s) (ivacskip s) (status s) (liter s) (interrupted s) (lreset s) (ncall s) (trace s).
Definition set_iter1 (w : Z) (s : st) : st :=
  mkSt (x s) (v s) (bak s) (f s) w (iter2 s) (ijacob s) (reason s) (res0 s) (res1 s) (delt0r s) (fsq s) (fsqr s) (fsqz s) (fsql s) (fsqr1 s) (fsqz1 s) (fsql1 s) (invtau s) (vac s) (nvacskip s) (ivacskip s) (status s) (liter s) (interrupted s) (lreset s) (ncall s) (trace s).
Definition set_iter2 (w : Z) (s : st) : st :=
  mkSt (x s) (v s) (bak s) (f s) (iter1 s) w (ijacob s) (reason s) (res0 s) (res1 s) (delt0r s) (fsq s) (fsqr s) (fsqz s) (fsql s) (fsqr1 s) (fsqz1 s) (fsql1 s) (invtau s) (vac s) (nvacskip s) (ivacskip s) (status s) (liter s) (interrupted s) (lreset s) (ncall s) (trace s).
Definition set_ijacob (w : Z) (s : st) : st :=
  mkSt (x s) (v s) (bak s) (f s) (iter1 s) (iter2 s) w (reason s) (res0 s) (res1 s) (delt0r s) (fsq s) (fsqr s) (fsqz s) (fsql s) (fsqr1 s) (fsqz1 s) (fsql1 s) (invtau s) (vac s) (nvacskip s) (ivacskip s) (status s) (liter s) (interrupted s) (lreset s) (ncall s) (trace s).
Definition set_reason (w : restart_reason) (s : st) : st :=
  mkSt (x s) (v s) (bak s) (f s) (iter1 s) (iter2 s) (ijacob s) w (res0 s) (res1 s) (delt0r s) (fsq s) (fsqr s) (fsqz s) (fsql s) (fsqr1 s) (fsqz1 s) (fsql1 s) (invtau s) (vac s) (nvacskip s) (ivacskip s) (status s) (liter s) (interrupted s) (lreset s) (ncall s) (trace s).
Definition set_res0 (w : K) (s : st) : st :=
  mkSt (x s) (v s) (bak s) (f s) (iter1 s) (iter2 s) (ijacob s) (reason s) w (res1 s) (delt0r s) (fsq s) (fsqr s) (fsqz s) (fsql s) (fsqr1 s) (fsqz1 s) (fsql1 s) (invtau s) (vac s) (nvacskip s) (ivacskip s) (status s) (liter s) (interrupted s) (lreset s) (ncall s) (trace s).
Definition set_res1 (w : K) (s : st) : st :=
  mkSt (x s) (v s) (bak s) (f s) (iter1 s) (iter2 s) (ijacob s) (reason s) (res0 s) w (delt0r s) (fsq s) (fsqr s) (fsqz s) (fsql s) (fsqr1 s) (fsqz1 s) (fsql1 s) (invtau s) (vac s) (nvacskip s) (ivacskip s) (status s) (liter s) (interrupted s) (lreset s) (ncall s) (trace s).
Definition set_delt0r (w : K) (s : st) : st :=
  mkSt (x s) (v s) (bak s) (f s) (iter1 s) (iter2 s) (ijacob s) (reason s) (res0 s) (res1 s) w (fsq s) (fsqr s) (fsqz s) (fsql s) (fsqr1 s) (fsqz1 s) (fsql1 s) (invtau s) (vac s) (nvacskip s) (ivacskip s) (status s) (liter s) (interrupted s) (lreset s) (ncall s) (trace s).
Definition set_fsq (w : K) (s : st) : st :=
  mkSt (x s) (v s) (bak s) (f s) (iter1 s) (iter2 s) (ijacob s) (reason s) (res0 s) (res1 s) (delt0r s) w (fsqr s) (fsqz s) (fsql s) (fsqr1 s) (fsqz1 s) (fsql1 s) (invtau s) (vac s) (nvacskip s) (ivacskip s) (status s) (liter s) (interrupted s) (lreset s) (ncall s) (trace s).
Definition set_fsqr (w : K) (s : st) : st :=
  mkSt (x s) (v s) (bak s) (f s) (iter1 s) (iter2 s) (ijacob s) (reason s) (res0 s) (res1 s) (delt0r s) (fsq s) w (fsqz s) (fsql s) (fsqr1 s) (fsqz1 s) (fsql1 s) (invtau s) (vac s) (nvacskip s) (ivacskip s) (status s) (liter s) (interrupted s) (lreset s) (ncall s) (trace s).
Definition set_fsqz (w : K) (s : st) : st :=
  mkSt (x s) (v s) (bak s) (f s) (iter1 s) (iter2 s) (ijacob s) (reason s) (res0 s) (res1 s) (delt0r s) (fsq s) (fsqr s) w (fsql s) (fsqr1 s) (fsqz1 s) (fsql1 s) (invtau s) (vac s) (nvacskip s) (ivacskip s) (status s) (liter s) (interrupted s) (lreset s) (ncall s) (trace s).
Definition set_fsql (w : K) (s : st) : st :=
  mkSt (x s) (v s) (bak s) (f s) (iter1 s) (iter2 s) (ijacob s) (reason s) (res0 s) (res1 s) (delt0r s) (fsq s) (fsqr s) (fsqz s) w (fsqr1 s) (fsqz1 s) (fsql1 s) (invtau s) (vac s) (nvacskip s) (ivacskip s) (status s) (liter s) (interrupted s) (lreset s) (ncall s) (trace s).
Definition set_fsqr1 (w : K) (s : st) : st :=
  mkSt (x s) (v s) (bak s) (f s) (iter1 s) (iter2 s) (ijacob s) (reason s) (res0 s) (res1 s) (delt0r s) (fsq s) (fsqr s) (fsqz s) (fsql s) w (fsqz1 s) (fsql1 s) (invtau s) (vac s) (nvacskip s) (ivacskip s) (status s) (liter s) (interrupted s) (lreset s) (ncall s) (trace s).
Definition set_fsqz1 (w : K) (s : st) : st :=
  mkSt (x s) (v s) (bak s) (f s) (iter1 s) (iter2 s) (ijacob s) (reason s) (res0 s) (res1 s) (delt0r s) (fsq s) (fsqr s) (fsqz s) (fsql s) (fsqr1 s) w (fsql1 s) (invtau s) (vac s) (nvacskip s) (ivacskip s) (status s) (liter s) (interrupted s) (lreset s) (ncall s) (trace s).
Definition set_fsql1 (w : K) (s : st) : st :=
  mkSt (x s) (v s) (bak s) (f s) (iter1 s) (iter2 s) (ijacob s) (reason s) (res0 s) (res1 s) (delt0r s) (fsq s) (fsqr s) (fsqz s) (fsql s) (fsqr1 s) (fsqz1 s) w (invtau s) (vac s) (nvacskip s) (ivacskip s) (status s) (liter s) (interrupted s) (lreset s) (ncall s) (trace s).
Definition set_invtau (w : list K) (s : st) : st :=
  mkSt (x s) (v s) (bak s) (f s) (iter1 s) (iter2 s) (ijacob s) (reason s) (res0 s) (res1 s) (delt0r s) (fsq s) (fsqr s) (fsqz s) (fsql s) (fsqr1 s) (fsqz1 s) (fsql1 s) w (vac s) (nvacskip s) (ivacskip s) (status s) (liter s) (interrupted s) (lreset s) (ncall s) (trace s).
Definition set_vac (w : vacuum_state) (s : st) : st :=
  mkSt (x s) (v s) (bak s) (f s) (iter1 s) (iter2 s) (ijacob s) (reason s) (res0 s) (res1 s) (delt0r s) (fsq s) (fsqr s) (fsqz s) (fsql s) (fsqr1 s) (fsqz1 s) (fsql1 s) (invtau s) w (nvacskip s) (ivacskip s) (status s) (liter s) (interrupted s) (lreset s) (ncall s) (trace s).
Definition set_nvacskip (w : Z) (s : st) : st :=
  mkSt (x s) (v s) (bak s) (f s) (iter1 s) (iter2 s) (ijacob s) (reason s) (res0 s) (res1 s) (delt0r s) (fsq s) (fsqr s) (fsqz s) (fsql s) (fsqr1 s) (fsqz1 s) (fsql1 s) (invtau s) (vac s) w (ivacskip s) (status s) (liter s) (interrupted s) (lreset s) (ncall s) (trace s).
Definition set_ivacskip (w : Z) (s : st) : st :=
  mkSt (x s) (v s) (bak s) (f s) (iter1 s) (iter2 s) (ijacob s) (reason s) (res0 s) (res1 s) (delt0r s) (fsq s) (fsqr s) (fsqz s) (fsql s) (fsqr1 s) (fsqz1 s) (fsql1 s) (invtau s) (vac s) (nvacskip s) w (status s) (liter s) (interrupted s) (lreset s) (ncall s) (trace s).
Definition set_status (w : vmec_status) (s : st) : st :=
  mkSt (x s) (v s) (bak s) (f s) (iter1 s) (iter2 s) (ijacob s) (reason s) (res0 s) (res1 s) (delt0r s) (fsq s) (fsqr s) (fsqz s) (fsql s) (fsqr1 s) (fsqz1 s) (fsql1 s) (invtau s) (vac s) (nvacskip s) (ivacskip s) w (liter s) (interrupted s) (lreset s) (ncall s) (trace s).
Definition set_liter (w : bool) (s : st) : st :=
  mkSt (x s) (v s) (bak s) (f s) (iter1 s) (iter2 s) (ijacob s) (reason s) (res0 s) (res1 s) (delt0r s) (fsq s) (fsqr s) (fsqz s) (fsql s) (fsqr1 s) (fsqz1 s) (fsql1 s) (invtau s) (vac s) (nvacskip s) (ivacskip s) (status s) w (interrupted s) (lreset s) (ncall s) (trace s).
Definition set_interrupted (w : bool) (s : st) : st :=
  mkSt (x s) (v s) (bak s) (f s) (iter1 s) (iter2 s) (ijacob s) (reason s) (res0 s) (res1 s) (delt0r s) (fsq s) (fsqr s) (fsqz s) (fsql s) (fsqr1 s) (fsqz1 s) (fsql1 s) (invtau s) (vac s) (nvacskip s) (ivacskip s) (status s) (liter s) w (lreset s) (ncall s) (trace s).
Definition set_lreset (w : bool) (s : st) : st :=
  mkSt (x s) (v s) (bak s) (f s) (iter1 s) (iter2 s) (ijacob s) (reason s) (res0 s) (res1 s) (delt0r s) (fsq s) (fsqr s) (fsqz s) (fsql s) (fsqr1 s) (fsqz1 s) (fsql1 s) (invtau s) (vac s) (nvacskip s) (ivacskip s) (status s) (liter s) (interrupted s) w (ncall s) (trace s).
Definition set_ncall (w : Z) (s : st) : st :=
  mkSt (x s) (v s) (bak s) (f s) (iter1 s) (iter2 s) (ijacob s) (reason s) (res0 s) (res1 s) (delt0r s) (fsq s) (fsqr s) (fsqz s) (fsql s) (fsqr1 s) (fsqz1 s) (fsql1 s) (invtau s) (vac s) (nvacskip s) (ivacskip s) (status s) (liter s) (interrupted s) (lreset s) w (trace s).
Definition set_trace (w : list event) (s : st) : st :=
  mkSt (x s) (v s) (bak s) (f s) (iter1 s) (iter2 s) (ijacob s) (reason s) (res0 s) (res1 s) (delt0r s) (fsq s) (fsqr s) (fsqz s) (fsql s) (fsqr1 s) (fsqz1 s) (fsql1 s) (invtau s) (vac s) (nvacskip s) (ivacskip s) (status s) (liter s) (interrupted s) (lreset s) (ncall s) w.

Definition log (e : event) (s : st) : st := set_trace (e :: trace s) s.

(** What one call of the forward model may report. *)
Record evalout : Type := mkOut {
  o_jac_bad : bool;    (* computeJacobian sets BAD_JACOBIAN *)
  o_tcon_err : bool;   (* constraintForceMultiplier fails (kFailedPrecondition) *)
  o_vac_err : bool;    (* rBtor/bSubVVac sign or current mismatch
                          (kFailedPrecondition) *)
  o_pc_err : bool;     (* applyRZPreconditioner fails (kInternal) *)
  o_r : K; o_z : K; o_l : K;         (* invariant residuals *)
  o_r1 : K; o_z1 : K; o_l1 : K;      (* preconditioned residuals *)
  o_f : F                            (* forces *)
}.

(** Settings of a stage: fc_.niterv, fc_.ftolv and the indata_ members read in
    the loop; [c_cb]: an interrupt callback is installed. *)
Record cfg : Type := mkCfg {
  c_niterv : Z; c_ftolv : K; c_delt : K; c_nstep : Z;
  c_parvmec : bool; c_lfreeb : bool; c_ns : Z; c_retout : bool; c_cb : bool
}.

(** External behaviour.  [m_step fac b1 dt f v x] is [PerformTimeStep]
    (vmec.cc:1500-1800); [m_mask] is [maskGeometryAbove] (identity at full
    geometry resolution); [m_reguess] is the geometry interpolated from the
    boundary and the recomputed axis; [m_callback n] answers the n-th call of the
    interrupt callback. *)
Record ext : Type := mkExt {
  m_eval : st -> evalout;
  m_step : K -> K -> K -> F -> V -> G -> G * V;
  m_vzero : V; m_gzero : G; m_reguess : G;
  m_mask : G -> G;
  m_callback : Z -> bool
}.

Context (c : cfg) (M : ext).

Definition kPreconditionerUpdateInterval : Z := 25.
Definition kNDamp : nat := 10.

(** Vmec::RestartIteration, vmec.cc:1239-1306, acting on the time step [dt]
    passed by reference. *)
Definition restart_iteration (dt : K) (s : st) : K * st :=
  match reason s with
  | BAD_JACOBIAN =>
      let s := set_v (m_vzero M) s in
      let s := set_x (bak s) s in
      let s := log (EvRollback (bak s)) s in
      let s := set_ijacob (ijacob s + 1) s in
      let s := set_iter1 (iter2 s) s in
      (nmul dt (nfrac 9 10), set_reason NO_RESTART s)
  | BAD_PROGRESS =>
      let s := set_v (m_vzero M) s in
      let s := set_x (bak s) s in
      let s := log (EvRollback (bak s)) s in
      (ndiv dt (nfrac 103 100), set_reason NO_RESTART s)
  | NO_RESTART | HUGE_INITIAL_FORCES =>
      (dt, log (EvSave (x s)) (set_bak (x s) s))
  end.

(** [RestartIteration(fc_.delt0r, thread_id)]. *)
Definition restart_delt0r (s : st) : st :=
  let '(d, s) := restart_iteration (delt0r s) s in set_delt0r d s.

(** Free-boundary block of IdealMhdModel::update, ideal_mhd_model.cc:738-887:
    returns [inl] on an error, otherwise the state and [m_need_restart]. *)
Definition vacuum_block (o : evalout) (s : st) : st + st * bool :=
  if c_lfreeb c && ((1 <? iter2 s) || vac_eqb (vac s) VInitialized) then
    let rz := nadd (fsqr s) (fsqz s) in
    let s := set_ivacskip (Z.rem (iter2 s - iter1 s) (nvacskip s)) s in
    let s := if negb (vac_eqb (vac s) VActive) && nlt rz (nfrac 1 1000) then
               log (EvCouple (vac_next (vac s)))
                 (set_vac (vac_next (vac s)) (set_ivacskip 0 s))
             else s in
    let s := if ivacskip s =? 0 then
               let new := ntrunc (ndiv (nZ 1)
                            (nmax (nfrac 1 10) (nmul (nZ 100000000000) rz))) in
               set_nvacskip (Z.max (nvacskip s) new) s
             else s in
    if negb (vac_eqb (vac s) VOff) then
      let s := log (EvVac (ivacskip s =? 0) (nvacskip s)) s in
      let s := if vac_eqb (vac s) VInitializing
               then log (EvCouple VInitialized) (set_vac VInitialized s)
               else s in
      if o_vac_err o then inl s
      else if vac_eqb (vac s) VInitialized
           then inr (set_reason BAD_JACOBIAN s, true)
           else inr (s, false)
    else inr (s, false)
  else inr (s, false).

(** assembleTotalForces, ideal_mhd_model.cc:2513-2525: the vacuum pressure enters
    the edge force. *)
Definition edge_force (s : st) : st :=
  if c_lfreeb c && (vac_eqb (vac s) VInitialized || vac_eqb (vac s) VActive)
  then log EvEdge s else s.

Definition aborted (s : st) : st :=
  log (EvEval (x s) false (fsqr s) (fsqz s) (fsql s)) s.

(** IdealMhdModel::update, ideal_mhd_model.cc:556-1117, control flow; result:
    [inl (recoverable, state)] on an error status, else the new state and
    [m_need_restart].  An evaluation that does not reach the residuals is logged
    as incomplete, with the residual members as they are at that point. *)
Definition update (s : st) : bool * st + st * bool :=
  let s := set_x (m_mask M (x s)) s in
  let o := m_eval M s in
  if o_jac_bad o then
    inr (aborted (set_reason BAD_JACOBIAN s), false)
  else if (Z.rem (iter2 s - iter1 s) kPreconditionerUpdateInterval =? 0)
          && o_tcon_err o then inl (true, aborted s)
  else match vacuum_block o s with
  | inl s => inl (true, aborted s)
  | inr (s, need_restart) =>
      let s := edge_force s in
      let s := set_fsqr (o_r o) (set_fsqz (o_z o) (set_fsql (o_l o) s)) in
      if o_pc_err o then inl (false, aborted s)
      else
        let s := set_f (o_f o) s in
        let s := set_fsqr1 (o_r1 o) (set_fsqz1 (o_z1 o) (set_fsql1 (o_l1 o) s)) in
        let s := log (EvEval (x s) true (o_r o) (o_z o) (o_l o)) s in
        let s := if (iter2 s =? 1)
                    && nlt (nZ 100) (nadd (nadd (fsqr s) (fsqz s)) (fsql s))
                 then set_reason HUGE_INITIAL_FORCES s else s in
        inr (s, need_restart)
  end.

(** Vmec::UpdateForwardModel, vmec.cc:1464-1498.  The time step handed to
    RestartIteration is a local copy of indata_.delt. *)
Definition update_forward_model (s : st) : bool * st + st :=
  match update s with
  | inl e => inl e
  | inr (s, need_restart) =>
      if need_restart then
        let '(_, s) := restart_iteration (c_delt c) s in
        inr (set_reason NO_RESTART s)
      else inr s
  end.

(** The shift of the damping history, vmec.cc:1361-1368: std::copy of elements
    1.. onto 0.., the last element stays. *)
Definition shift_left (l : list K) : list K :=
  match l with
  | [] => []
  | a :: t => t ++ [last l a]
  end.

(** Overwrite the last element. *)
Definition set_last (l : list K) (w : K) : list K :=
  removelast l ++ [w].

(** [invTau_.sum()], left to right. *)
Definition sum_left (l : list K) : K := fold_left nadd l (nZ 0).

(** Vmec::Evolve, vmec.cc:1308-1424; [time_step] is passed by value. *)
Definition evolve (time_step : K) (s : st) : bool * st + st :=
  let s := set_reason NO_RESTART s in
  match update_forward_model s with
  | inl e => inl e
  | inr s =>
      let finite := nfinite (fsqr s) && nfinite (fsqz s) && nfinite (fsql s) in
      let s :=
        if ((iter2 s =? 1) && rr_eqb (reason s) BAD_JACOBIAN) || negb finite then
          set_status ST_BAD_JACOBIAN s
        else if nle (fsqr s) (c_ftolv c) && nle (fsqz s) (c_ftolv c)
                && nle (fsql s) (c_ftolv c) then
          set_status ST_SUCCESS (set_liter false s)
        else s in
      if negb (st_eqb (status s) ST_NORMAL) || negb (liter s) then inr s
      else
        let fsq1 := nadd (nadd (fsqr1 s) (fsqz1 s)) (fsql1 s) in
        let tau := if iter2 s =? iter1 s
                   then repeat (ndiv (nfrac 15 100) time_step) kNDamp
                   else invtau s in
        let tau := shift_left tau in
        let tau :=
          if iter1 s <? iter2 s then
            let numerator :=
              if negb (neq fsq1 (nZ 0))
              then nmin (nabs (nlog (ndiv fsq1 (fsq s)))) (nfrac 15 100)
              else nZ 0 in
            set_last tau (ndiv numerator time_step)
          else tau in
        let s := set_fsq fsq1 (set_invtau tau s) in
        let otav := ndiv (sum_left tau) (nZ (Z.of_nat kNDamp)) in
        let dtau := ndiv (nmul time_step otav) (nZ 2) in
        let b1 := nsub (nZ 1) dtau in
        let fac := ndiv (nZ 1) (nadd (nZ 1) dtau) in
        let '(gx, gv) := m_step M fac b1 time_step (f s) (v s) (x s) in
        inr (log (EvStep time_step (v s) (x s)) (set_x gx (set_v gv s)))
  end.

(** Outcome of one call of SolveEquilibriumLoop. *)
Inductive loop_result : Type :=
| LError (recoverable : bool) (s : st)
| LRetry (s : st)               (* SolveEqLoopStatus::MUST_RETRY *)
| LDone (s : st).               (* SolveEqLoopStatus::NORMAL_TERMINATION *)

(** Time step control, vmec.cc:1076-1143: updates res0/res1, possibly stores or
    restores a state, possibly sets a restart reason. *)
Definition time_step_control (iter2' : Z) (s : st) : st :=
  let s := if (iter2' =? iter1 s) || neq (res0 s) (nZ (-1))
           then set_res0 (fsq s) s else s in
  let s := set_res0 (nmin (res0 s) (fsq s)) s in
  let inv := nadd (nadd (fsqr s) (fsqz s)) (fsql s) in
  let s := if c_parvmec c then
             let s := if (iter2' =? iter1 s) || neq (res1 s) (nZ (-1))
                      then set_res1 inv s else s in
             set_res1 (nmin (res1 s) inv) s
           else s in
  if c_parvmec c then
    if nle (fsq s) (res0 s) && nle inv (res1 s) then restart_delt0r s
    else if (10 <? iter2' - iter1 s)
            && (nlt (nmul (nZ 10000) (res0 s)) (fsq s)
                || nlt (nmul (nZ 10000) (res1 s)) inv)
    then set_reason BAD_PROGRESS s
    else s
  else if nle (fsq s) (res0 s) && (10 <? iter2' - iter1 s) then restart_delt0r s
  else if nlt (nmul (nZ 100) (res0 s)) (fsq s) && (iter1 s <? iter2')
  then set_reason BAD_JACOBIAN s
  else if (Z.quot kPreconditionerUpdateInterval 2 <? iter2' - iter1 s)
          && (2 * kPreconditionerUpdateInterval <? iter2')
          && nlt (nfrac 1 100) (nadd (fsqr s) (fsqz s))
  then set_reason BAD_PROGRESS s
  else s.

(** Printout and interrupt check, vmec.cc:1160-1190. *)
Definition report (iter2' : Z) (s : st) : st :=
  let s := log (EvCount iter2') s in
  if (Z.rem iter2' (c_nstep c) =? 0) || (iter2' =? 1) || negb (liter s) then
    if c_cb c then
      let ans := m_callback M (ncall s) in
      let s := log (EvCallback ans) (set_ncall (ncall s + 1) s) in
      if ans then set_interrupted true (set_liter false s) else s
    else s
  else s.

(** The part of the loop body after Evolve, vmec.cc:1014-1232: [inl] = leave the
    method with MUST_RETRY, [inr] = next iteration; the Z is [bad_resets]. *)
Definition after_evolve (force_iteration bad_resets iter2' : Z) (s : st)
  : st + Z * st :=
  if (ijacob s =? 25) || (ijacob s =? 50) then
    let s := set_reason BAD_JACOBIAN s in
    let s := restart_delt0r s in
    let scale := if ijacob s <? 50 then nfrac 98 100 else nfrac 96 100 in
    let s := set_delt0r (nmul scale (c_delt c)) s in
    inl (set_reason NO_RESTART s)
  else
    let s := if 75 <=? ijacob s then set_liter false (set_status ST_JAC75 s)
             else s in
    let s := time_step_control iter2' s in
    let '(bad_resets, s) :=
      if negb (rr_eqb (reason s) NO_RESTART) then
        (bad_resets + 1, set_iter1 iter2' (restart_delt0r s))
      else (bad_resets, report iter2' s) in
    let s := if vac_eqb (vac s) VInitialized
             then log (EvCouple VActive) (set_vac VActive s) else s in
    inr (bad_resets, set_iter2 (force_iteration - bad_resets + 1) s).

(** The force iteration loop of SolveEquilibriumLoop, vmec.cc:926-1233.  [fuel]
    is only the structural argument: it is started at
    [niterv - force_iteration + 1], the number of iterations the for-loop
    condition admits. *)
Fixpoint force_loop (fuel : nat) (force_iteration bad_resets : Z) (s : st)
  : loop_result :=
  match fuel with
  | O => LDone s
  | S k =>
      if negb ((force_iteration <=? c_niterv c) && liter s) then LDone s
      else
        let iter2' := force_iteration - bad_resets in
        match evolve (delt0r s) s with
        | inl (e, s) => LError e s
        | inr s =>
            if (ijacob s =? 0)
               && (st_eqb (status s) ST_BAD_JACOBIAN
                   || rr_eqb (reason s) HUGE_INITIAL_FORCES)
               && (3 <=? c_ns c) then
              LRetry (set_lreset true (set_reason BAD_JACOBIAN (set_ijacob 1 s)))
            else if negb (st_eqb (status s) ST_NORMAL)
                    && negb (st_eqb (status s) ST_SUCCESS) then
              if c_retout c then LDone s else LError false s
            else
              match after_evolve force_iteration bad_resets iter2' s with
              | inl s => LRetry s
              | inr (bad_resets, s) => force_loop k (force_iteration + 1) bad_resets s
              end
        end
  end.

(** SolveEquilibriumLoop, vmec.cc:881-1236. *)
Definition solve_equilibrium_loop (s : st) : loop_result :=
  let s :=
    match reason s with
    | BAD_JACOBIAN =>
        let s := set_x (m_gzero M) s in
        let s := if lreset s then log (EvReinit (m_reguess M)) (set_x (m_reguess M) s)
                 else s in
        restart_delt0r (set_reason NO_RESTART s)
    | _ => s
    end in
  let s := set_status ST_NORMAL (set_liter true s) in
  force_loop (Z.to_nat (c_niterv c - iter2 s + 1)) (iter2 s) 0 s.

(** Outcome of SolveEquilibrium. *)
Inductive stage_result : Type :=
| StageCancelled (s : st)       (* CancelledError *)
| StageError (s : st)           (* another error status *)
| StageOk (s : st).             (* OK, no checkpoint; see [status] *)

Definition finish_stage (r : loop_result) : stage_result :=
  match r with
  | LError recoverable s =>
      if interrupted s then StageCancelled s
      else if c_retout c && recoverable then StageOk (set_status ST_UNRECOVERABLE s)
      else StageError s
  | LRetry s | LDone s => if interrupted s then StageCancelled s else StageOk s
  end.

(** The retry loop of SolveEquilibrium, vmec.cc:803-826; structural argument:
    [niterv - n_local_eqsolve_retries]. *)
Fixpoint retry_loop (fuel : nat) (s : st) : loop_result :=
  match fuel with
  | O => LRetry s
  | S k =>
      if liter s then
        match solve_equilibrium_loop s with
        | LRetry s => retry_loop k s
        | r => r
        end
      else LRetry s
  end.

(** SolveEquilibrium, vmec.cc:774-879.  [liter_flag] and [m_lreset_internal] are
    locals of this function. *)
Definition solve_equilibrium (s : st) : stage_result :=
  finish_stage
    (retry_loop (Z.to_nat (c_niterv c)) (set_lreset false (set_liter true s))).

(** The flow-control part of InitializeRadial, vmec.cc:513-524 and 749-762, for a
    stage that starts from geometry [g] (cold start, interpolated or hot
    restart): counters and markers reset, the geometry saved as first roll-back
    target.  Residual members keep the values of the previous stage. *)
Definition init_stage (g : G) (s : st) : st :=
  let s := set_fsq (nZ 1) (set_iter2 1 (set_iter1 1 (set_ijacob 0 s))) in
  let s := set_reason NO_RESTART (set_res0 (nZ (-1)) (set_res1 (nZ (-1)) s)) in
  let s := set_delt0r (c_delt c) s in
  let s := log (EvReinit g) (set_v (m_vzero M) (set_x g s)) in
  let '(_, s) := restart_iteration (c_delt c) s in s.

End Loop.
