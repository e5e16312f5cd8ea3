(** The Python driver of one multigrid stage: [solve_equilibrium] in
    /repo/src/vmecpp/_iteration.py:171-520, acting on the primitives of
    [VmecModel] (cpp/vmecpp/vmec/pybind11/pybind_vmec.cc:161-345).

    The state record of LoopModel.v is reused: the geometry, velocity, backup,
    forces, residuals and restart reason are those of the wrapped C++ object; the
    driver's local variables iter1, iter2, ijacob, res0, res1, delt0r, fsq_prev,
    inv_tau are kept in the fields of the same meaning (the C++ object's own
    counters are not read by the primitives).

    Simplifications: callback, logging and the recorded traces of residuals are left
    out ([trace] records the actions); the restart counters n_restarts,
    n_reguesses are not kept. *)
From Coq Require Import ZArith List Bool.
From Verif Require Import Base Num LoopModel.
Import ListNotations.
Open Scope Z_scope.

(** Styles, _iteration.py:69-72. *)
Inductive style : Type := Vmec852 | Parvmec | Robust.

Section PyIter.
Context {K : num} {G V F : Type}.
Context (c : @cfg K) (M : @ext K G V F) (sty : style).
Local Notation st := (@st K G V F).

(** VmecModel::SaveBackup, pybind_vmec.cc:292-294. *)
Definition save_backup (s : st) : st := log (EvSave (x s)) (set_bak (x s) s).

(** VmecModel::RestoreBackup, pybind_vmec.cc:295-298. *)
Definition restore_backup (s : st) : st :=
  log (EvRollback (bak s)) (set_x (bak s) (set_v (m_vzero M) s)).

(** VmecModel::Reinitialize, pybind_vmec.cc:319-336: the axis is recomputed and
    InitializeRadial builds all arrays anew; the driver's locals are not touched.
    The forces are also cleared there; they are recomputed before their next
    use and left alone here. *)
Definition reinitialize (s : st) : st :=
  save_backup (log (EvReinit (m_reguess M)) (set_v (m_vzero M) (set_x (m_reguess M) s))).

(** VmecModel::Evaluate, pybind_vmec.cc:232-279: the restart reason is cleared, an
    error status is thrown as an exception ([inl]); [need_restart] is recorded
    but the driver does not ask for it. *)
Definition evaluate (s : st) : st + st :=
  match update c M (set_reason NO_RESTART s) with
  | inl (_, s) => inl s
  | inr (s, _) => inr s
  end.

Definition fsq_pre (s : st) : K := nadd (nadd (fsqr1 s) (fsqz1 s)) (fsql1 s).
Definition fsq_inv (s : st) : K := nadd (nadd (fsqr s) (fsqz s)) (fsql s).

(** _iteration.py:267-270. *)
Definition bad_status (s : st) : bool :=
  ((iter2 s =? 1) && rr_eqb (reason s) BAD_JACOBIAN)
  || negb (nfinite (fsqr s) && nfinite (fsqz s) && nfinite (fsql s)).

(** Damping and time step, _iteration.py:294-324.  [math.log] raises for an
    argument that is not positive, the division for a zero divisor: [inl]. *)
Definition damped_step (s : st) : st + st :=
  let fsq1 := fsq_pre s in
  let tau := if iter2 s =? iter1 s then repeat (ndiv (nfrac 15 100) (delt0r s)) kNDamp else invtau s in
  let tau := shift_left tau in
  let upd := (iter1 s <? iter2 s) && negb (neq fsq1 (nZ 0)) in
  if upd && (neq (fsq s) (nZ 0) || nle (ndiv fsq1 (fsq s)) (nZ 0)) then inl s
  else
    let tau := if upd
               then set_last tau (ndiv (nmin (nabs (nlog (ndiv fsq1 (fsq s)))) (nfrac 15 100)) (delt0r s))
               else tau in
    let s := set_fsq fsq1 (set_invtau tau s) in
    let otav := ndiv (sum_left tau) (nZ (Z.of_nat kNDamp)) in
    let dtau := ndiv (nmul (delt0r s) otav) (nZ 2) in
    let '(gx, gv) := m_step M (ndiv (nZ 1) (nadd (nZ 1) dtau)) (nsub (nZ 1) dtau) (delt0r s) (f s) (v s) (x s) in
    inr (log (EvStep (delt0r s) (v s) (x s)) (set_x gx (set_v gv s))).

(** Running minima of both sums, _iteration.py:379-382 (also 399-403, 425-429). *)
Definition seed_both (s : st) : st :=
  let fsq1 := fsq s in let fsq0 := fsq_inv s in
  let s := if (iter2 s =? iter1 s) || neq (res0 s) (nZ (-1)) then set_res0 fsq1 (set_res1 fsq0 s) else s in
  set_res0 (nmin (res0 s) fsq1) (set_res1 (nmin (res1 s) fsq0) s).

(** The gentle revert, _iteration.py:411-416 and similar. *)
Definition gentle (s : st) : st :=
  let s := restore_backup s in
  set_iter1 (iter2 s) (set_delt0r (ndiv (delt0r s) (nfrac 103 100)) s).

Definition slow_progress (s : st) : bool :=
  (Z.div kPreconditionerUpdateInterval 2 <? iter2 s - iter1 s)
  && (2 * kPreconditionerUpdateInterval <? iter2 s)
  && nlt (nfrac 1 100) (nadd (fsqr s) (fsqz s)).

(** Time-step and restart control, _iteration.py:369-470; the Z is the increment
    of [bad_resets].  [fsq s] holds fsq1 here (set by the time step). *)
Definition control (s : st) : Z * st :=
  if rr_eqb (reason s) HUGE_INITIAL_FORCES then
    let s := save_backup (seed_both s) in
    (1, set_iter1 (iter2 s) s)
  else match sty with
  | Parvmec =>
      let s := seed_both s in
      if nle (fsq s) (res0 s) && nle (fsq_inv s) (res1 s) then (0, save_backup s)
      else if (10 <? iter2 s - iter1 s)
              && (nlt (nmul (nZ 10000) (res0 s)) (fsq s)
                  || nlt (nmul (nZ 10000) (res1 s)) (fsq_inv s))
      then (1, gentle s)
      else (0, s)
  | Robust =>
      let s := seed_both s in
      if nle (fsq s) (res0 s) && nle (fsq_inv s) (res1 s) then (0, save_backup s)
      else if ((10 <? iter2 s - iter1 s)
               && (nlt (nmul (nZ 1000) (res0 s)) (fsq s)
                   || nlt (nmul (nZ 1000) (res1 s)) (fsq_inv s)))
              || slow_progress s
      then (1, gentle s)
      else (0, s)
  | Vmec852 =>
      let s := if (iter2 s =? iter1 s) || neq (res0 s) (nZ (-1)) then set_res0 (fsq s) s else s in
      let s := set_res0 (nmin (res0 s) (fsq s)) s in
      let blew_up := nlt (nmul (nZ 100) (res0 s)) (fsq s) && (iter1 s <? iter2 s) in
      if rr_eqb (reason s) BAD_JACOBIAN || blew_up then
        let s := restore_backup s in
        (1, set_iter1 (iter2 s) (set_ijacob (ijacob s + 1) (set_delt0r (nmul (delt0r s) (nfrac 9 10)) s)))
      else if nle (fsq s) (res0 s) && (10 <? iter2 s - iter1 s) then (0, save_backup s)
      else if slow_progress s then (1, gentle s)
      else (0, s)
  end.

(** What ended the inner loop. *)
Inductive inner_result : Type :=
| IRaise (s : st)               (* an exception left the function *)
| IConverged (s : st)
| IReguess (s : st)             (* break; re-initialise at the next entry *)
| IEscalate (s : st)            (* break; retry without re-initialising *)
| IFailed (s : st)
| IExhausted (s : st).

(** The inner loop, _iteration.py:257-502; structural argument as in LoopModel. *)
Fixpoint inner (fuel : nat) (force_iteration bad_resets : Z) (s : st) : inner_result :=
  match fuel with
  | O => IExhausted s
  | S k =>
      if negb (force_iteration <=? c_niterv c) then IExhausted s
      else
        let s := set_iter2 (force_iteration - bad_resets) s in
        match evaluate s with
        | inl s => IRaise s
        | inr s =>
            if negb (bad_status s) && nle (fsqr s) (c_ftolv c) && nle (fsqz s) (c_ftolv c)
               && nle (fsql s) (c_ftolv c) then IConverged s
            else
              match (if bad_status s then inr s else damped_step s) with
              | inl s => IRaise s
              | inr s' =>
                  if (ijacob s' =? 0)
                     && (bad_status s || rr_eqb (reason s') HUGE_INITIAL_FORCES)
                     && (3 <=? c_ns c) then IReguess (set_ijacob 1 s')
                  else if bad_status s then IFailed s'
                  else if (ijacob s' =? 25) || (ijacob s' =? 50) then
                    let s' := restore_backup s' in
                    let s' := set_iter1 (iter2 s') (set_ijacob (ijacob s' + 1) s') in
                    IEscalate (set_delt0r (nmul (if ijacob s' <? 50 then nfrac 98 100 else nfrac 96 100) (c_delt c)) s')
                  else if 75 <=? ijacob s' then IFailed s'
                  else
                    let '(b, s') := control s' in
                    inner k (force_iteration + 1) (bad_resets + b) s'
              end
        end
  end.

(** Result of the function. *)
Inductive py_result : Type :=
| PyRaise (s : st)
| PyReturn (converged failed : bool) (s : st).

(** The outer retry loop, _iteration.py:230-257; [pending]: the state must be
    re-initialised at entry. *)
Fixpoint outer (fuel : nat) (pending : bool) (s : st) : py_result :=
  match fuel with
  | O => PyReturn false false s
  | S k =>
      let s := if pending then save_backup (reinitialize s) else s in
      match inner (Z.to_nat (c_niterv c - iter2 s + 1)) (iter2 s) 0 s with
      | IRaise s => PyRaise s
      | IConverged s => PyReturn true false s
      | IReguess s => outer k true s
      | IEscalate s => outer k false s
      | IFailed s => PyReturn false true s
      | IExhausted s => PyReturn false false s
      end
  end.

(** [solve_equilibrium]: the locals at entry, _iteration.py:206-222; the model is
    freshly initialised. *)
Definition py_solve (s : st) : py_result :=
  let s := set_delt0r (c_delt c) (set_invtau (repeat (nZ 0) kNDamp) (set_fsq (nZ 1) s)) in
  let s := set_res0 (nZ (-1)) (set_res1 (nZ (-1)) s) in
  let s := set_iter1 1 (set_iter2 1 (set_ijacob 0 s)) in
  outer (Z.to_nat (c_niterv c)) false s.

End PyIter.
