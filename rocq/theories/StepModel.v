(** The time step of the iteration, the halo exchange between neighbouring
    threads, and the saving and restoring of the state vector. *)
From Coq Require Import ZArith List Bool.
From Verif Require Import Base Num PartModel OmpModel.
Import ListNotations.
Open Scope Z_scope.

Section Step.
  Context {K : num}.

  (** The data touched by the time step: [sx], [sv], [sb] are the position
      (decomposed_x_), velocity (decomposed_v_) and backup (physical_x_backup_)
      of every thread, indexed by thread, coefficient set and flat index;
      [so], [si] are the members ..._o, ..._i of HandoverStorage
      (vmec/handover_storage/handover_storage.h), indexed by thread,
      coefficient set and mode. *)
  Record state := mk_state {
    sx : Z -> Z -> Z -> K;
    sv : Z -> Z -> Z -> K;
    sb : Z -> Z -> Z -> K;
    so : Z -> Z -> Z -> K;
    si : Z -> Z -> Z -> K
  }.

  (** The coefficient sets present, in the order in which vmec.cc:1534-1630
      treats them: 0,1,2 = rmncc, zmnsc, lmnsc; 3,4,5 = rmnss, zmncs, lmncs;
      6,7,8 = rmnsc, zmncc, lmncc; 9,10,11 = rmncs, zmnss, lmnss. *)
  Definition coef_sets (lthreed lasym : bool) : list Z :=
    [0; 1; 2] ++ (if lthreed then [3; 4; 5] else [])
    ++ (if lasym then [6; 7; 8] ++ (if lthreed then [9; 10; 11] else []) else []).

  Context (mpol ntor : Z) (sets : list Z).

  (** Sizes::mnsize, common/sizes/sizes.cc: mpol * (ntor + 1). *)
  Definition mnsize : Z := mpol * (ntor + 1).

  (** The double loop of vmec.cc:1534-1630 for one thread: velocities first,
      then positions, for every coefficient set. [x], [v], [f] are the arrays
      of this thread. *)
  Definition evolve_local (r : rpart) (fac b1 dt : K) (f : Z -> Z -> K)
      (xv : (Z -> Z -> K) * (Z -> Z -> K)) : (Z -> Z -> K) * (Z -> Z -> K) :=
    for_up (nsMinF r) (nsMaxFIncludingLcfs r) (fun jF xv =>
      for_up 0 mpol (fun m xv =>
        for_up 0 (ntor + 1) (fun n xv =>
          let idx_mn := ((jF - nsMinF r) * mpol + m) * (ntor + 1) + n in
          let idx_mn1 := ((jF - nsMinF1 r) * mpol + m) * (ntor + 1) + n in
          let v' := fold_left (fun v q =>
            upd2 v q idx_mn (nmul fac (nadd (nmul b1 (v q idx_mn)) (nmul dt (f q idx_mn)))))
            sets (snd xv) in
          let x' := fold_left (fun x q =>
            upd2 x q idx_mn1 (nadd (x q idx_mn1) (nmul dt (v' q idx_mn))))
            sets (fst xv) in
          (x', v')) xv) xv) xv.

  (** Copy one surface of local index [k] of [x] into a handover row
      (vmec.cc:1640-1717). Simplification: one loop over the coefficient sets
      around the loop over modes, instead of one loop over modes per group of
      three sets. *)
  Definition put_row (x row : Z -> Z -> K) (k : Z) : Z -> Z -> K :=
    fold_left (fun row q => for_up 0 mnsize (fun mn row =>
      upd2 row q mn (x q (k * mnsize + mn))) row) sets row.

  (** Copy a handover row into the surface of local index [k]
      (vmec.cc:1726-1792). Same simplification. *)
  Definition get_row (row x : Z -> Z -> K) (k : Z) : Z -> Z -> K :=
    fold_left (fun x q => for_up 0 mnsize (fun mn x =>
      upd2 x q (k * mnsize + mn) (row q mn)) x) sets x.

  Context (ns : Z) (part : Z -> rpart).

  (** vmec.cc:1634-1635. *)
  Definition hasInside (r : rpart) : bool := nsMinF1 r >? 0.
  Definition hasOutside (r : rpart) : bool := nsMaxF1 r <? ns.

  Definition do_evolve (fac b1 dt : K) (f : Z -> Z -> Z -> K) (t : Z) (s : state) : state :=
    let xv := evolve_local (part t) fac b1 dt (f t) (sx s t, sv s t) in
    mk_state (upd (sx s) t (fst xv)) (upd (sv s) t (snd xv)) (sb s) (so s) (si s).

  (** vmec.cc:1639-1677. *)
  Definition do_put_o (t : Z) (s : state) : state :=
    let r := part t in
    if hasInside r then
      mk_state (sx s) (sv s) (sb s)
        (upd (so s) (t - 1) (put_row (sx s t) (so s (t - 1)) (nsMinF r - nsMinF1 r)))
        (si s)
    else s.

  (** vmec.cc:1679-1717. *)
  Definition do_put_i (t : Z) (s : state) : state :=
    let r := part t in
    if hasOutside r then
      mk_state (sx s) (sv s) (sb s) (so s)
        (upd (si s) (t + 1) (put_row (sx s t) (si s (t + 1)) (nsMaxF r - 1 - nsMinF1 r)))
    else s.

  (** vmec.cc:1726-1757. *)
  Definition do_get_o (t : Z) (s : state) : state :=
    let r := part t in
    if hasOutside r then
      mk_state (upd (sx s) t (get_row (so s t) (sx s t) (nsMaxF1 r - 1 - nsMinF1 r)))
        (sv s) (sb s) (so s) (si s)
    else s.

  (** vmec.cc:1759-1792. *)
  Definition do_get_i (t : Z) (s : state) : state :=
    let r := part t in
    if hasInside r then
      mk_state (upd (sx s) t (get_row (si s t) (sx s t) (nsMinF1 r - nsMinF1 r)))
        (sv s) (sb s) (so s) (si s)
    else s.

  (** Vmec::PerformTimeStep and Vmec::performTimeStep, vmec.cc:1500-1797. *)
  Definition step_prog (fac b1 dt : K) (f : Z -> Z -> Z -> K) : list (instr state) :=
    [IBarrier; ICritical (do_evolve fac b1 dt f); ICritical do_put_o; ICritical do_put_i;
     IBarrier; ICritical do_get_o; ICritical do_get_i; IBarrier; IBarrier].

  (** The branches of Vmec::RestartIteration, vmec.cc:1239-1305: restore (lines
      1244-1295; BAD_JACOBIAN and BAD_PROGRESS treat the state vector alike)
      and save (1295-1301).
      Simplification: the scalar bookkeeping in the [omp single] blocks is
      modelled in LoopModel.v. *)
  Definition do_restore (t : Z) (s : state) : state :=
    mk_state (upd (sx s) t (sb s t)) (upd (sv s) t (fun _ _ => nZ 0)) (sb s) (so s) (si s).
  Definition do_save (t : Z) (s : state) : state :=
    mk_state (sx s) (sv s) (upd (sb s) t (sx s t)) (so s) (si s).

  Definition restore_prog : list (instr state) := [IBarrier; ICritical do_restore; IBarrier; IBarrier].
  Definition save_prog : list (instr state) := [IBarrier; ICritical do_save; IBarrier].

  (** What the iteration does to the state vector: time steps with arbitrary
      forces and damping, saves and restores in any order. *)
  Inductive event :=
  | EStep (fac b1 dt : K) (f : Z -> Z -> Z -> K)
  | ESave
  | ERestore.

  Definition event_prog (e : event) : list (instr state) :=
    match e with
    | EStep fac b1 dt f => step_prog fac b1 dt f
    | ESave => save_prog
    | ERestore => restore_prog
    end.

  Definition events_prog (l : list event) : list (instr state) := flat_map event_prog l.
End Step.
