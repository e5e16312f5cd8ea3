(** Property theorems C129 (the SIMSOPT wrapper never reports stale results), C130
    (its file names) and C131 (its scalar results). *)
From Coq Require Import ZArith List Bool String Reals.
From Verif Require Import SimsModel SimsSpec SimsProofs SimsNames SimsGridModel SimsGridProofs.
Import ListNotations.

(** C129: after any sequence of changes of the degrees of freedom, the boundary, the
    resolution, of runs, reads and failed runs, a result is that of the solver for the
    current situation, whatever was run before; it raises if and only if that run
    fails. *)
Theorem C129_current (K O Q W X : Type) (k0 : K) solve (wout_of : Q -> W) resize (f : W -> X) (vi : @indata K O) (file : string) (keep : bool) (ops : list op) :
  axis_ok vi -> resize_ok resize -> Forall plain ops -> keep = false \/ make_wout_filename file <> None ->
  snd (access k0 solve wout_of f (steps k0 solve wout_of resize ops (init k0 file keep vi))) =
  option_map (fun q => f (wout_of q)) (solve (want k0 vi (situation_after k0 vi ops)) None).
Proof. exact (current k0 solve wout_of resize f vi file keep ops). Qed.
Print Assumptions C129_current.

(** C129, input files: get_input and write_input give the same input. *)
Theorem C129_input_written (K O Q W : Type) (k0 : K) solve (wout_of : Q -> W) resize (vi : @indata K O) (file : string) (keep : bool) (ops : list op) :
  axis_ok vi -> resize_ok resize -> Forall plain ops ->
  snd (get_input k0 (steps k0 solve wout_of resize ops (init k0 file keep vi))) = Some (want k0 vi (situation_after k0 vi ops)).
Proof. exact (input_written k0 solve wout_of resize vi file keep ops). Qed.
Print Assumptions C129_input_written.

(** C129, reads are free: they do not call the solver again. *)
Theorem C129_no_rerun (K O Q W : Type) (k0 : K) solve (wout_of : Q -> W) resize (ops : list (@op K O Q)) v :
  Forall reading ops -> v_need v = false ->
  let v' := steps k0 solve wout_of resize ops v in v_calls v' = v_calls v /\ v_wout v' = v_wout v /\ v_need v' = false.
Proof. exact (no_rerun k0 solve wout_of resize ops v). Qed.
Print Assumptions C129_no_rerun.

(** C129, hot restart: one call, with the last step of the multi-grid sequence only;
    the object's own input keeps all steps. *)
Theorem C129_hot_restart (K O Q W : Type) (k0 : K) solve (wout_of : Q -> W) resize (vi : @indata K O) (file : string) (keep : bool) (ops : list op) (r : Q) :
  axis_ok vi -> resize_ok resize -> Forall plain ops ->
  let v := steps k0 solve wout_of resize ops (init k0 file keep vi) in let w := want k0 vi (situation_after k0 vi ops) in
  let v' := run k0 solve wout_of (Some r) v in
  v_need v = true ->
  v_calls (fst v') = (restart_indata w, Some r) :: v_calls v /\ v_indata (fst v') = w /\
  (solve (restart_indata w) (Some r) = None -> snd v' = ObjectiveFailure) /\
  (forall q, solve (restart_indata w) (Some r) = Some q -> v_wout (fst v') = Some (wout_of q)).
Proof. exact (hot_restart k0 solve wout_of resize vi file keep ops r). Qed.
Print Assumptions C129_hot_restart.
Theorem C129_last_step (K O : Type) (vi : @indata K O) :
  last_only (i_ns vi) (i_ns (restart_indata vi)) /\ last_only (i_ftol vi) (i_ftol (restart_indata vi)) /\ last_only (i_niter vi) (i_niter (restart_indata vi)).
Proof. exact (conj (last1_last (i_ns vi)) (conj (last1_last (i_ftol vi)) (last1_last (i_niter vi)))). Qed.
Print Assumptions C129_last_step.

(** C129, objects from a result file: never a solver call; the loaded data, or an
    exception once something was changed. *)
Theorem C129_wout_object (K O Q W X : Type) (k0 : K) solve (wout_of : Q -> W) resize (f : W -> X) (file : string) (keep : bool) (vi : @indata K O) b w (ops : list op) :
  Forall (fun o => plain o \/ exists r, o = OpRun (Some r)) ops ->
  let v := steps k0 solve wout_of resize ops (init_wout file keep vi b w) in
  v_calls v = [] /\ v_wout v = Some w /\
  snd (access k0 solve wout_of f v) = if existsb (fun o => match o with OpDofs _ | OpSurface _ | OpReplace _ | OpMpolNtor _ _ => true | _ => false end) ops then None else Some (f w).
Proof. exact (wout_object k0 solve wout_of resize f file keep vi b w ops). Qed.
Print Assumptions C129_wout_object.

(** C129 does not extend to assignments to fields of vmec.indata: the result is stale. *)
Theorem C129_edit_refuted : exists (ops : list (@op Z unit (Z * Z))),
  let v := steps 0%Z solve0 (fun q => q) resize0 ops (init 0%Z "input.x" false in0) in
  snd (access 0%Z solve0 (fun q => q) fst v) <> option_map fst (solve0 (v_indata v) None).
Proof. exact edit_refuted. Qed.
Print Assumptions C129_edit_refuted.

(** Case: seven operations with a change of resolution and of the surface; three calls
    of the solver. *)
Theorem C129_case : axis_ok in0 /\ resize_ok resize0 /\ Forall plain ops0 /\ accepts_input "input.x" = true /\ make_wout_filename "input.x" = Some "wout_x.nc"%string /\
  snd (access 0%Z solve0 (fun q => q) (fun q => q) (steps 0%Z solve0 (fun q => q) resize0 ops0 (init 0%Z "input.x" true in0))) = Some (4%Z, 0%Z) /\
  i_rbc (want 0%Z in0 (situation_after 0%Z in0 ops0)) = [[0%Z; 9%Z; 0%Z]; [0%Z; 0%Z; 0%Z]] /\
  List.length (v_calls (steps 0%Z solve0 (fun q => q) resize0 ops0 (init 0%Z "input.x" true in0))) = 3%nat.
Proof. exact case0. Qed.
Print Assumptions C129_case.

(** C130, rules: input.foo, foo.json and input.foo.json give wout_foo.nc for any foo. *)
Theorem C130_both (foo : string) : make_wout_filename ("input." ++ foo ++ ".json") = Some ("wout_" ++ foo ++ ".nc")%string.
Proof. exact (rule_both foo). Qed.
Print Assumptions C130_both.
Theorem C130_json (foo : string) : starts "input." (foo ++ ".json") = false -> make_wout_filename (foo ++ ".json") = Some ("wout_" ++ foo ++ ".nc")%string.
Proof. exact (rule_json foo). Qed.
Print Assumptions C130_json.
Theorem C130_input (foo : string) : ends ".json" ("input." ++ foo) = false -> make_wout_filename ("input." ++ foo) = Some ("wout_" ++ foo ++ ".nc")%string.
Proof. exact (rule_input foo). Qed.
Print Assumptions C130_input.

(** C130 is false for input.json, which the source's comment maps to wout_input.nc;
    different inputs can share an output file; and an accepted input file name can have
    no output name, so that the result of a completed run is lost. *)
Theorem C130_input_json_refuted : make_wout_filename "input.json" = Some "wout_.nc"%string /\ make_wout_filename "input.json" <> Some "wout_input.nc"%string.
Proof. exact input_json_refuted. Qed.
Print Assumptions C130_input_json_refuted.
Theorem C130_distinct_refuted : exists a b f, a <> b /\ accepts_input a = true /\ accepts_input b = true /\
  make_wout_filename a = Some f /\ make_wout_filename b = Some f.
Proof. exact distinct_refuted. Qed.
Print Assumptions C130_distinct_refuted.
Theorem C130_saved_refuted : exists file, accepts_input file = true /\
  let v := init 0%Z file true in0 in
  solve0 (want 0%Z in0 (at_start 0%Z in0)) None <> None /\ snd (access 0%Z solve0 (fun q => q) fst v) = None.
Proof. exact saved_refuted. Qed.
Print Assumptions C130_saved_refuted.

Open Scope R_scope.
(** C131, grids: from 0 to 1, half grid points in the middle. *)
Theorem C131_grids (ns i : nat) : (2 <= ns)%nat -> grid_ds ns = / INR (ns - 1) /\ s_full_grid ns 0 = 0 /\ s_full_grid ns (ns - 1) = 1 /\
  s_half_grid ns i = (INR i + / 2) / INR (ns - 1).
Proof. exact (grids ns i). Qed.
Print Assumptions C131_grids.
(** C131, for half-grid profiles a + b s: the mean of iota is its integral, the magnetic
    well compares dV/ds at s = 0 and s = 1, the external current is that of the edge. *)
Theorem C131_mean_iota (ns : nat) (f : nat -> R) (a b : R) : (2 <= ns)%nat -> linear_half ns f a b -> mean_iota ns f = a + b / 2.
Proof. exact (mean_lin ns f a b). Qed.
Print Assumptions C131_mean_iota.
Theorem C131_vacuum_well (ns : nat) (g : nat -> R) (a b : R) : (3 <= ns)%nat -> a <> 0 -> linear_half ns (fun i => Rabs (g i)) a b ->
  vacuum_well ns g = (a - (a + b)) / a.
Proof. exact (well_lin ns g a b). Qed.
Print Assumptions C131_vacuum_well.
Theorem C131_external_current (ns : nat) (f : nat -> R) (a b : R) : (3 <= ns)%nat -> linear_half ns f a b ->
  external_current ns f = 2 * PI * (a + b) / (4 * PI / 10 ^ 7).
Proof. exact (current_lin ns f a b). Qed.
Print Assumptions C131_external_current.
(** Case: four surfaces, half-grid values -3, -4, -5. *)
Theorem C131_case : linear_half 4 (fun i => match i with 1%nat => -3 | 2%nat => -4 | _ => -5 end) (-5 / 2) (-3).
Proof. exact case_lin. Qed.
Print Assumptions C131_case.
