(** C13, C14, C15, C52: multigrid runs. *)
From Coq Require Import ZArith List Bool Lia Reals Lra.
From Verif Require Import Base BaseLemmas Num LoopModel LoopSpec LoopCases RunModel RunSpec
  RunProofs RunCases.
Import ListNotations.
Open Scope Z_scope.

(** Accepted schedules: at least one grid is asked for and the first has at least
    three surfaces (IsConsistent, vmec_indata.cc). *)
Definition accepted {K : num} (i : @rin K) : Prop :=
  1 <= r_maxgrid i /\ r_ns i <> [] /\ 3 <= nth 0 (r_ns i) 0.

(** C13.  For every schedule, every behaviour of the forward model and every
    state the solver object is in: a stage that fails hard is the last one of the
    run, and outputs are returned only if the last stage converged or the caller
    asked for outputs of unconverged runs. *)
Theorem C13_run_outcome :
  forall (K : num) (G V F : Type) (i : @rin K) (E : @renv K G V F) s,
    accepted i ->
    only_last_fails (stages (run_state (run i E s))) /\
    match run i E s with
    | RunOk r => r_retout i = true \/ last_converged (stages r)
    | _ => True
    end.
Proof.
  intros K G V F i E s (A & B & C). destruct (run_spec i E s A B C) as (_ & H1 & _ & H2).
  split; [exact H1|exact H2].
Qed.
Print Assumptions C13_run_outcome.

(** Instances: two converging stages; a first stage that fails; the same with
    outputs requested anyway. *)
Example C13_instance :
  accepted (rc_in [5; 11] false false) /\
  rc_view (run (rc_in [5; 11] false false) (rc_env lc_relax (fun _ => false)) rc_fresh)
    = (2, [(1, 11, OStatus ST_SUCCESS); (0, 5, OStatus ST_SUCCESS)]) /\
  rc_view (run (rc_in [5; 11] false false) (rc_env (fun _ => lc_bad) (fun _ => false)) rc_fresh)
    = (1, [(0, 5, OError)]) /\
  rc_view (run (rc_in [5; 11] true false) (rc_env (fun _ => lc_bad) (fun _ => false)) rc_fresh)
    = (2, [(0, 5, OStatus ST_BAD_JACOBIAN)]).
Proof.
  split; [split; [vm_compute; discriminate|split; [discriminate|vm_compute; discriminate]]|].
  split; [vm_compute; reflexivity|]. split; vm_compute; reflexivity.
Qed.

(** C14 is false: a run whose first stage ends with a bad Jacobian, and that is
    the whole run. *)
Theorem C14_retry_refuted :
  exists (i : @rin num_f64) (E : @renv num_f64 num_f64 unit unit) s,
    accepted i /\
    returned_outputs (run i E s) = true /\
    map (fun e => (l_grid e, l_ns e, l_out e)) (stages (run_state (run i E s)))
      = [(0, 5, OStatus ST_BAD_JACOBIAN)].
Proof.
  exists (rc_in [5; 11] true false), (rc_env (fun _ => lc_bad) (fun _ => false)), rc_fresh.
  split; [split; [vm_compute; discriminate|split; [discriminate|vm_compute; discriminate]]|].
  split; vm_compute; reflexivity.
Qed.
Print Assumptions C14_retry_refuted.

(** More: no run ever inserts a stage; every stage that is run is an entry of the
    user's schedule with its own tolerance. *)
Theorem C14_no_inserted_stage :
  forall (K : num) (G V F : Type) (i : @rin K) (E : @renv K G V F) s,
    accepted i ->
    stages (run_state (run i E s)) <> [] /\
    Forall (fun e => 0 <= l_grid e < max_grids i /\ l_ns e = nth (Z.to_nat (l_grid e)) (r_ns i) 0 /\
                     l_ftol e = nth (Z.to_nat (l_grid e)) (r_ftol i) (nZ 0))
      (stages (run_state (run i E s))).
Proof.
  intros K G V F i E s (A & B & C). destruct (run_spec i E s A B C) as (H0 & _ & H1 & _).
  split; [exact H1|exact H0].
Qed.
Print Assumptions C14_no_inserted_stage.

(** Non-decreasing schedules, as the input check demands. *)
Definition non_decreasing (l : list Z) : Prop :=
  forall a b, 0 <= a <= b -> b < Z.of_nat (length l) ->
    nth (Z.to_nat a) l 0 <= nth (Z.to_nat b) l 0.

(** C15, exact: for every accepted schedule each stage has the lambda scale
    sqrt(rmsPhiP / (ns - 1)) unless its number of surfaces repeats the one before,
    in which case it is zero. *)
Theorem C15_lambda_scale_partial :
  forall (K : num) (G V F : Type) (i : @rin K) (E : @renv K G V F) s,
    accepted i -> non_decreasing (r_ns i) ->
    Forall (fun e => l_lam e =
        if (0 <? l_grid e) && (nth (Z.to_nat (l_grid e)) (r_ns i) 0 =?
                               nth (Z.to_nat (l_grid e - 1)) (r_ns i) 0)
        then nZ 0
        else e_sqrt E (nmul (e_rms E (l_ns e)) (ndiv (nZ 1) (nsub (nZ (l_ns e)) (nZ 1)))))
      (stages (run_state (run i E s))).
Proof.
  intros K G V F i E s (A & B & C) D.
  pose proof (run_lam i E s A B C D) as H1.
  destruct (run_spec i E s A B C) as (H0 & _).
  unfold scaled in H1. unfold users in H0.
  rewrite Forall_forall in H0, H1 |- *.
  intros e He. specialize (H0 e He). specialize (H1 e He).
  destruct H0 as (G0 & N0 & _). rewrite H1. unfold prev_ns.
  destruct (Z.eqb_spec (l_grid e) 0) as [Z0|Z0].
  - destruct (Z.ltb_spec 0 (l_grid e)); [lia|]. cbn [andb].
    rewrite N0, Z0. destruct (Z.eqb_spec (nth (Z.to_nat 0) (r_ns i) 0) 0) as [Q|Q]; [|reflexivity].
    change (Z.to_nat 0) with 0%nat in Q. lia.
  - destruct (Z.ltb_spec 0 (l_grid e)); [|lia]. cbn [andb]. rewrite <- N0. reflexivity.
Qed.
Print Assumptions C15_lambda_scale_partial.

(** In exact arithmetic the scale is positive for strictly increasing schedules
    whenever the flux profile is not identically zero. *)
Theorem C15_lambda_scale_positive_partial :
  forall (G V F : Type) (i : @rin num_R) (E : @renv num_R G V F) (s : @st num_R G V F),
    accepted i ->
    (forall a b, 0 <= a < b -> b < Z.of_nat (length (r_ns i)) ->
       nth (Z.to_nat a) (r_ns i) 0 < nth (Z.to_nat b) (r_ns i) 0) ->
    (forall x : R, e_sqrt E x = sqrt x) -> (forall ns, (0 < (e_rms E ns : R))%R) ->
    Forall (fun e : @stage_log num_R => (0 < (l_lam e : R))%R) (stages (run_state (run i E s))).
Proof.
  intros G V F i E s A D HS HP.
  assert (ND : non_decreasing (r_ns i)).
  { intros a b H1 H2. destruct (Z.eq_dec a b) as [-> | N]; [lia|].
    apply Z.lt_le_incl, D; lia. }
  pose proof (C15_lambda_scale_partial _ _ _ _ i E s A ND) as H1.
  destruct A as (A & B & C).
  destruct (run_spec i E s A B C) as (H0 & _).
  unfold users in H0. rewrite Forall_forall in H0, H1 |- *.
  intros e He. specialize (H0 e He). specialize (H1 e He).
  destruct H0 as (G0 & N0 & _).
  assert (3 <= l_ns e /\ ((0 <? l_grid e) && (nth (Z.to_nat (l_grid e)) (r_ns i) 0 =?
                               nth (Z.to_nat (l_grid e - 1)) (r_ns i) 0)) = false) as (NS & EQ).
  { rewrite N0. destruct (Z.ltb_spec 0 (l_grid e)); cbn [andb].
    - destruct (Z_lt_le_dec (l_grid e) (Z.of_nat (length (r_ns i)))) as [LT|LE].
      + pose proof (D (l_grid e - 1) (l_grid e) ltac:(lia) LT).
        pose proof (D 0 (l_grid e) ltac:(lia) LT).
        change (Z.to_nat 0) with 0%nat in *. split; [lia|apply Z.eqb_neq; lia].
      + exfalso. unfold max_grids in G0. lia.
    - split; [|reflexivity]. replace (l_grid e) with 0 by lia. exact C. }
  rewrite EQ in H1. rewrite H1, HS. apply sqrt_lt_R0.
  apply Rmult_lt_0_compat; [apply HP|].
  apply (Rdiv_lt_0_compat 1). lra. change (0 < IZR (l_ns e) - 1)%R.
  apply IZR_le in NS. lra.
Qed.
Print Assumptions C15_lambda_scale_positive_partial.

Example C15_instance :
  accepted (rc_in [5; 11; 25] false false) /\
  map (fun e => (l_grid e, l_ns e))
      (stages (run_state (run (rc_in [5; 11; 25] false false)
                              (rc_env lc_relax (fun _ => false)) rc_fresh)))
    = [(2, 25); (1, 11); (0, 5)] /\
  Forall (fun l => l = (nZ 1 : num_f64))
    (map l_lam (stages (run_state (run (rc_in [5; 11; 25] false false)
                              (rc_env lc_relax (fun _ => false)) rc_fresh)))).
Proof.
  split; [split; [vm_compute; discriminate|split; [discriminate|vm_compute; discriminate]]|].
  split; [vm_compute; reflexivity|]. vm_compute. repeat constructor.
Qed.

(** C15 is false as stated: the schedule [5; 5; 11] is accepted, and its second
    stage converges with lambda scale zero although the flux profile is not
    zero. *)
Theorem C15_lambda_scale_refuted :
  exists (i : @rin num_f64) (E : @renv num_f64 num_f64 unit unit) s,
    accepted i /\ r_ns i = [5; 5; 11] /\
    (forall ns, e_rms E ns = nZ (ns - 1)) /\
    map (fun e => (l_grid e, l_ns e, l_out e, neq (l_lam e) (nZ 0)))
        (stages (run_state (run i E s)))
    = [(2, 11, OStatus ST_SUCCESS, false); (1, 5, OStatus ST_SUCCESS, true);
       (0, 5, OStatus ST_SUCCESS, false)].
Proof.
  exists (rc_in [5; 5; 11] false false), (rc_env lc_relax (fun _ => false)), rc_fresh.
  split; [split; [vm_compute; discriminate|split; [discriminate|vm_compute; discriminate]]|].
  split; [reflexivity|]. split; [reflexivity|]. vm_compute. reflexivity.
Qed.
Print Assumptions C15_lambda_scale_refuted.

(** C52: once a run was interrupted, every later run of the same solver object is
    reported as cancelled after its first stage, whatever the callback answers. *)
Theorem C52_interrupt_is_permanent :
  forall (K : num) (G V F : Type) (i : @rin K) (E : @renv K G V F) s,
    accepted i -> interrupted s = true ->
    exists r, run i E s = RunCancelled r /\ interrupted (sol r) = true /\
              length (stages r) = 1%nat.
Proof.
  intros K G V F i E s (A & B & C) H. exact (run_interrupted i E s A B C H).
Qed.
Print Assumptions C52_interrupt_is_permanent.

(** So C52 is false: a fresh object converges on an input; an object whose first
    run was interrupted reports the same input as cancelled, although its callback
    no longer requests anything. *)
Theorem C52_rerun_after_interrupt_refuted :
  exists (i : @rin num_f64) (E1 E2 : @renv num_f64 num_f64 unit unit) s,
    accepted i /\ (forall ns l n, m_callback (e_ext E2 ns l) n = false) /\
    returned_outputs (run i E2 s) = true /\
    was_cancelled (run i E1 s) = true /\
    was_cancelled (run i E2 (sol (run_state (run i E1 s)))) = true.
Proof.
  exists (rc_in [5; 11] false true), (rc_env lc_relax (fun _ => true)),
    (rc_env lc_relax (fun _ => false)), rc_fresh.
  split; [split; [vm_compute; discriminate|split; [discriminate|vm_compute; discriminate]]|].
  split; [reflexivity|].
  split; [vm_compute; reflexivity|]. split; vm_compute; reflexivity.
Qed.
Print Assumptions C52_rerun_after_interrupt_refuted.
