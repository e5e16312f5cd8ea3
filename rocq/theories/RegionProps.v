(** C45: no thread can leave a force evaluation alone. *)
From Coq Require Import ZArith List Bool Lia.
From Verif Require Import Base BaseLemmas Num TeamModel TeamProofs PartModel RegionModel RegionProofs.
Import ListNotations.
Open Scope Z_scope.

(** What is asked of a team of [T] threads at any moment of any execution. *)
Definition in_step {K : num} (prog : Z -> list (instr (val K))) (T : Z) (c : config (val K)) : Prop :=
  (* threads that wait for their n-th barrier wait at the same barrier of the program *)
  (forall t t' q q', 0 <= t < T -> 0 <= t' < T -> nb (th c t) = nb (th c t') ->
     code (th c t) = Bar :: q -> code (th c t') = Bar :: q' -> q = q') /\
  (* no thread is more than one barrier ahead of another *)
  (forall t t', 0 <= t < T -> 0 <= t' < T -> (nb (th c t) <= S (nb (th c t')))%nat) /\
  (* some thread can go on, or all have left the region, after the same number
     of barriers, with the same status: 1 normal, 2 checkpoint, 3 error *)
  ((exists t c', 0 <= t < T /\ fire prog T c t = Some c') \/
   (forall t t', 0 <= t < T -> 0 <= t' < T ->
      ended (th c t) /\ nb (th c t) = nb (th c t') /\
      pv (th c t) pS = pv (th c t') pS /\ pv (th c t) pRc = pv (th c t') pRc)).

(** The geometry met by the n-th evaluation: [ru n jF kl], [zu n jF kl]. *)
Definition fails_from {K : num} (nZnT nThetaEff : Z) (wInt : Z -> K) (ru zu : nat -> Z -> Z -> K) (r : Z -> rpart)
  (t : Z) (n : nat) : bool :=
  constraintForceMultiplier_fails nZnT nThetaEff wInt (ru n) (zu n) (r t).

(** The property as worded is false (below); it holds in every execution in
    which no surface is met with dR/dtheta = 0 or dZ/dtheta = 0 at all its
    points.  Any arithmetic, settings, number of threads, order of the threads,
    residuals, Jacobians, currents, interrupts. *)
Theorem C45_threads_in_step_partial :
  forall (K : num) (S : settings K) (w : world K) (T : Z) nZnT nThetaEff (wInt : Z -> K) (ru zu : nat -> Z -> Z -> K) (r : Z -> rpart) s0 p0 c,
    1 <= T ->
    (forall t n, fails w t n = fails_from nZnT nThetaEff wInt ru zu r t n) ->
    (forall n jF, 1 <= jF ->
       neq (surface_norm nZnT nThetaEff wInt (ru n) jF) (nZ 0) = false /\
       neq (surface_norm nZnT nThetaEff wInt (zu n) jF) (nZ 0) = false) ->
    (forall t, 0 <= nsMinF (r t)) ->
    runs (region S w T) T (starts (region S w T L0) s0 p0) c ->
    in_step (region S w T) T c.
Proof. exact @region_in_step_geometry. Qed.
Print Assumptions C45_threads_in_step_partial.

(** More generally, whenever the threads agree on the outcome of
    constraintForceMultiplier. *)
Theorem C45_threads_in_step_if_agreed_partial :
  forall (K : num) (S : settings K) (w : world K) (T : Z) s0 p0 c,
    1 <= T -> (forall t t' n, fails w t n = fails w t' n) ->
    runs (region S w T) T (starts (region S w T L0) s0 p0) c ->
    in_step (region S w T) T c.
Proof. exact @region_in_step. Qed.
Print Assumptions C45_threads_in_step_if_agreed_partial.

(** Five surfaces on two threads; R does not depend on theta on the third
    surface, which belongs to the second thread: that thread leaves the region
    with an error while the first waits for it for ever, inside the force
    evaluation. *)
Theorem C45_no_thread_leaves_alone_refuted :
  exists (S : settings num_f64) (w : world num_f64) (ru zu : nat -> Z -> Z -> num_f64) (r : Z -> rpart) s0 p0 c,
    (forall t, 0 <= t < 2 -> adjustRadialPartitioning 2 t 5 false = Some (r t)) /\
    (forall t n, fails w t n = fails_from 4 4 (fun _ => nZ 1 : num_f64) ru zu r t n) /\
    (* only one surface is degenerate *)
    (forall n jF, 1 <= jF -> jF <> 3 -> neq (surface_norm 4 4 (fun _ => nZ 1 : num_f64) (ru n) jF) (nZ 0) = false) /\
    (forall n jF, neq (surface_norm 4 4 (fun _ => nZ 1 : num_f64) (zu n) jF) (nZ 0) = false) /\
    runs (region S w 2) 2 (starts (region S w 2 L0) s0 p0) c /\
    fire (region S w 2) 2 c 0 = None /\ fire (region S w 2) 2 c 1 = None /\
    ended (th c 1) /\ pv (th c 1) pS = VI 3 /\
    ~ ended (th c 0) /\ pv (th c 0) pRc <> VI 2 /\ ~ in_step (region S w 2) 2 c.
Proof. exact region_deadlock. Qed.
Print Assumptions C45_no_thread_leaves_alone_refuted.

(** A case of the first theorem: two threads run a whole iteration and stop,
    converged. *)
Example C45_case : exists (S : settings num_f64) (w : world num_f64) s0 p0 c,
  (forall t t' n, fails w t n = fails w t' n) /\
  runs (region S w 2) 2 (starts (region S w 2 L0) s0 p0) c /\
  ended (th c 0) /\ ended (th c 1) /\ (20 < nb (th c 0))%nat /\ pv (th c 0) pS = VI 1.
Proof. exact region_normal_run. Qed.
