(** C112: the Python input object and the solver's input carry the same data. *)
From Coq Require Import String ZArith List Bool Lia.
From Verif Require Import Base Num IndataModel IndataSpec IndataProofs PyCoefModel PyInputModel PyInputSpec PyInputProofs.
Import ListNotations.
Open Scope Z_scope.

(** Whatever the constructor accepts is consistent (arrays of the shapes which the
    final resolutions require, asymmetric ones exactly if lasym), keeps every other
    setting, and is accepted again unchanged. *)
Theorem C112_validated :
  forall (K : num) (v0 v : vmec_input K), given v0 -> validate v0 = Ok v ->
    exists mp nt, consistent v mp nt /\ same_settings (i_fields v0) (i_fields v) /\ validate v = Ok v.
Proof.
  intros K v0 v G E. destruct (validate_result v0 v G E) as (mp & nt & C & S & _).
  exists mp, nt. split; [exact C|]. split; [exact S|exact (validate_id v mp nt C)].
Qed.
Print Assumptions C112_validated.

(** The solver receives the object's data, all fields included. *)
Theorem C112_to_solver_partial :
  forall (K : num) (v : vmec_input K) mp nt, sent v mp nt -> to_cpp v = Ok (i_fields v).
Proof. intros K. exact to_cpp_ok. Qed.
Print Assumptions C112_to_solver_partial.

(** Accepted inputs whose integers fit the solver's and whose asymmetric axis, if
    any, is given. *)
Theorem C112_accepted_partial :
  forall (K : num) (v0 v : vmec_input K), given v0 -> validate v0 = Ok v ->
    ints_fit (i_fields v) -> ntor (i_fields v) < 2 ^ 30 ->
    (lasym (i_fields v0) = true -> raxis_s (i_fields v0) <> None /\ zaxis_c (i_fields v0) <> None) ->
    to_cpp v = Ok (i_fields v).
Proof. intros K. exact accepted_sent. Qed.
Print Assumptions C112_accepted_partial.

(** Python receives the solver's data. *)
Theorem C112_from_solver :
  forall (K : num) (x : indata K),
    consistent (mkInput (One (mpol x)) (One (ntor x)) x) (mpol x) (ntor x) ->
    from_cpp x = Ok (mkInput (One (mpol x)) (One (ntor x)) x).
Proof. intros K x C. exact (validate_id _ _ _ C). Qed.
Print Assumptions C112_from_solver.

(** Both round trips are the identity. *)
Theorem C112_round_trip :
  forall (K : num) (x : indata K),
    let v := mkInput (One (mpol x)) (One (ntor x)) x in
    sent v (mpol x) (ntor x) -> consistent v (mpol x) (ntor x) ->
    (exists w, from_cpp x = Ok w /\ to_cpp w = Ok x) /\ (exists y, to_cpp v = Ok y /\ from_cpp y = Ok v).
Proof.
  intros K x v S C. split.
  - exists v. split; [exact (validate_id _ _ _ C)|exact (to_cpp_ok _ _ _ S)].
  - exists x. split; [exact (to_cpp_ok _ _ _ S)|exact (validate_id _ _ _ C)].
Qed.
Print Assumptions C112_round_trip.

(** The defaults of the two sides agree. *)
Theorem C112_defaults :
  forall K : num, exists d : vmec_input K,
    default_input = Ok d /\ to_cpp d = Ok default_indata /\ from_cpp default_indata = Ok d.
Proof. intros K. exact defaults_agree. Qed.
Print Assumptions C112_defaults.

(** Refuted without the restrictions: a number of surfaces beyond 32 bits is
    accepted and silently replaced by another one ... *)
Theorem C112_refuted_wrap :
  forall K : num, exists (v0 v : vmec_input K) (x : indata K),
    given v0 /\ validate v0 = Ok v /\ to_cpp v = Ok x /\ ns_array (i_fields v) = [2 ^ 32 + 31] /\ ns_array x = [31].
Proof. intros K. exact wraps. Qed.
Print Assumptions C112_refuted_wrap.

(** ... and an asymmetric input without the asymmetric axis arrays is accepted by
    the constructor but cannot be sent. *)
Theorem C112_refuted_axis :
  forall K : num, exists v0 v : vmec_input K,
    given v0 /\ validate v0 = Ok v /\ lasym (i_fields v) = true /\ to_cpp v = Throws.
Proof. intros K. exact axis_missing. Qed.
Print Assumptions C112_refuted_axis.

(** A case: a schedule of resolutions and a boundary of smaller resolution. *)
Example C112_case : exists v,
  validate (K := num_f64) scheduled = Ok v /\ given scheduled /\ i_mpol v = Steps [4; 6] /\ i_ntor v = One 1 /\
  m_body (rbc (i_fields v)) = [[nZ 0; nZ 10; nZ 0]; [nZ 0; nZ 1; nZ 0]; [nZ 0; nZ 0; nZ 0]; [nZ 0; nZ 0; nZ 0]; [nZ 0; nZ 0; nZ 0]; [nZ 0; nZ 0; nZ 0]] /\
  to_cpp v = Ok (i_fields v).
Proof. exact scheduled_case. Qed.
