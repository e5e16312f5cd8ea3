(** C137: the status code of the output tells whether and why a run failed. *)
From Coq Require Import ZArith List Bool String.
From Verif Require Import Base Num LoopModel LoopCases RunModel RunSpec RunCases FlagModel FlagProofs.
Import ListNotations.
Open Scope Z_scope.

(** For every schedule, forward model and state of the solver object: a converged run has
    flag 0, a nonzero flag means that the run did not converge and outputs were requested
    anyway, without that request the flag is 0 and the run has converged; the summary in
    the log always tells the truth. *)
Theorem C137_flag K G V F (i : @rin K) (E : @renv K G V F) s r : 1 <= r_maxgrid i /\ r_ns i <> [] /\ 3 <= nth 0 (r_ns i) 0 -> run i E s = RunOk r ->
  (last_converged (stages r) -> flag_of r = 0) /\ (r_retout i = false -> flag_of r = 0 /\ last_converged (stages r)) /\
  (flag_of r <> 0 -> r_retout i = true /\ ~ last_converged (stages r)) /\ (summary_converged r = true <-> last_converged (stages r)).
Proof. exact (flag_spec K G V F i E s r). Qed.
Print Assumptions C137_flag.

(** The nonzero flags tell how the last stage failed. *)
Theorem C137_kinds K G V F (i : @rin K) (E : @renv K G V F) s r e rest : 1 <= r_maxgrid i /\ r_ns i <> [] /\ 3 <= nth 0 (r_ns i) 0 -> run i E s = RunOk r ->
  stages r = e :: rest -> (flag_of r = 1 <-> l_out e = OStatus ST_BAD_JACOBIAN) /\ (flag_of r = 4 <-> l_out e = OStatus ST_JAC75) /\
  (flag_of r = 5 <-> l_out e = OStatus ST_UNRECOVERABLE).
Proof. exact (flag_kinds K G V F i E s r e rest). Qed.
Print Assumptions C137_kinds.

(** The claim is false: with outputs requested in any case, a run that used up its
    iterations has the same flag as a converged one. *)
Theorem C137_refuted :
  fl_view 300 = (true, 0, [OStatus ST_SUCCESS]) /\ fl_view 2 = (true, 0, [OStatus ST_NORMAL]).
Proof. exact (conj fl_long fl_short). Qed.
Print Assumptions C137_refuted.

(** The text given for the flag of every converged run says that convergence was not
    reached, the text of an unrecoverable error of the solver blames the input file, and
    no run has the flag whose text says that it converged. *)
Theorem C137_reason_refuted : reason (ier_flag ST_SUCCESS) = "no fatal error but convergence was not reached"%string /\
  reason (ier_flag ST_UNRECOVERABLE) = "input parsing error"%string /\ (forall v, reason (ier_flag v) <> "ftolv termination condition satisfied"%string).
Proof. exact reasons_wrong. Qed.
Print Assumptions C137_reason_refuted.

(** Case: the schedule of the two runs is accepted. *)
Theorem C137_case : 1 <= r_maxgrid (fl_in 300) /\ r_ns (fl_in 300) <> [] /\ 3 <= nth 0 (r_ns (fl_in 300)) 0.
Proof. exact fl_accepted. Qed.
Print Assumptions C137_case.
