(** The status code of the output file: common/util/util.h:148-159 (VmecStatus),
    util.cc:14-17 (VmecStatusCode), vmec/output_quantities/output_quantities.cc:4414-4420
    (wout.ier_flag), src/vmecpp/__init__.py:843-855 (VmecWOut.reason), vmec.cc:437 (the
    converged entry of the run summary in the log). *)
From Coq Require Import ZArith List Bool String.
From Verif Require Import Base Num LoopModel RunModel.
Open Scope Z_scope.

Definition status_code (v : vmec_status) : Z :=
  match v with ST_NORMAL => 0 | ST_BAD_JACOBIAN => 1 | ST_JAC75 => 4 | ST_UNRECOVERABLE => 5 | ST_SUCCESS => 11 end.
(** 4414-4420 *)
Definition ier_flag (v : vmec_status) : Z := match v with ST_SUCCESS => status_code ST_NORMAL | _ => status_code v end.
(** __init__.py:843-855 *)
Definition reason (f : Z) : string :=
  if f =? 0 then "no fatal error but convergence was not reached"
  else if f =? 1 then "initially bad Jacobian"
  else if f =? 3 then "NCURR_NE_1_BLOAT_NE_1"
  else if f =? 4 then "Jacobian reset 75 times, the geometry isn't well defined"
  else if f =? 5 then "input parsing error"
  else if f =? 8 then "NS array must not be all zeroes"
  else if f =? 9 then "miscellaneous error, can happen in mgrid_mod"
  else if f =? 10 then "vacuum VMEC and ITOR mismatch"
  else if f =? 11 then "ftolv termination condition satisfied"
  else "unknown error".
(** The flag of the outputs of a run that ended in state [r] *)
Definition flag_of {K : num} {G V F : Type} (r : @rst K G V F) : Z := ier_flag (status (sol r)).
(** vmec.cc:437 *)
Definition summary_converged {K : num} {G V F : Type} (r : @rst K G V F) : bool := st_eqb (status (sol r)) ST_SUCCESS.
