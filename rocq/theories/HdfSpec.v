(** What saving and loading must preserve. *)
From Coq Require Import ZArith List Bool String.
From Verif Require Import HdfModel HdfData.
Import ListNotations.
Open Scope string_scope.
Section Spec.
Variable A : Type.
(** No part has a nonempty vector of strings (the code never fills curlabel) *)
Definition no_strings (x : string -> obj A) : Prop := forall p n, In p parts -> In n (written p) -> forall s l, x (key p) n <> VStrs A (s :: l).
(** The matrices of the wout part *)
Definition matrices : list string :=
  ["rmnc"; "zmns"; "lmns_full"; "lmns"; "gmnc"; "bmnc"; "bsubumnc"; "bsubvmnc"; "bsubsmns"; "bsupumnc"; "bsupvmnc"; "currumnc"; "currvmnc";
   "rmns"; "zmnc"; "lmnc_full"; "lmnc"; "gmns"; "bmns"; "bsubumns"; "bsubvmns"; "bsubsmnc"; "bsupumns"; "bsupvmns"; "currumns"; "currvmns"].
(** A wout part as a run produces it: matrices are absent or have one row for each of
    the [mn] or [mnq] modes and one column for each of the [ns] surfaces. *)
Record shaped (w : obj A) (ns mn mnq : Z) : Prop := {
  sh_ns : w "ns" = VInt A ns; sh_mn : w "mnmax" = VInt A mn; sh_mnq : w "mnmax_nyq" = VInt A mnq; sh_pos : (2 <= ns)%Z;
  sh_mat : forall n, In n matrices -> (exists d, w n = VMat A 0 0 d) \/ (exists r d, w n = VMat A r ns d /\ (r = mn \/ r = mnq)) }.
(** Currents are given only with a free boundary *)
Definition currents_ok (w : obj A) : Prop := w "lfreeb" = VBool A true \/ (w "lfreeb" = VBool A false /\ w "nextcur" = VInt A 0 /\ w "extcur" = VVec A []).
(** Members of wout that the file does not hold *)
Definition lost : list string :=
  ["input_extension"; "lrfp"; "itfsq"; "fsqt"; "force_residual_r"; "force_residual_z"; "force_residual_lambda"; "delbsq"; "restart_reason_timetrace"; "wdot"; "bdotb"].
(** The loaded part [y] has the members [l] of [x] *)
Definition same (l : list string) (x y : obj A) : Prop := forall n, In n l -> y n = x n.
End Spec.
