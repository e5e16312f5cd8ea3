(** C134: output quantities saved to an HDF5 file and loaded again are the same. *)
From Coq Require Import ZArith List Bool String.
From Verif Require Import HdfModel HdfData HdfSpec HdfProofs HdfCase.
Import ListNotations.
Open Scope string_scope.

(** If the numbers of modes differ from the number of surfaces and coil currents are
    given only with a free boundary, saving succeeds, loading succeeds, and every member
    of every part is restored, except eleven members of wout, which keep the value they
    had in the object before loading. *)
Theorem C134_roundtrip A zero stod x y0 ns mn mnq :
  no_strings A x -> shaped A (x "/wout") ns mn mnq -> mn <> ns -> mnq <> ns -> currents_ok A (x "/wout") ->
  exists f, save A parts x [] [] = Some f /\
    forall p ms, In (p, ms) (combine parts members_of) -> exists y, load A zero stod f y0 p = Some y /\
      (key p <> "/wout" -> same A ms (x (key p)) y) /\
      (key p = "/wout" -> (forall n, In n ms -> ~ In n lost -> y n = x (key p) n) /\ (forall n, In n lost -> y n = y0 (key p) n)).
Proof. exact (roundtrip_members A zero stod x y0 ns mn mnq). Qed.
Print Assumptions C134_roundtrip.

(** False without these restrictions: with as many modes as surfaces the loaded geometry
    or field spectra are transposed, coil currents of a fixed-boundary run are dropped,
    and the force residuals are lost. *)
Theorem C134_refuted :
  (entry (Some (w 11 11 15 false [] "rmnc")) 2 3 = 203%Z /\ entry (reload (w 11 11 15 false []) (fun _ => VInt Z 0) "rmnc") 2 3 = 302%Z) /\
  (entry (Some (w 15 11 15 false [] "bmnc")) 2 3 = 2003%Z /\ entry (reload (w 15 11 15 false []) (fun _ => VInt Z 0) "bmnc") 2 3 = 3002%Z) /\
  (w 25 11 15 false [3; 4]%Z "extcur" = VVec Z [3; 4]%Z /\ reload (w 25 11 15 false [3; 4]%Z) (fun _ => VInt Z 0) "extcur" = Some (VVec Z [])) /\
  (w 25 11 15 true [3; 4]%Z "fsqt" = VVec Z [7; 5]%Z /\ reload (w 25 11 15 true [3; 4]%Z) (fun _ => VVec Z []) "fsqt" = Some (VVec Z [])).
Proof. exact (conj refuted_square (conj refuted_square_nyq (conj refuted_currents refuted_lost))). Qed.
Print Assumptions C134_refuted.

(** Case: free boundary, 25 surfaces, 11 modes, 15 modes of the fields. *)
Theorem C134_case : no_strings Z (quantities (w 25 11 15 true [3; 4]%Z)) /\ shaped Z (quantities (w 25 11 15 true [3; 4]%Z) "/wout") 25 11 15 /\
  currents_ok Z (quantities (w 25 11 15 true [3; 4]%Z) "/wout").
Proof. exact case_hyps. Qed.
Print Assumptions C134_case.
