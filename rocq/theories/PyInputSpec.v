(** What a user may expect of the Python input object. *)
From Coq Require Import String ZArith List Bool.
From Verif Require Import Base Num IndataModel IndataSpec PyCoefModel PyInputModel.
Import ListNotations.
Open Scope Z_scope.

Section S.
Context {K : num}.
(** Inputs which fit the solver's types, with all arrays the symmetry requires;
    [mp], [nt] the final resolutions. *)
Definition sent (v : vmec_input K) (mp nt : Z) : Prop :=
  final_resolution (i_mpol v) = Ok mp /\ final_resolution (i_ntor v) = Ok nt /\ mpol (i_fields v) = mp /\ ntor (i_fields v) = nt /\
  0 <= mp /\ 0 <= nt < 2 ^ 30 /\ well_sized (i_fields v) /\ ints_fit (i_fields v) /\
  (if lasym (i_fields v) then asymmetric_present (i_fields v) else asymmetric_absent (i_fields v)).
(** Objects as the constructor leaves them *)
Definition consistent (v : vmec_input K) (mp nt : Z) : Prop :=
  coerce_mpol_ntor (i_mpol v) = Ok (i_mpol v) /\ coerce_mpol_ntor (i_ntor v) = Ok (i_ntor v) /\
  final_resolution (i_mpol v) = Ok mp /\ final_resolution (i_ntor v) = Ok nt /\ mpol (i_fields v) = mp /\ ntor (i_fields v) = nt /\
  0 <= mp /\ 0 <= nt /\ (ncurr (i_fields v) = 0 \/ ncurr (i_fields v) = 1) /\
  (String.length (pmass_type (i_fields v)) <= 20 /\ String.length (piota_type (i_fields v)) <= 20 /\
   String.length (pcurr_type (i_fields v)) <= 20 /\ String.length (mgrid_file (i_fields v)) <= 200)%nat /\
  well_sized (i_fields v) /\
  (if lasym (i_fields v) then rbs (i_fields v) <> None /\ zbc (i_fields v) <> None else asymmetric_absent (i_fields v)).
(** A 2-D array: the rows have equal lengths *)
Definition ndarray (b : mat K) : Prop := exists r c, 0 <= r /\ 0 <= c /\ shaped b r c.
Definition given (v : vmec_input K) : Prop :=
  ndarray (rbc (i_fields v)) /\ ndarray (zbs (i_fields v)) /\
  (forall b, rbs (i_fields v) = Some b -> ndarray b) /\ (forall b, zbc (i_fields v) = Some b -> ndarray b).
End S.
