(** C135: the input saved in the HDF5 file and loaded again is the same. *)
From Coq Require Import ZArith List Bool String.
From Verif Require Import HdfModel IhdfModel IhdfSpec IhdfProofs IhdfCase.
Import ListNotations.
Open Scope string_scope.

(** Every stellarator-symmetric input with boundary coefficients of the shape of its
    resolution is saved and loaded unchanged: all members, both enumerators, and no
    asymmetric array appears. *)
Theorem C135_symmetric A debug x : symmetric A x -> saved_and_loaded A debug x.
Proof. exact (symmetric_ok A debug x). Qed.
Print Assumptions C135_symmetric.

(** A file without the four members added later loads too: these members get their
    fall-back values, all others the values of the file. *)
Theorem C135_older A debug x y0 : symmetric A x -> exists f y, write_to A debug x = Ok f /\ load_into A (older A f) y0 = Ok y /\
  (forall n, In n members -> ~ In n later -> get A y n = get A x n) /\ meth A y = meth A x /\ opt A y = opt A y0 /\ sty A y = VMEC_8_52 /\
  get A y "mpol_geometry" = get A y0 "mpol_geometry" /\ get A y "ntor_geometry" = get A y0 "ntor_geometry" /\
  get A y "return_outputs_even_if_not_converged" = VBool A false.
Proof. exact (older_ok A debug x y0). Qed.
Print Assumptions C135_older.

(** Boundary coefficients of any other shape are refused with an error status. *)
Theorem C135_shape A debug x y0 mpol ntor rr rc zr zc d e : get A x "lasym" = VBool A false -> get A x "mpol" = VInt A mpol -> get A x "ntor" = VInt A ntor ->
  get A x "rbc" = VMat A rr rc d -> get A x "zbs" = VMat A zr zc e -> ~ (rr = mpol /\ rc = 2 * ntor + 1 /\ zr = mpol /\ zc = 2 * ntor + 1)%Z ->
  exists f, write_to A debug x = Ok f /\ load_into A f y0 = Status.
Proof. exact (shape_checked A debug x y0 mpol ntor rr rc zr zc d e). Qed.
Print Assumptions C135_shape.

(** No asymmetric input survives: saving fails an assertion in a debug build, or stores
    one number for each asymmetric array, and loading that file is undefined. *)
Theorem C135_asymmetric A debug x y0 : asymmetric A x ->
  (debug = true /\ write_to A debug x = Assert) \/ exists f, write_to A debug x = Ok f /\ load_into A f y0 = Undef.
Proof. exact (asym_fails A debug x y0). Qed.
Print Assumptions C135_asymmetric.

(** The claim is false: an asymmetric input with complete arrays is not saved and loaded. *)
Theorem C135_refuted : exists x : input Z, asymmetric Z x /\ ~ saved_and_loaded Z false x /\ ~ saved_and_loaded Z true x.
Proof. exact (ex_intro _ asym_in refuted). Qed.
Print Assumptions C135_refuted.

(** Case: a symmetric input with two poloidal modes and one toroidal mode. *)
Theorem C135_case : symmetric Z sym_in.
Proof. exact case_sym. Qed.
Print Assumptions C135_case.
