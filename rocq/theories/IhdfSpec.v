(** What saving and loading the input must preserve. *)
From Coq Require Import ZArith List Bool String.
From Verif Require Import HdfModel IhdfModel.
Import ListNotations.
Open Scope string_scope.
(** The members of the input that are neither enumerators nor optional (vmec_indata.h) *)
Definition members : list string :=
  [
  "lasym"; "nfp"; "mpol"; "ntor"; "mpol_geometry"; "ntor_geometry"; "ntheta"; "nzeta"; "ns_array"; "ftol_array";
   "niter_array"; "phiedge"; "ncurr"; "pmass_type"; "am"; "am_aux_s"; "am_aux_f"; "pres_scale"; "gamma"; "spres_ped";
   "piota_type"; "ai"; "ai_aux_s"; "ai_aux_f"; "pcurr_type"; "ac"; "ac_aux_s"; "ac_aux_f"; "curtor"; "bloat";
   "lfreeb"; "mgrid_file"; "extcur"; "nvacskip"; "nstep"; "aphi"; "delt"; "tcon0"; "lforbal";
   "return_outputs_even_if_not_converged"; "raxis_c"; "zaxis_s"; "rbc"; "zbs"].
(** Members added to the file format later *)
Definition later : list string := ["mpol_geometry"; "ntor_geometry"; "iteration_style"; "return_outputs_even_if_not_converged"].
(** The optional arrays of an asymmetric input *)
Definition asym_arrays : list string := ["raxis_s"; "zaxis_c"; "rbs"; "zbc"].
Section Spec.
Variable A : Type.
(** A symmetric input whose boundary coefficients have the shape of its resolution *)
Record symmetric (x : input A) : Prop := {
  sy_l : get A x "lasym" = VBool A false;
  sy_o : forall n, In n asym_arrays -> opt A x n = None;
  sy_m : exists mpol ntor d e, get A x "mpol" = VInt A mpol /\ get A x "ntor" = VInt A ntor /\
    get A x "rbc" = VMat A mpol (2 * ntor + 1) d /\ get A x "zbs" = VMat A mpol (2 * ntor + 1) e }.
(** An asymmetric input whose four optional arrays are there and not empty *)
Record asymmetric (x : input A) : Prop := {
  as_l : get A x "lasym" = VBool A true;
  as_v : forall n, In n ["raxis_s"; "zaxis_c"] -> exists a l, opt A x n = Some (VVec A (a :: l));
  as_m : forall n, In n ["rbs"; "zbc"] -> exists r c d, opt A x n = Some (VMat A r c d) /\ (0 < r)%Z /\ (0 < c)%Z }.
(** The same input *)
Definition same_input (x y : input A) : Prop :=
  (forall n, In n members -> get A y n = get A x n) /\ meth A y = meth A x /\ sty A y = sty A x /\
  forall n, In n asym_arrays -> opt A y n = opt A x n.
(** A file of an earlier version: without the later members *)
Definition older (f : file A) : file A := filter (fun p => negb (existsb (String.eqb (fst p)) later)) f.
(** The claim: what is saved is loaded again, into a new object *)
Definition saved_and_loaded (debug : bool) (x : input A) : Prop := forall y0, (forall n, opt A y0 n = None) ->
  exists f y, write_to A debug x = Ok f /\ load_into A f y0 = Ok y /\ same_input x y.
End Spec.
