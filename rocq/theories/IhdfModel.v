(** Saving the input in the HDF5 file and loading it:
    common/vmec_indata/vmec_indata.cc:258-329 (WriteTo), 334-486 (LoadInto), 51-107 (names
    of the enumerators) and util/hdf5_io/hdf5_io.{h,cc}.  [num] holds the members that are
    neither enumerators nor optional, [opt] the four optional arrays of an asymmetric input.
    The lists of statements are in the order of the code.  All datasets are in the group
    "indata" of a new file. *)
From Coq Require Import ZArith List Bool String.
From Verif Require Import HdfModel.
Import ListNotations.
Open Scope string_scope.

(** vmec_indata.h: the two enumerations *)
Inductive method := NESTOR | ONLY_COILS | BIEST.
Inductive style := VMEC_8_52 | PARVMEC.
(** 65-78, 96-107 *)
Definition method_name (m : method) : string := match m with NESTOR => "nestor" | ONLY_COILS => "only_coils" | BIEST => "biest" end.
Definition style_name (s : style) : string := match s with VMEC_8_52 => "vmec_8_52" | PARVMEC => "parvmec" end.
(** 51-63, 85-94 *)
Definition method_of (s : string) : option method :=
  if String.eqb s "nestor" then Some NESTOR else if String.eqb s "only_coils" then Some ONLY_COILS
  else if String.eqb s "biest" then Some BIEST else None.
Definition style_of (s : string) : option style :=
  if String.eqb s "vmec_8_52" then Some VMEC_8_52 else if String.eqb s "parvmec" then Some PARVMEC else None.

(** A result, an error status, an exception of the HDF5 library, a failed assertion of
    Eigen, undefined behaviour *)
Inductive out (T : Type) := Ok (x : T) | Status | Throw | Assert | Undef.
Arguments Ok {T} x. Arguments Status {T}. Arguments Throw {T}. Arguments Assert {T}. Arguments Undef {T}.
Definition bind {T U} (o : out T) (k : T -> out U) : out U :=
  match o with Ok x => k x | Status => Status | Throw => Throw | Assert => Assert | Undef => Undef end.
Fixpoint run {S I} (step : S -> I -> out S) (l : list I) (s : S) : out S :=
  match l with [] => Ok s | i :: r => bind (step s i) (run step r) end.

Section Ihdf.
Variable A : Type.
(** Whether assertions of Eigen are compiled in (no NDEBUG) *)
Variable debug : bool.

(** Members are kept as assignments [upd] over the values [base] the object had. *)
Record input := mkIn { base : string -> value A; upd : list (string * value A); meth : method; sty : style; opt : string -> option (value A) }.
Fixpoint look (l : list (string * value A)) (n : string) : option (value A) :=
  match l with [] => None | (m, v) :: r => if String.eqb n m then Some v else look r n end.
Definition get (x : input) (n : string) : value A := match look (upd x) n with Some v => v | None => base x n end.
Definition put (x : input) (n : string) (v : value A) : input := mkIn (base x) ((n, v) :: upd x) (meth x) (sty x) (opt x).
Definition put_meth (x : input) (m : method) : input := mkIn (base x) (upd x) m (sty x) (opt x).
Definition put_sty (x : input) (s : style) : input := mkIn (base x) (upd x) (meth x) s (opt x).
Definition put_opt (x : input) (n : string) (v : value A) : input :=
  mkIn (base x) (upd x) (meth x) (sty x) (fun m => if String.eqb m n then Some v else opt x m).
Definition lasym (x : input) : bool := match get x "lasym" with VBool _ b => b | _ => false end.

Definition file := list (string * value A).
(** Creating a dataset that exists throws *)
Definition add (f : file) (n : string) (v : value A) : out file :=
  match look f n with Some _ => Throw | None => Ok (f ++ [(n, v)])%list end.

(** Eigen's DenseBase::value() of the array in the optional, [raxis_s->value()] 315, 316,
    323, 324: "the unique coefficient of a 1x1 expression", coeff(0, 0) after an assertion
    that the size is 1x1.  (It is not std::optional::value(), which would be
    [raxis_s.value()].)  From the documentation of Eigen, whose source is not at hand.
    Dereferencing an empty optional and reading a coefficient of an empty array are
    undefined. *)
Definition coefficient (o : option (value A)) : out (value A) :=
  match o with
  | Some (VVec _ l) =>
      if debug && negb (Nat.eqb (List.length l) 1) then Assert else match l with a :: _ => Ok (VDbl A a) | [] => Undef end
  | Some (VMat _ r c d) =>
      if debug && negb ((r =? 1)%Z && (c =? 1)%Z) then Assert
      else if (r <=? 0)%Z || (c <=? 0)%Z then Undef else Ok (VDbl A (d 0%Z 0%Z))
  | _ => Undef
  end.

Inductive wstmt := W (n : string) | WMethod | WStyle | WAsym (n : string).
Definition wstep (x : input) (f : file) (s : wstmt) : out file :=
  match s with
  | W n => add f n (get x n)
  | WMethod => add f "free_boundary_method" (VStr A (method_name (meth x)))
  | WStyle => add f "iteration_style" (VStr A (style_name (sty x)))
  | WAsym n => if lasym x then bind (coefficient (opt x n)) (add f n) else Ok f
  end.
(** 258-329 *)
Definition wprog : list wstmt :=
  [
  W "lasym"; W "nfp"; W "mpol"; W "ntor"; W "mpol_geometry"; W "ntor_geometry"; W "ntheta"; W "nzeta"; W "phiedge";
   W "ncurr"; W "pmass_type"; W "pres_scale"; W "gamma"; W "spres_ped"; W "piota_type"; W "pcurr_type"; W "curtor";
   W "bloat"; W "lfreeb"; W "mgrid_file"; W "nvacskip"; WMethod; WStyle; W "nstep"; W "delt"; W "tcon0"; W "lforbal";
   W "return_outputs_even_if_not_converged"; W "ns_array"; W "ftol_array"; W "niter_array"; W "am"; W "am_aux_s";
   W "am_aux_f"; W "ai"; W "ai_aux_s"; W "ai_aux_f"; W "ac"; W "ac_aux_s"; W "ac_aux_f"; W "extcur"; W "aphi";
   W "raxis_c"; W "zaxis_s"; WAsym "raxis_s"; WAsym "zaxis_c"; W "rbc"; W "zbs"; WAsym "rbs"; WAsym "zbc"].
Definition write_to (x : input) : out file := run (wstep x) wprog [].

Inductive rstmt := R (n : string) | RKeep (n : string) | RFalse (n : string) | RMethod | RStyle
| RAsymVec (n : string) | RMat (n : string) | RAsymMat (n : string).
(** ReadH5Dataset: opening an absent dataset throws.  Arrays are sized by
    getSimpleExtentDims into an uninitialised variable, which it does not set for the
    scalar dataspace of a number: undefined. *)
Definition read (f : file) (n : string) : out (value A) := match look f n with Some v => Ok v | None => Throw end.
Definition read_str (f : file) (n : string) : out string := bind (read f n) (fun v => match v with VStr _ s => Ok s | _ => Throw end).
Definition read_vec (f : file) (n : string) : out (value A) :=
  bind (read f n) (fun v => match v with VVec _ _ => Ok v | VDbl _ _ => Undef | _ => Throw end).
Definition read_mat (f : file) (n : string) : out (value A) :=
  bind (read f n) (fun v => match v with VMat _ _ _ _ => Ok v | VDbl _ _ => Undef | _ => Throw end).
Definition int (v : value A) : Z := match v with VInt _ z => z | _ => 0%Z end.
(** 428-437 and the same for the other three *)
Definition check (y : input) (v : value A) : out (value A) :=
  match v with
  | VMat _ r c _ =>
      if negb (r =? int (get y "mpol"))%Z then Status
      else if negb (c =? 2 * int (get y "ntor") + 1)%Z then Status else Ok v
  | _ => Throw
  end.
Definition rstep (f : file) (y : input) (s : rstmt) : out input :=
  match s with
  | R n => bind (read f n) (fun v => Ok (put y n v))
  | RKeep n => match look f n with Some v => Ok (put y n v) | None => Ok y end (* 344-349 *)
  | RFalse n => match look f n with Some v => Ok (put y n v) | None => Ok (put y n (VBool A false)) end (* 400-406 *)
  | RMethod => bind (read_str f "free_boundary_method") (fun s => match method_of s with Some m => Ok (put_meth y m) | None => Status end)
  | RStyle => (* 378-391 *)
      match look f "iteration_style" with
      | Some _ => bind (read_str f "iteration_style") (fun s => match style_of s with Some m => Ok (put_sty y m) | None => Status end)
      | None => Ok (put_sty y VMEC_8_52)
      end
  | RAsymVec n => if lasym y then bind (read_vec f n) (fun v => Ok (put_opt y n v)) else Ok y
  | RMat n => bind (read_mat f n) (fun v => bind (check y v) (fun v => Ok (put y n v)))
  | RAsymMat n => if lasym y then bind (read_mat f n) (fun v => bind (check y v) (fun v => Ok (put_opt y n v))) else Ok y
  end.
(** 334-486 *)
Definition rprog : list rstmt :=
  [
  R "lasym"; R "nfp"; R "mpol"; R "ntor"; RKeep "mpol_geometry"; RKeep "ntor_geometry"; R "ntheta"; R "nzeta";
   R "phiedge"; R "ncurr"; R "pmass_type"; R "pres_scale"; R "gamma"; R "spres_ped"; R "piota_type"; R "pcurr_type";
   R "curtor"; R "bloat"; R "lfreeb"; R "mgrid_file"; R "nvacskip"; RMethod; RStyle; R "nstep"; R "delt"; R "tcon0";
   R "lforbal"; RFalse "return_outputs_even_if_not_converged"; R "ns_array"; R "ftol_array"; R "niter_array"; R "am";
   R "am_aux_s"; R "am_aux_f"; R "ai"; R "ai_aux_s"; R "ai_aux_f"; R "ac"; R "ac_aux_s"; R "ac_aux_f"; R "extcur";
   R "aphi"; R "raxis_c"; R "zaxis_s"; RAsymVec "raxis_s"; RAsymVec "zaxis_c"; RMat "rbc"; RMat "zbs";
   RAsymMat "rbs"; RAsymMat "zbc"].
Definition load_into (f : file) (y0 : input) : out input := run (rstep f) rprog y0.
End Ihdf.
