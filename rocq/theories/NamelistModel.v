(** Conversion of a VMEC++ JSON input to a VMEC2000 namelist,
    src/vmecpp/_util.py:171-312.

    The text is represented by its lines, [name = right-hand side]; the comment
    lines and the enclosing "&INDATA", "/" are left out. Numbers written with
    [:.20e] are represented by the number (21 significant digits identify a
    double; exactness of Python's formatting and Fortran's reading is assumed).
    Python exceptions (TypeError, ValueError, KeyError) are [Throws]. *)
From Coq Require Import String Ascii ZArith List Bool.
From Verif Require Import Base Num IndataModel.
Import ListNotations.
Open Scope Z_scope.

Section Nml.
  Context {K : num}.

  Inductive rhs :=
  | RBool (b : bool)            (* .true. or .false. *)
  | RQuoted (text : string)     (* the characters after the = sign: quote, value, quote *)
  | RPython (v : json K)        (* str(v) of a Python value *)
  | RPythons (l : list (json K)) (* comma separated *)
  | RFloat (x : K)
  | RFloats (l : list K)
  | RJunk.                      (* elements of a str or dict where a list was expected *)

  Inductive line :=
  | Assign (name : string) (r : rhs)
  | Indexed (name : string) (n m : json K) (x : K).     (* name(n, m) = x *)

  (** Python truth value. *)
  Definition truthy (v : json K) : bool :=
    match v with
    | JNull => false | JBool b => b | JInt z => negb (z =? 0) | JNum x => negb (neq x (nZ 0))
    | JStr s => negb (String.eqb s "") | JArr l => negb (zlen l =? 0) | JObj l => negb (zlen l =? 0)
    end.
  (** f"{v:.20e}". *)
  Definition fmt_float (v : json K) : outcome K :=
    match v with JInt z => Ok (nZ z) | JNum x => Ok x | JBool b => Ok (nZ (if b then 1 else 0)) | _ => Throws end.
  Fixpoint fmt_floats (l : list (json K)) : outcome (list K) :=
    match l with [] => Ok [] | v :: r => x <- fmt_float v ;; t <- fmt_floats r ;; Ok (x :: t) end.

  Definition quote : string := String (ascii_of_nat 39) EmptyString.

  Definition bool_to_namelist (name : string) (j : list (string * json K)) : outcome (list line) :=
    match find name j with None => Ok [] | Some v => Ok [Assign name (RBool (truthy v))] end.
  (** Values that are not strings are rendered by str(). *)
  Definition string_to_namelist (name : string) (j : list (string * json K)) : outcome (list line) :=
    match find name j with
    | None => Ok []
    | Some (JStr s) => Ok [Assign name (RQuoted (quote ++ s ++ quote))]
    | Some _ => Ok [Assign name RJunk]
    end.
  Definition int_to_namelist (name : string) (j : list (string * json K)) : outcome (list line) :=
    match find name j with None => Ok [] | Some v => Ok [Assign name (RPython v)] end.
  Definition float_to_namelist (name : string) (j : list (string * json K)) : outcome (list line) :=
    match find name j with None => Ok [] | Some v => x <- fmt_float v ;; Ok [Assign name (RFloat x)] end.
  (** [is not None and len(...) > 0]: len of a number raises. *)
  Definition elements (v : json K) : outcome (option (list (json K))) :=
    match v with
    | JNull => Ok None
    | JArr l => Ok (if zlen l >? 0 then Some l else None)
    | JStr s => Ok (if String.eqb s "" then None else Some (map (fun c => JStr (String c EmptyString)) (list_ascii_of_string s)))
    | JObj l => Ok (if zlen l >? 0 then Some (map (fun p => JStr (fst p)) l) else None)
    | _ => Throws
    end.
  Definition int_array_to_namelist (name : string) (j : list (string * json K)) : outcome (list line) :=
    match find name j with
    | None => Ok []
    | Some v => o <- elements v ;; Ok (match o with None => [] | Some l => [Assign name (RPythons l)] end)
    end.
  Definition float_array_to_namelist (name : string) (j : list (string * json K)) : outcome (list line) :=
    match find name j with
    | None => Ok []
    | Some v => o <- elements v ;;
        match o with None => Ok [] | Some l => xs <- fmt_floats l ;; Ok [Assign name (RFloats xs)] end
    end.
  Definition key (name : string) (v : json K) : outcome (json K) :=
    match v with JObj l => match find name l with Some w => Ok w | None => Throws end | _ => Throws end.
  Fixpoint coefficient_lines (name : string) (l : list (json K)) : outcome (list line) :=
    match l with
    | [] => Ok []
    | c :: r => m <- key "m" c ;; n <- key "n" c ;; v <- key "value" c ;; x <- fmt_float v ;;
                t <- coefficient_lines name r ;; Ok (Indexed name n m x :: t)
    end.
  Definition fourier_coefficients_to_namelist (name : string) (j : list (string * json K)) : outcome (list line) :=
    match find name j with
    | None => Ok []
    | Some v => o <- elements v ;; match o with None => Ok [] | Some l => coefficient_lines name l end
    end.

  Inductive kind := KBool | KInt | KFloat | KString | KInts | KFloats | KFourier.
  Definition convert (k : kind) : string -> list (string * json K) -> outcome (list line) :=
    match k with
    | KBool => bool_to_namelist | KInt => int_to_namelist | KFloat => float_to_namelist | KString => string_to_namelist
    | KInts => int_array_to_namelist | KFloats => float_array_to_namelist | KFourier => fourier_coefficients_to_namelist
    end.

  (** The calls in the body of vmecpp_json_to_indata, in order, _util.py:178-240. *)
  Definition calls : list (kind * string) := [
    (KBool, "lasym"); (KInt, "nfp"); (KInt, "mpol"); (KInt, "ntor"); (KInt, "ntheta"); (KInt, "nzeta");
    (KInts, "ns_array"); (KFloats, "ftol_array"); (KInts, "niter_array");
    (KFloat, "delt"); (KFloat, "tcon0"); (KFloats, "aphi"); (KBool, "lforbal"); (KInt, "nstep"); (KFloat, "phiedge");
    (KString, "pmass_type"); (KFloats, "am"); (KFloats, "am_aux_s"); (KFloats, "am_aux_f"); (KFloat, "pres_scale"); (KFloat, "gamma"); (KFloat, "spres_ped");
    (KInt, "ncurr"); (KString, "piota_type"); (KFloats, "ai"); (KFloats, "ai_aux_s"); (KFloats, "ai_aux_f");
    (KString, "pcurr_type"); (KFloats, "ac"); (KFloats, "ac_aux_s"); (KFloats, "ac_aux_f"); (KFloat, "curtor"); (KFloat, "bloat");
    (KBool, "lfreeb"); (KString, "mgrid_file"); (KFloats, "extcur"); (KInt, "nvacskip");
    (KFloats, "raxis_cc"); (KFloats, "zaxis_cs"); (KFloats, "raxis_cs"); (KFloats, "zaxis_cc");
    (KFourier, "rbc"); (KFourier, "zbs"); (KFourier, "rbs"); (KFourier, "zbc")]%string.

  Fixpoint run_calls (l : list (kind * string)) (j : list (string * json K)) : outcome (list line) :=
    match l with
    | [] => Ok []
    | (k, name) :: r => a <- convert k name j ;; b <- run_calls r j ;; Ok (a ++ b)
    end.
  Definition vmecpp_json_to_indata (j : list (string * json K)) : outcome (list line) := run_calls calls j.
End Nml.
Arguments rhs : clear implicits.
Arguments line : clear implicits.
