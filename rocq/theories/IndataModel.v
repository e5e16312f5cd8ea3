(** The input object: reading it from JSON, writing it to JSON, checking it,
    changing its resolution.
    common/vmec_indata/vmec_indata.{h,cc}, common/vmec_indata/boundary_from_json.cc,
    util/json_io/json_io.cc.

    JSON text is represented by its value after parsing (nlohmann::json, external).
    [int] is [Z] in the 32-bit range; arithmetic on it that would overflow is [UB]. *)
From Coq Require Import String ZArith List Bool.
From Verif Require Import Base Num.
Import ListNotations.
Open Scope Z_scope.

(** Result of a call: value, error status, C++ exception, undefined behaviour. *)
Inductive outcome (A : Type) := Ok (a : A) | Error | Throws | UB.
Arguments Ok {A} a. Arguments Error {A}. Arguments Throws {A}. Arguments UB {A}.
Definition obind {A B} (o : outcome A) (f : A -> outcome B) : outcome B :=
  match o with Ok a => f a | Error => Error | Throws => Throws | UB => UB end.
Notation "x <- a ;; b" := (obind a (fun x => b)) (at level 61, a at next level, right associativity).
Definition guard (b : bool) : outcome unit := if b then Error else Ok tt.      (* if (b) return error *)
Definition need (b : bool) : outcome unit := if b then Ok tt else UB.

Definition int_fits (z : Z) : bool := (- 2 ^ 31 <=? z) && (z <? 2 ^ 31).

Section Indata.
  Context {K : num}.

  Inductive json :=
  | JNull | JBool (b : bool)
  | JInt (z : Z)                    (* number_integer or number_unsigned *)
  | JNum (x : K)                    (* number_float *)
  | JStr (s : string) | JArr (l : list json) | JObj (l : list (string * json)).

  (** An integer literal: 64 bits signed or unsigned, otherwise floating point
      (nlohmann::json lexer). *)
  Definition parse_int (z : Z) : json := if (- 2 ^ 63 <=? z) && (z <? 2 ^ 64) then JInt z else JNum (nZ z).

  Fixpoint find (name : string) (l : list (string * json)) : option json :=
    match l with [] => None | (k, v) :: r => if String.eqb k name then Some v else find name r end.

  (** (The parser keeps one member per name.)
      static_cast<int> of a 64-bit integer (modulo 2^32). *)
  Definition to_int (z : Z) : Z := (z + 2 ^ 31) mod 2 ^ 32 - 2 ^ 31.

  (** JsonReadBool, ..., json_io.cc:17-148. *)
  Definition as_bool (v : json) : option bool := match v with JBool b => Some b | _ => None end.
  Definition as_int (v : json) : option Z := match v with JInt z => Some (to_int z) | _ => None end.
  Definition as_num (v : json) : option K := match v with JInt z => Some (nZ z) | JNum x => Some x | _ => None end.
  Definition as_str (v : json) : option string := match v with JStr s => Some s | _ => None end.
  Fixpoint as_all {A} (f : json -> option A) (l : list json) : option (list A) :=
    match l with
    | [] => Some []
    | v :: r => match f v with None => None | Some a => match as_all f r with None => None | Some t => Some (a :: t) end end
    end.
  Definition as_vec {A} (f : json -> option A) (v : json) : option (list A) := match v with JArr l => as_all f l | _ => None end.

  Definition JsonRead {A} (f : json -> option A) (j : list (string * json)) (name : string) : outcome (option A) :=
    match find name j with
    | None => Ok None
    | Some v => match f v with None => Error | Some a => Ok (Some a) end
    end.
  Definition read {A} (f : json -> option A) (j : list (string * json)) (name : string) (dflt : A) : outcome A :=
    o <- JsonRead f j name ;; Ok (match o with Some a => a | None => dflt end).

  (** Matrices (row-major). *)
  Record mat := mkMat { m_rows : Z; m_cols : Z; m_body : list (list K) }.
  Fixpoint set_nth {A} (n : nat) (a : A) (l : list A) : list A :=
    match l, n with [], _ => [] | _ :: r, O => a :: r | x :: r, S n => x :: set_nth n a r end.
  Definition set_at (b : list (list K)) (i j : Z) (x : K) : list (list K) :=
    set_nth (Z.to_nat i) (set_nth (Z.to_nat j) x (nth (Z.to_nat i) b [])) b.
  Definition at_ij (b : list (list K)) (i j : Z) : K := nth (Z.to_nat j) (nth (Z.to_nat i) b []) (nZ 0).
  (** setZero(rows, cols); negative sizes violate Eigen's precondition. *)
  Definition set_zero (r c : Z) : outcome mat :=
    if (r <? 0) || (c <? 0) then UB else Ok (mkMat r c (repeat (repeat (nZ 0) (Z.to_nat c)) (Z.to_nat r))).

  Inductive fb_method := NESTOR | ONLY_COILS | BIEST.
  Inductive iter_style := VMEC_8_52 | PARVMEC.

  (** vmec_indata.h:66-282. *)
  Record indata := mkIndata {
    lasym : bool; nfp : Z; mpol : Z; ntor : Z; mpol_geometry : Z; ntor_geometry : Z; ntheta : Z; nzeta : Z;
    ns_array : list Z; ftol_array : list K; niter_array : list Z;
    phiedge : K; ncurr : Z;
    pmass_type : string; am : list K; am_aux_s : list K; am_aux_f : list K; pres_scale : K; gamma : K; spres_ped : K;
    piota_type : string; ai : list K; ai_aux_s : list K; ai_aux_f : list K;
    pcurr_type : string; ac : list K; ac_aux_s : list K; ac_aux_f : list K; curtor : K; bloat : K;
    lfreeb : bool; mgrid_file : string; extcur : list K; nvacskip : Z; free_boundary_method : fb_method;
    nstep : Z; aphi : list K; delt : K; tcon0 : K; lforbal : bool; iteration_style : iter_style; return_outputs : bool;
    raxis_c : list K; zaxis_s : list K; raxis_s : option (list K); zaxis_c : option (list K);
    rbc : mat; zbs : mat; rbs : option mat; zbc : option mat }.

  Definition zeros (n : Z) : list K := repeat (nZ 0) (Z.to_nat n).
  Definition zero_mat (r c : Z) : mat := mkMat r c (repeat (zeros c) (Z.to_nat r)).

  (** The default constructor, vmec_indata.cc:108-187. *)
  Definition default_indata : indata :=
    mkIndata false 1 6 0 (-1) (-1) 0 0
      [31] [nfrac 1 (10 ^ 10)] [100]
      (nZ 1) 0
      "power_series" [] [] [] (nZ 1) (nZ 0) (nZ 1)
      "power_series" [] [] []
      "power_series" [] [] [] (nZ 0) (nZ 1)
      false "NONE" [] 1 NESTOR
      10 [nZ 1] (nZ 1) (nZ 1) false VMEC_8_52 false
      (zeros 1) (zeros 1) None None
      (zero_mat 6 1) (zero_mat 6 1) None None.

  Definition zlen {A} (l : list A) : Z := Z.of_nat (length l).

  (** Array read at an index that may be out of range. *)
  Definition rd {A} (l : list A) (i : Z) : outcome A :=
    match nth_error l (Z.to_nat i) with Some a => if i <? 0 then UB else Ok a | None => UB end.

  (** ns_array check, vmec_indata.cc:1291-1322. *)
  Fixpoint check_ns (largest : Z) (l : list Z) : outcome unit :=
    match l with
    | [] => Ok tt
    | ns :: r => if 3 <=? ns then
                   if ns <? largest then Error else check_ns (if largest <? ns then ns else largest) r
                 else Error
    end.
  (** ftol_array, niter_array, 1325-1347: loops over the length of ns_array. *)
  Definition check_ftol (n : nat) (l : list K) : outcome unit :=
    fold_left (fun o i => _ <- o ;; ftol <- rd l (Z.of_nat i) ;; guard (nlt ftol (nZ 0))) (seq 0 n) (Ok tt).
  Definition check_niter (n : nat) (l : list Z) : outcome unit :=
    fold_left (fun o i => _ <- o ;; niter <- rd l (Z.of_nat i) ;; guard (niter <=? 0)) (seq 0 n) (Ok tt).

  Definition opt_get {A} (o : option A) : outcome A := match o with Some a => Ok a | None => UB end.   (* operator-> *)
  Definition is_some {A} (o : option A) : bool := match o with Some _ => true | None => false end.

  Definition check_mat (x : indata) (m : mat) : outcome unit :=
    _ <- guard (negb (m_rows m =? mpol x)) ;;
    _ <- need (int_fits (2 * ntor x + 1)) ;;
    guard (negb (m_cols m =? 2 * ntor x + 1)).

  (** IsConsistent with enable_info_messages = false, vmec_indata.cc:1250-1661. *)
  Definition IsConsistent (x : indata) : outcome unit :=
    _ <- guard (nfp x <=? 0) ;;
    _ <- guard (mpol x <? 2) ;;
    _ <- guard (ntor x <? 0) ;;
    _ <- guard (ntheta x <? 0) ;;
    _ <- guard (nzeta x <? 0) ;;
    _ <- guard (match ns_array x with [] => true | _ => false end) ;;
    _ <- check_ns (-1) (ns_array x) ;;
    _ <- check_ftol (length (ns_array x)) (ftol_array x) ;;
    _ <- check_niter (length (ns_array x)) (niter_array x) ;;
    _ <- guard (neq (phiedge x) (nZ 0)) ;;
    _ <- guard (negb (ncurr x =? 0) && negb (ncurr x =? 1)) ;;
    _ <- guard (nlt (pres_scale x) (nZ 0)) ;;
    _ <- guard (neq (gamma x) (nZ 1)) ;;
    _ <- guard (nle (spres_ped x) (nZ 0) || nlt (nZ 1) (spres_ped x)) ;;
    _ <- guard ((ncurr x =? 0) && negb (neq (bloat x) (nZ 1))) ;;
    _ <- guard (lfreeb x && (nvacskip x <? 1)) ;;
    _ <- guard (lfreeb x && match free_boundary_method x with BIEST => true | _ => false end) ;;
    _ <- guard (nstep x <=? 0) ;;
    _ <- guard (nle (delt x) (nZ 0) || nlt (nZ 10) (delt x)) ;;
    _ <- guard (nlt (tcon0 x) (nZ 0) || nlt (nZ 1) (tcon0 x)) ;;
    _ <- need (int_fits (ntor x + 1)) ;;
    _ <- guard (negb (zlen (raxis_c x) =? ntor x + 1)) ;;
    _ <- guard (negb (zlen (zaxis_s x) =? ntor x + 1)) ;;
    _ <- (if lasym x then
            rs <- opt_get (raxis_s x) ;; _ <- guard (negb (zlen rs =? ntor x + 1)) ;;
            zc <- opt_get (zaxis_c x) ;; guard (negb (zlen zc =? ntor x + 1))
          else _ <- guard (is_some (raxis_s x)) ;; guard (is_some (zaxis_c x))) ;;
    _ <- check_mat x (rbc x) ;;
    _ <- check_mat x (zbs x) ;;
    (if lasym x then
       b <- opt_get (rbs x) ;; _ <- check_mat x b ;; b <- opt_get (zbc x) ;; check_mat x b
     else _ <- guard (is_some (rbs x)) ;; guard (is_some (zbc x))).

  (** *** Boundary coefficients. *)
  Record coefficient := mkCoef { c_m : Z; c_n : Z; c_value : K }.

  (** BoundaryCoefficient::FromJson, boundary_from_json.cc:26-80. *)
  Fixpoint read_entries (l : list json) : outcome (list coefficient) :=
    match l with
    | [] => Ok []
    | JObj e :: r =>
        m <- JsonRead as_int e "m" ;;
        match m with
        | None => read_entries r
        | Some m =>
            n <- JsonRead as_int e "n" ;;
            match n with
            | None => read_entries r
            | Some n =>
                v <- JsonRead as_num e "value" ;;
                match v with
                | None => read_entries r
                | Some v => t <- read_entries r ;; Ok (mkCoef m n v :: t)
                end
            end
        end
    | _ :: _ => Error
    end.
  Definition boundary_entries (j : list (string * json)) (name : string) : outcome (option (list coefficient)) :=
    match find name j with
    | None => Ok None
    | Some (JArr l) => es <- read_entries l ;; Ok (Some es)
    | Some _ => Error
    end.

  (** The loops over the entries in VmecINDATA::FromJson, vmec_indata.cc:984-1004, 1014-1034, 1051-1072, 1081-1102.
      std::abs(INT_MIN) and writes outside the matrix are [UB]. *)
  Definition write_entry (mpol ntor : Z) (o : outcome mat) (e : coefficient) : outcome mat :=
    b <- o ;;
    if c_m e >? mpol - 1 then Ok b else
    if c_n e =? - 2 ^ 31 then UB else
    if Z.abs (c_n e) >? ntor then Ok b else
    let index_along_n := ntor + c_n e in
    if (0 <=? c_m e) && (c_m e <? m_rows b) && (0 <=? index_along_n) && (index_along_n <? m_cols b)
    then Ok (mkMat (m_rows b) (m_cols b) (set_at (m_body b) (c_m e) index_along_n (c_value e)))
    else UB.
  Definition write_entries (mpol ntor : Z) (es : list coefficient) (b : mat) : outcome mat :=
    fold_left (write_entry mpol ntor) es (Ok b).

  (** BoundaryFromJson, boundary_from_json.cc:82-106: flat array of mpol rows. *)
  Definition BoundaryFromJson (mpol ntor : Z) (es : list coefficient) : outcome (list K) :=
    fold_left (fun o e => b <- o ;;
      if (c_m e <? 0) || (c_m e >=? mpol) || (c_n e <? - ntor) || (c_n e >? ntor) then Ok b
      else let flat_index := c_m e * (2 * ntor + 1) + (ntor + c_n e) in
           if (0 <=? flat_index) && (flat_index <? zlen b) then Ok (set_nth (Z.to_nat flat_index) (c_value e) b) else UB)
      es (Ok (zeros (mpol * (2 * ntor + 1)))).

  (** pad_or_reject_axis, vmec_indata.cc:902-918. *)
  Definition pad_or_reject_axis (expected : Z) (a : list K) : outcome (list K) :=
    if zlen a >? expected then Error else Ok (a ++ zeros (expected - zlen a)).

  Definition method_of (s : string) : outcome fb_method :=
    if String.eqb s "nestor" then Ok NESTOR else if String.eqb s "only_coils" then Ok ONLY_COILS
    else if String.eqb s "biest" then Ok BIEST else Error.
  Definition style_of (s : string) : outcome iter_style :=
    if String.eqb s "vmec_8_52" then Ok VMEC_8_52 else if String.eqb s "parvmec" then Ok PARVMEC else Error.
  Definition method_string (m : fb_method) : string := match m with NESTOR => "nestor" | ONLY_COILS => "only_coils" | BIEST => "biest" end.
  Definition style_string (s : iter_style) : string := match s with VMEC_8_52 => "vmec_8_52" | PARVMEC => "parvmec" end.

  Definition same_length {A B} (a : list A) (b : list B) : outcome unit := guard (negb (zlen a =? zlen b)).

  Definition symmetric_coefficients (j : list (string * json)) (name : string) (mpol ntor : Z) (dflt : mat) : outcome mat :=
    e <- boundary_entries j name ;;
    match e with
    | None => Ok dflt
    | Some es => _ <- need (int_fits (2 * ntor + 1)) ;; z <- set_zero mpol (2 * ntor + 1) ;; write_entries mpol ntor es z
    end.
  Definition asymmetric_coefficients (j : list (string * json)) (name : string) (mpol ntor : Z) (z : mat) : outcome mat :=
    e <- boundary_entries j name ;;
    match e with None => Ok z | Some es => write_entries mpol ntor es z end.
  Definition asymmetric_axis (j : list (string * json)) (name : string) (expected : Z) : outcome (list K) :=
    a <- JsonRead (as_vec as_num) j name ;;
    match a with None => Throws (* std::bad_optional_access *) | Some a => pad_or_reject_axis expected a end.

  (** VmecINDATA::FromJson after parsing, vmec_indata.cc:488-1114. *)
  Definition FromJson (root : json) : outcome indata :=
    match root with
    | JObj j =>
        let d := default_indata in
        lasym' <- read as_bool j "lasym" (lasym d) ;;
        nfp' <- read as_int j "nfp" (nfp d) ;;
        mpol' <- read as_int j "mpol" (mpol d) ;;
        ntor' <- read as_int j "ntor" (ntor d) ;;
        mpol_geometry' <- read as_int j "mpol_geometry" (mpol_geometry d) ;;
        ntor_geometry' <- read as_int j "ntor_geometry" (ntor_geometry d) ;;
        ntheta' <- read as_int j "ntheta" (ntheta d) ;;
        nzeta' <- read as_int j "nzeta" (nzeta d) ;;
        ns_array' <- read (as_vec as_int) j "ns_array" (ns_array d) ;;
        ftol_array' <- read (as_vec as_num) j "ftol_array" (ftol_array d) ;;
        _ <- same_length ftol_array' ns_array' ;;
        niter_array' <- read (as_vec as_int) j "niter_array" (niter_array d) ;;
        _ <- same_length niter_array' ns_array' ;;
        phiedge' <- read as_num j "phiedge" (phiedge d) ;;
        ncurr' <- read as_int j "ncurr" (ncurr d) ;;
        pmass_type' <- read as_str j "pmass_type" (pmass_type d) ;;
        am' <- read (as_vec as_num) j "am" (am d) ;;
        am_aux_s' <- read (as_vec as_num) j "am_aux_s" (am_aux_s d) ;;
        am_aux_f' <- read (as_vec as_num) j "am_aux_f" (am_aux_f d) ;;
        _ <- same_length am_aux_f' am_aux_s' ;;
        pres_scale' <- read as_num j "pres_scale" (pres_scale d) ;;
        gamma' <- read as_num j "gamma" (gamma d) ;;
        spres_ped' <- read as_num j "spres_ped" (spres_ped d) ;;
        piota_type' <- read as_str j "piota_type" (piota_type d) ;;
        ai' <- read (as_vec as_num) j "ai" (ai d) ;;
        ai_aux_s' <- read (as_vec as_num) j "ai_aux_s" (ai_aux_s d) ;;
        ai_aux_f' <- read (as_vec as_num) j "ai_aux_f" (ai_aux_f d) ;;
        _ <- same_length ai_aux_f' ai_aux_s' ;;
        pcurr_type' <- read as_str j "pcurr_type" (pcurr_type d) ;;
        ac' <- read (as_vec as_num) j "ac" (ac d) ;;
        ac_aux_s' <- read (as_vec as_num) j "ac_aux_s" (ac_aux_s d) ;;
        ac_aux_f' <- read (as_vec as_num) j "ac_aux_f" (ac_aux_f d) ;;
        _ <- same_length ac_aux_f' ac_aux_s' ;;
        curtor' <- read as_num j "curtor" (curtor d) ;;
        bloat' <- read as_num j "bloat" (bloat d) ;;
        lfreeb' <- read as_bool j "lfreeb" (lfreeb d) ;;
        mgrid_file' <- read as_str j "mgrid_file" (mgrid_file d) ;;
        extcur' <- read (as_vec as_num) j "extcur" (extcur d) ;;
        nvacskip' <- read as_int j "nvacskip" (nvacskip d) ;;
        fbm <- JsonRead as_str j "free_boundary_method" ;;
        free_boundary_method' <- (match fbm with Some s => method_of s | None => Ok (free_boundary_method d) end) ;;
        nstep' <- read as_int j "nstep" (nstep d) ;;
        aphi' <- read (as_vec as_num) j "aphi" (aphi d) ;;
        delt' <- read as_num j "delt" (delt d) ;;
        tcon0' <- read as_num j "tcon0" (tcon0 d) ;;
        lforbal' <- read as_bool j "lforbal" (lforbal d) ;;
        its <- JsonRead as_str j "iteration_style" ;;
        iteration_style' <- (match its with Some s => style_of s | None => Ok (iteration_style d) end) ;;
        return_outputs' <- read as_bool j "return_outputs_even_if_not_converged" (return_outputs d) ;;
        _ <- need (int_fits (ntor' + 1)) ;;
        raxis_c' <- read (as_vec as_num) j "raxis_c" (raxis_c d) ;;
        raxis_c' <- pad_or_reject_axis (ntor' + 1) raxis_c' ;;
        zaxis_s' <- read (as_vec as_num) j "zaxis_s" (zaxis_s d) ;;
        zaxis_s' <- pad_or_reject_axis (ntor' + 1) zaxis_s' ;;
        axes <- (if (lasym' : bool) then
                   rs <- asymmetric_axis j "raxis_s" (ntor' + 1) ;; zc <- asymmetric_axis j "zaxis_c" (ntor' + 1) ;; Ok (Some rs, Some zc)
                 else Ok (None, None)) ;;
        rbc' <- symmetric_coefficients j "rbc" mpol' ntor' (rbc d) ;;
        zbs' <- symmetric_coefficients j "zbs" mpol' ntor' (zbs d) ;;
        asym <- (if (lasym' : bool) then
                   _ <- need (int_fits (2 * ntor' + 1)) ;;
                   z <- set_zero mpol' (2 * ntor' + 1) ;;
                   rbs' <- asymmetric_coefficients j "rbs" mpol' ntor' z ;;
                   zbc' <- asymmetric_coefficients j "zbc" mpol' ntor' z ;; Ok (Some rbs', Some zbc')
                 else Ok (None, None)) ;;
        let x := mkIndata lasym' nfp' mpol' ntor' mpol_geometry' ntor_geometry' ntheta' nzeta'
          ns_array' ftol_array' niter_array' phiedge' ncurr'
          pmass_type' am' am_aux_s' am_aux_f' pres_scale' gamma' spres_ped'
          piota_type' ai' ai_aux_s' ai_aux_f'
          pcurr_type' ac' ac_aux_s' ac_aux_f' curtor' bloat'
          lfreeb' mgrid_file' extcur' nvacskip' free_boundary_method'
          nstep' aphi' delt' tcon0' lforbal' iteration_style' return_outputs'
          raxis_c' zaxis_s' (fst axes) (snd axes) rbc' zbs' (fst asym) (snd asym) in
        _ <- IsConsistent x ;; Ok x
    | _ => Error
    end.

  (** *** Writing. *)
  Definition jints (l : list Z) : json := JArr (map JInt l).
  Definition jnums (l : list K) : json := JArr (map JNum l).

  (** Coefficients that compare unequal to 0, vmec_indata.cc:1215-1237. *)
  Definition nonzero_entries (mpol ntor : Z) (b : mat) : list json :=
    flat_map (fun m => flat_map (fun n =>
      let v := at_ij (m_body b) m (ntor + n) in
      if neq v (nZ 0) then [] else [JObj [("m"%string, JInt m); ("n"%string, JInt n); ("value"%string, JNum v)]])
      (zrange (- ntor) (ntor + 1))) (zrange 0 mpol).

  (** VmecINDATA::ToJson before the conversion to text, vmec_indata.cc:1137-1240.
      [raxis_s->value()] is Eigen's DenseBase::value(): the first coefficient. *)
  Definition first_coefficient (o : option (list K)) : outcome json :=
    a <- opt_get o ;; x <- rd a 0 ;; Ok (JNum x).
  Definition ToJson (x : indata) : outcome json :=
    ax <- (if lasym x then rs <- first_coefficient (raxis_s x) ;; zc <- first_coefficient (zaxis_c x) ;;
             Ok [("raxis_s"%string, rs); ("zaxis_c"%string, zc)] else Ok []) ;;
    as_ <- (if lasym x then rs <- opt_get (rbs x) ;; zc <- opt_get (zbc x) ;;
              Ok [("rbs"%string, JArr (nonzero_entries (mpol x) (ntor x) rs)); ("zbc"%string, JArr (nonzero_entries (mpol x) (ntor x) zc))] else Ok []) ;;
    Ok (JObj ([
      ("lasym", JBool (lasym x)); ("nfp", JInt (nfp x)); ("mpol", JInt (mpol x)); ("ntor", JInt (ntor x));
      ("mpol_geometry", JInt (mpol_geometry x)); ("ntor_geometry", JInt (ntor_geometry x));
      ("ntheta", JInt (ntheta x)); ("nzeta", JInt (nzeta x));
      ("ns_array", jints (ns_array x)); ("ftol_array", jnums (ftol_array x)); ("niter_array", jints (niter_array x));
      ("phiedge", JNum (phiedge x)); ("ncurr", JInt (ncurr x));
      ("pmass_type", JStr (pmass_type x)); ("am", jnums (am x)); ("am_aux_s", jnums (am_aux_s x)); ("am_aux_f", jnums (am_aux_f x));
      ("pres_scale", JNum (pres_scale x)); ("gamma", JNum (gamma x)); ("spres_ped", JNum (spres_ped x));
      ("piota_type", JStr (piota_type x)); ("ai", jnums (ai x)); ("ai_aux_s", jnums (ai_aux_s x)); ("ai_aux_f", jnums (ai_aux_f x));
      ("pcurr_type", JStr (pcurr_type x)); ("ac", jnums (ac x)); ("ac_aux_s", jnums (ac_aux_s x)); ("ac_aux_f", jnums (ac_aux_f x));
      ("curtor", JNum (curtor x)); ("bloat", JNum (bloat x));
      ("lfreeb", JBool (lfreeb x)); ("mgrid_file", JStr (mgrid_file x)); ("extcur", jnums (extcur x)); ("nvacskip", JInt (nvacskip x));
      ("free_boundary_method", JStr (method_string (free_boundary_method x)));
      ("nstep", JInt (nstep x)); ("aphi", jnums (aphi x)); ("delt", JNum (delt x)); ("tcon0", JNum (tcon0 x)); ("lforbal", JBool (lforbal x));
      ("iteration_style", JStr (style_string (iteration_style x))); ("return_outputs_even_if_not_converged", JBool (return_outputs x));
      ("raxis_c", jnums (raxis_c x)); ("zaxis_s", jnums (zaxis_s x))]%string ++ ax ++
      [("rbc"%string, JArr (nonzero_entries (mpol x) (ntor x) (rbc x))); ("zbs"%string, JArr (nonzero_entries (mpol x) (ntor x) (zbs x)))] ++ as_)).

  (** dump() followed by parse(): numbers survive, except that NaN and the
      infinities become null (nlohmann::json). *)
  Fixpoint through_text (j : json) : json :=
    match j with
    | JNum x => if nfinite x then JNum x else JNull
    | JArr l => JArr (map through_text l)
    | JObj l => JObj (map (fun p => (fst p, through_text (snd p))) l)
    | _ => j
    end.

  (** *** SetMpolNtor, vmec_indata.cc:189-255.  The lambdas of the C++ code read
      the members [mpol], [ntor] (old values). *)
  Definition resize_axis (ntor new_ntor : Z) (a : list K) : outcome (list K) :=
    _ <- need (int_fits (new_ntor + 1) && (-1 <=? new_ntor)) ;;
    _ <- need (Z.min ntor new_ntor <? zlen a) ;;
    Ok (map (fun i => if i <=? Z.min ntor new_ntor then nth (Z.to_nat i) a (nZ 0) else nZ 0) (zrange 0 (new_ntor + 1))).
  Definition resized_2d_coeff (mpol ntor new_mpol new_ntor : Z) (c : mat) : outcome mat :=
    _ <- need (int_fits (2 * new_ntor + 1)) ;;
    z <- set_zero new_mpol (2 * new_ntor + 1) ;;
    let smaller_ntor := Z.min ntor new_ntor in
    let smaller_mpol := Z.min mpol new_mpol in
    _ <- need (smaller_mpol <=? m_rows c) ;;
    _ <- need (ntor + smaller_ntor <? m_cols c) ;;
    Ok (mkMat (m_rows z) (m_cols z)
      (for_up 0 smaller_mpol (fun m b =>
         for_up (- smaller_ntor) (smaller_ntor + 1) (fun n b => set_at b m (n + new_ntor) (at_ij (m_body c) m (n + ntor))) b) (m_body z))).

  Definition or_zeros (o : option (list K)) (n : Z) : list K := match o with Some a => a | None => zeros n end.
  Definition or_zero_mat (o : option mat) (r c : Z) : mat := match o with Some a => a | None => zero_mat r c end.

  Definition SetMpolNtor (new_mpol new_ntor : Z) (x : indata) : outcome indata :=
    let rs := if lasym x then Some (or_zeros (raxis_s x) (ntor x + 1)) else raxis_s x in
    let zc := if lasym x then Some (or_zeros (zaxis_c x) (ntor x + 1)) else zaxis_c x in
    let rs2 := if lasym x then Some (or_zero_mat (rbs x) (mpol x) (2 * ntor x + 1)) else rbs x in
    let zc2 := if lasym x then Some (or_zero_mat (zbc x) (mpol x) (2 * ntor x + 1)) else zbc x in
    let upd_ m n rc zs rs zc b1 b2 b3 b4 :=
      mkIndata (lasym x) (nfp x) m n (mpol_geometry x) (ntor_geometry x) (ntheta x) (nzeta x)
        (ns_array x) (ftol_array x) (niter_array x) (phiedge x) (ncurr x)
        (pmass_type x) (am x) (am_aux_s x) (am_aux_f x) (pres_scale x) (gamma x) (spres_ped x)
        (piota_type x) (ai x) (ai_aux_s x) (ai_aux_f x) (pcurr_type x) (ac x) (ac_aux_s x) (ac_aux_f x) (curtor x) (bloat x)
        (lfreeb x) (mgrid_file x) (extcur x) (nvacskip x) (free_boundary_method x)
        (nstep x) (aphi x) (delt x) (tcon0 x) (lforbal x) (iteration_style x) (return_outputs x)
        rc zs rs zc b1 b2 b3 b4 in
    if (new_mpol =? mpol x) && (new_ntor =? ntor x)
    then Ok (upd_ (mpol x) (ntor x) (raxis_c x) (zaxis_s x) rs zc (rbc x) (zbs x) rs2 zc2)
    else
      rc' <- resize_axis (ntor x) new_ntor (raxis_c x) ;;
      zs' <- resize_axis (ntor x) new_ntor (zaxis_s x) ;;
      ax <- (if lasym x then
               a <- opt_get rs ;; a' <- resize_axis (ntor x) new_ntor a ;;
               b <- opt_get zc ;; b' <- resize_axis (ntor x) new_ntor b ;; Ok (Some a', Some b')
             else Ok (rs, zc)) ;;
      b1 <- resized_2d_coeff (mpol x) (ntor x) new_mpol new_ntor (rbc x) ;;
      b2 <- resized_2d_coeff (mpol x) (ntor x) new_mpol new_ntor (zbs x) ;;
      bs <- (if lasym x then
               a <- opt_get rs2 ;; a' <- resized_2d_coeff (mpol x) (ntor x) new_mpol new_ntor a ;;
               b <- opt_get zc2 ;; b' <- resized_2d_coeff (mpol x) (ntor x) new_mpol new_ntor b ;; Ok (Some a', Some b')
             else Ok (rs2, zc2)) ;;
      Ok (upd_ new_mpol new_ntor rc' zs' (fst ax) (snd ax) b1 b2 (fst bs) (snd bs)).
End Indata.

Arguments json : clear implicits.
Arguments mat : clear implicits.
Arguments indata : clear implicits.
Arguments coefficient : clear implicits.
