(** The Python input object VmecInput: defaults, validation, conversion to and from
    the C++ VmecINDATA. src/vmecpp/__init__.py:75-106, 179-565, 667-762.

    The fields of both classes are the same except that mpol and ntor of VmecInput
    may be schedules; a VmecInput is therefore the two resolutions and an [indata]
    whose members mpol and ntor hold the final resolutions (they are not read).
    Field types are taken as already coerced by pydantic (bool, int, float, str,
    arrays); Python integers are unbounded, array elements are 64-bit. Strings are
    ASCII. The enumerations of both sides correspond one to one and are identified. *)
From Coq Require Import String ZArith List Bool.
From Verif Require Import Base Num IndataModel PyCoefModel.
Import ListNotations.
Open Scope Z_scope.

(** int | ndarray *)
Inductive resolution := One (z : Z) | Steps (l : list Z).
Definition fits64 (z : Z) : bool := (- 2 ^ 63 <=? z) && (z <? 2 ^ 63).
(** _coerce_mpol_ntor, 79-92 *)
Definition coerce_mpol_ntor (r : resolution) : outcome resolution :=
  match r with
  | One z => Ok (One z)
  | Steps l => _ <- raise_unless (forallb fits64 l) ;; Ok (match l with [z] => One z | _ => Steps l end)
  end.
(** _final_resolution, 101-104; value[-1] of an empty array raises IndexError *)
Definition final_resolution (r : resolution) : outcome Z :=
  match r with One z => Ok z | Steps l => match rev l with z :: _ => Ok z | [] => Throws end end.

Section Input.
  Context {K : num}.
  Record vmec_input := mkInput { i_mpol : resolution; i_ntor : resolution; i_fields : indata K }.

  (** The members of [x] with other resolutions and coefficient arrays *)
  Definition with_coefs (x : indata K) (m n : Z) rc zs rs zc b1 b2 b3 b4 : indata K :=
    mkIndata (lasym x) (nfp x) m n (mpol_geometry x) (ntor_geometry x) (ntheta x) (nzeta x)
      (ns_array x) (ftol_array x) (niter_array x) (phiedge x) (ncurr x)
      (pmass_type x) (am x) (am_aux_s x) (am_aux_f x) (pres_scale x) (gamma x) (spres_ped x)
      (piota_type x) (ai x) (ai_aux_s x) (ai_aux_f x) (pcurr_type x) (ac x) (ac_aux_s x) (ac_aux_f x) (curtor x) (bloat x)
      (lfreeb x) (mgrid_file x) (extcur x) (nvacskip x) (free_boundary_method x)
      (nstep x) (aphi x) (delt x) (tcon0 x) (lforbal x) (iteration_style x) (return_outputs x)
      rc zs rs zc b1 b2 b3 b4.

  Definition none {A} (o : option A) : bool := negb (is_some o).
  Definition short (n : nat) (s : string) : bool := Nat.leb (String.length s) n.

  (** Validation: the field types (ncurr 293, ProfileType 118, mgrid_file 392), then
      the model validators 505-548 and 550-565. *)
  Definition validate (v : vmec_input) : outcome vmec_input :=
    let x := i_fields v in
    m <- coerce_mpol_ntor (i_mpol v) ;;
    n <- coerce_mpol_ntor (i_ntor v) ;;
    _ <- raise_unless ((ncurr x =? 0) || (ncurr x =? 1)) ;;
    _ <- raise_unless (short 20 (pmass_type x) && short 20 (piota_type x) && short 20 (pcurr_type x) && short 200 (mgrid_file x)) ;;
    mp <- final_resolution m ;;
    nt <- final_resolution n ;;
    b1 <- validate_2d mp nt (Some (rbc x)) ;;
    b2 <- validate_2d mp nt (Some (zbs x)) ;;
    b34 <- (if lasym x then
              b3 <- validate_2d mp nt (rbs x) ;; b4 <- validate_2d mp nt (zbc x) ;; Ok (Some b3, Some b4)
            else Ok (rbs x, zbc x)) ;;
    rc <- validate_1d nt (Some (raxis_c x)) ;;
    zs <- validate_1d nt (Some (zaxis_s x)) ;;
    ax <- (if lasym x then
             rs <- validate_1d nt (raxis_s x) ;; zc <- validate_1d nt (zaxis_c x) ;; Ok (rs, zc)
           else Ok (raxis_s x, zaxis_c x)) ;;
    _ <- raise_unless (lasym x || (none (fst b34) && none (snd b34) && none (snd ax) && none (fst ax))) ;;
    match rc, zs with
    | Some rc, Some zs => Ok (mkInput m n (with_coefs x mp nt rc zs (fst ax) (snd ax) b1 b2 (fst b34) (snd b34)))
    | _, _ => Throws
    end.

  (** VmecInput(): the field defaults 200-503. *)
  Definition default_fields : indata K :=
    mkIndata false 1 6 0 (-1) (-1) 0 0
      [31] [nfrac 1 (10 ^ 10)] [100]
      (nZ 1) 0
      "power_series" [] [] [] (nZ 1) (nZ 0) (nZ 1)
      "power_series" [] [] []
      "power_series" [] [] [] (nZ 0) (nZ 1)
      false "NONE" [] 1 NESTOR
      10 [nZ 1] (nZ 1) (nZ 1) false VMEC_8_52 false
      [nZ 0] [nZ 0] None None
      (zero_mat 6 1) (zero_mat 6 1) None None.
  Definition default_input : outcome vmec_input := validate (mkInput (One 6) (One 0) default_fields).

  (** NumPy assignment a[:] = v with broadcasting, 1-D and 2-D *)
  Definition assign_1d (a v : list K) : outcome (list K) :=
    if zlen v =? zlen a then Ok v
    else match v with [x] => Ok (repeat x (length a)) | _ => Throws end.
  Definition assign_2d (a v : mat K) : outcome (mat K) :=
    let fit p q := (p =? q) || (p =? 1) in
    if fit (m_rows v) (m_rows a) && fit (m_cols v) (m_cols a)
    then if (m_rows v =? m_rows a) && (m_cols v =? m_cols a) then Ok v
         else Ok (mkMat (m_rows a) (m_cols a) (map (fun i => map (fun j =>
                at_ij (m_body v) (if m_rows v =? 1 then 0 else i) (if m_cols v =? 1 then 0 else j))
                (zrange 0 (m_cols a))) (zrange 0 (m_rows a))))
    else Throws.
  (** An asymmetric array, 739-760: [present] is the C++ member after SetMpolNtor;
      indexing None raises TypeError *)
  Definition assign_opt {A} (assign : A -> A -> outcome A) (lasym : bool) (present v : option A) : outcome (option A) :=
    match v with
    | None => if lasym then Throws else Ok present
    | Some v => if lasym then match present with Some a => r <- assign a v ;; Ok (Some r) | None => Throws end else Throws
    end.

  (** Assignment to an int member (pybind11 raises TypeError if it does not fit);
      assignment of an int64 array to a VectorXi converts element by element
      without a check. *)
  Definition set_int (z : Z) : outcome Z := _ <- raise_unless (int_fits z) ;; Ok z.

  (** _to_cpp_vmecindata, 699-762. *)
  Definition to_cpp (v : vmec_input) : outcome (indata K) :=
    let x := i_fields v in
    nfp_ <- set_int (nfp x) ;;
    mg <- set_int (mpol_geometry x) ;;
    ng <- set_int (ntor_geometry x) ;;
    nth_ <- set_int (ntheta x) ;;
    nz <- set_int (nzeta x) ;;
    nc <- set_int (ncurr x) ;;
    nv <- set_int (nvacskip x) ;;
    nst <- set_int (nstep x) ;;
    let d := default_indata (K := K) in
    let c0 := mkIndata (lasym x) nfp_ (mpol d) (ntor d) mg ng nth_ nz
      (map to_int (ns_array x)) (ftol_array x) (map to_int (niter_array x)) (phiedge x) nc
      (pmass_type x) (am x) (am_aux_s x) (am_aux_f x) (pres_scale x) (gamma x) (spres_ped x)
      (piota_type x) (ai x) (ai_aux_s x) (ai_aux_f x) (pcurr_type x) (ac x) (ac_aux_s x) (ac_aux_f x) (curtor x) (bloat x)
      (lfreeb x) (mgrid_file x) (extcur x) nv (free_boundary_method x)
      nst (aphi x) (delt x) (tcon0 x) (lforbal x) (iteration_style x) (return_outputs x)
      (raxis_c d) (zaxis_s d) (raxis_s d) (zaxis_c d) (rbc d) (zbs d) (rbs d) (zbc d) in
    mp <- final_resolution (i_mpol v) ;; mp <- set_int mp ;;
    nt <- final_resolution (i_ntor v) ;; nt <- set_int nt ;;
    c1 <- SetMpolNtor mp nt c0 ;;
    rc <- assign_1d (raxis_c c1) (raxis_c x) ;;
    zs <- assign_1d (zaxis_s c1) (zaxis_s x) ;;
    rs <- assign_opt assign_1d (lasym x) (raxis_s c1) (raxis_s x) ;;
    zc <- assign_opt assign_1d (lasym x) (zaxis_c c1) (zaxis_c x) ;;
    b1 <- assign_2d (rbc c1) (rbc x) ;;
    b2 <- assign_2d (zbs c1) (zbs x) ;;
    b3 <- assign_opt assign_2d (lasym x) (rbs c1) (rbs x) ;;
    b4 <- assign_opt assign_2d (lasym x) (zbc c1) (zbc x) ;;
    Ok (with_coefs c1 (mpol c1) (ntor c1) rc zs rs zc b1 b2 b3 b4).

  (** _from_cpp_vmecindata, 681-693. *)
  Definition from_cpp (x : indata K) : outcome vmec_input := validate (mkInput (One (mpol x)) (One (ntor x)) x).
End Input.
Arguments vmec_input : clear implicits.
