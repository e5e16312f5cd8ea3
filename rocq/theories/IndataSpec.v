(** What a user expects of the input object. *)
From Coq Require Import String ZArith List Bool Reals.
From Verif Require Import Base Num IndataModel.
Import ListNotations.
Open Scope Z_scope.

Definition fits32 (z : Z) : Prop := - 2 ^ 31 <= z < 2 ^ 31.

Section Spec.
  Context {K : num}.

  (** *** Meaning of a JSON object. *)
  Definition member (j : list (string * json K)) (name : string) : option (json K) :=
    option_map snd (List.find (fun p => String.eqb (fst p) name) j).

  Definition is_bool (w : json K) (b : bool) : Prop := w = JBool b.
  Definition is_str (w : json K) (s : string) : Prop := w = JStr s.
  (** a 32-bit integer: the literal, up to a multiple of 2^32 *)
  Definition is_int (w : json K) (z : Z) : Prop := exists lit k, w = JInt lit /\ lit = z + k * 2 ^ 32 /\ fits32 z.
  (** exactly the literal *)
  Definition is_exact_int (w : json K) (z : Z) : Prop := w = JInt z.
  Definition is_num (w : json K) (x : K) : Prop := w = JNum x \/ exists z, w = JInt z /\ x = nZ z.
  Definition is_list {A} (d : json K -> A -> Prop) (w : json K) (l : list A) : Prop := exists ws, w = JArr ws /\ Forall2 d ws l.

  (** A setting is the member of that name if there is one, its default otherwise. *)
  Definition setting {A} (d : json K -> A -> Prop) (j : list (string * json K)) (name : string) (dflt v : A) : Prop :=
    match member j name with None => v = dflt | Some w => d w v end.

  Definition is_method (w : json K) (m : fb_method) : Prop :=
    w = JStr (match m with NESTOR => "nestor" | ONLY_COILS => "only_coils" | BIEST => "biest" end)%string.
  Definition is_style (w : json K) (m : iter_style) : Prop :=
    w = JStr (match m with VMEC_8_52 => "vmec_8_52" | PARVMEC => "parvmec" end)%string.

  (** Axis coefficients: those given, then zeros, [ntor] + 1 in total. *)
  Definition padded (given full : list K) (n : Z) : Prop :=
    Z.of_nat (length given) <= n /\ Z.of_nat (length full) = n /\
    forall i, nth i full (nZ 0) = nth i given (nZ 0).

  (** *** Matrices of boundary coefficients. *)
  Definition shaped (b : mat K) (r c : Z) : Prop :=
    m_rows b = r /\ m_cols b = c /\ Z.of_nat (length (m_body b)) = r /\ forall row, In row (m_body b) -> Z.of_nat (length row) = c.
  (** coefficient of cos(m theta - n zeta) or sin(m theta - n zeta) *)
  Definition coef (ntor : Z) (b : mat K) (m n : Z) : K := nth (Z.to_nat (n + ntor)) (nth (Z.to_nat m) (m_body b) []) (nZ 0).

  (** The entries of a JSON list that carry all of m, n and value. *)
  Definition entry (w : json K) (e : coefficient K) : Prop :=
    exists l wm wn wv, w = JObj l /\ member l "m" = Some wm /\ member l "n" = Some wn /\ member l "value" = Some wv /\
      is_int wm (c_m e) /\ is_int wn (c_n e) /\ is_num wv (c_value e).
  Definition incomplete (w : json K) : Prop :=
    exists l, w = JObj l /\ (member l "m" = None \/ member l "n" = None \/ member l "value" = None).
  Inductive entries : list (json K) -> list (coefficient K) -> Prop :=
  | entries_nil : entries [] []
  | entries_skip w ws es : incomplete w -> entries ws es -> entries (w :: ws) es
  | entries_take w ws e es : entry w e -> entries ws es -> entries (w :: ws) (e :: es).

  (** [v] is the value of the last entry for (m, n). *)
  Definition last_entry (es : list (coefficient K)) (m n : Z) (v : K) : Prop :=
    exists l1 l2, es = l1 ++ mkCoef m n v :: l2 /\ forall e, In e l2 -> ~ (c_m e = m /\ c_n e = n).
  Definition no_entry (es : list (coefficient K)) (m n : Z) : Prop := forall e, In e es -> ~ (c_m e = m /\ c_n e = n).

  (** The matrix holds the last entry of each mode inside the resolution, zero where there is none. *)
  Definition holds_entries (mpol ntor : Z) (es : list (coefficient K)) (b : mat K) : Prop :=
    shaped b mpol (2 * ntor + 1) /\
    forall m n, 0 <= m < mpol -> - ntor <= n <= ntor ->
      (forall v, last_entry es m n v -> coef ntor b m n = v) /\
      (no_entry es m n -> coef ntor b m n = nZ 0).
  Definition boundary_setting (j : list (string * json K)) (name : string) (mpol ntor : Z) (dflt b : mat K) : Prop :=
    match member j name with
    | None => b = dflt
    | Some w => exists ws es, w = JArr ws /\ entries ws es /\ holds_entries mpol ntor es b
    end.

  (** The whole input object, setting by setting. *)
  Definition reads_as (j : list (string * json K)) (x : indata K) : Prop :=
    let d := default_indata in
    (setting is_bool j "lasym" (lasym d) (lasym x) /\
     setting is_int j "nfp" (nfp d) (nfp x) /\ setting is_int j "mpol" (mpol d) (mpol x) /\
     setting is_int j "ntor" (ntor d) (ntor x) /\ setting is_int j "mpol_geometry" (mpol_geometry d) (mpol_geometry x) /\
     setting is_int j "ntor_geometry" (ntor_geometry d) (ntor_geometry x) /\
     setting is_int j "ntheta" (ntheta d) (ntheta x) /\ setting is_int j "nzeta" (nzeta d) (nzeta x)) /\
    (setting (is_list is_int) j "ns_array" (ns_array d) (ns_array x) /\
     setting (is_list is_num) j "ftol_array" (ftol_array d) (ftol_array x) /\
     setting (is_list is_int) j "niter_array" (niter_array d) (niter_array x) /\
     length (ftol_array x) = length (ns_array x) /\ length (niter_array x) = length (ns_array x) /\
     setting is_num j "phiedge" (phiedge d) (phiedge x) /\ setting is_int j "ncurr" (ncurr d) (ncurr x)) /\
    (setting is_str j "pmass_type" (pmass_type d) (pmass_type x) /\
     setting (is_list is_num) j "am" (am d) (am x) /\ setting (is_list is_num) j "am_aux_s" (am_aux_s d) (am_aux_s x) /\
     setting (is_list is_num) j "am_aux_f" (am_aux_f d) (am_aux_f x) /\ length (am_aux_f x) = length (am_aux_s x) /\
     setting is_num j "pres_scale" (pres_scale d) (pres_scale x) /\ setting is_num j "gamma" (gamma d) (gamma x) /\
     setting is_num j "spres_ped" (spres_ped d) (spres_ped x)) /\
    (setting is_str j "piota_type" (piota_type d) (piota_type x) /\
     setting (is_list is_num) j "ai" (ai d) (ai x) /\ setting (is_list is_num) j "ai_aux_s" (ai_aux_s d) (ai_aux_s x) /\
     setting (is_list is_num) j "ai_aux_f" (ai_aux_f d) (ai_aux_f x) /\ length (ai_aux_f x) = length (ai_aux_s x)) /\
    (setting is_str j "pcurr_type" (pcurr_type d) (pcurr_type x) /\
     setting (is_list is_num) j "ac" (ac d) (ac x) /\ setting (is_list is_num) j "ac_aux_s" (ac_aux_s d) (ac_aux_s x) /\
     setting (is_list is_num) j "ac_aux_f" (ac_aux_f d) (ac_aux_f x) /\ length (ac_aux_f x) = length (ac_aux_s x) /\
     setting is_num j "curtor" (curtor d) (curtor x) /\ setting is_num j "bloat" (bloat d) (bloat x)) /\
    (setting is_bool j "lfreeb" (lfreeb d) (lfreeb x) /\ setting is_str j "mgrid_file" (mgrid_file d) (mgrid_file x) /\
     setting (is_list is_num) j "extcur" (extcur d) (extcur x) /\ setting is_int j "nvacskip" (nvacskip d) (nvacskip x) /\
     setting is_method j "free_boundary_method" (free_boundary_method d) (free_boundary_method x)) /\
    (setting is_int j "nstep" (nstep d) (nstep x) /\ setting (is_list is_num) j "aphi" (aphi d) (aphi x) /\
     setting is_num j "delt" (delt d) (delt x) /\ setting is_num j "tcon0" (tcon0 d) (tcon0 x) /\
     setting is_bool j "lforbal" (lforbal d) (lforbal x) /\
     setting is_style j "iteration_style" (iteration_style d) (iteration_style x) /\
     setting is_bool j "return_outputs_even_if_not_converged" (return_outputs d) (return_outputs x)) /\
    ((exists g, setting (is_list is_num) j "raxis_c" (raxis_c d) g /\ padded g (raxis_c x) (ntor x + 1)) /\
     (exists g, setting (is_list is_num) j "zaxis_s" (zaxis_s d) g /\ padded g (zaxis_s x) (ntor x + 1)) /\
     boundary_setting j "rbc" (mpol x) (ntor x) (rbc d) (rbc x) /\
     boundary_setting j "zbs" (mpol x) (ntor x) (zbs d) (zbs x)) /\
    (if lasym x then
       (exists w g rs, member j "raxis_s" = Some w /\ is_list is_num w g /\ raxis_s x = Some rs /\ padded g rs (ntor x + 1)) /\
       (exists w g zc, member j "zaxis_c" = Some w /\ is_list is_num w g /\ zaxis_c x = Some zc /\ padded g zc (ntor x + 1)) /\
       (exists b, rbs x = Some b /\ boundary_setting j "rbs" (mpol x) (ntor x) (zero_mat (mpol x) (2 * ntor x + 1)) b) /\
       (exists b, zbc x = Some b /\ boundary_setting j "zbc" (mpol x) (ntor x) (zero_mat (mpol x) (2 * ntor x + 1)) b)
     else raxis_s x = None /\ zaxis_c x = None /\ rbs x = None /\ zbc x = None).

  (** The integer settings by name. *)
  Definition int_settings : list (string * (indata K -> Z)) :=
    [("nfp", nfp); ("mpol", mpol); ("ntor", ntor); ("mpol_geometry", mpol_geometry); ("ntor_geometry", ntor_geometry);
     ("ntheta", ntheta); ("nzeta", nzeta); ("ncurr", ncurr); ("nvacskip", nvacskip); ("nstep", nstep)]%string.

  (** *** Data of the right sizes. *)
  Definition well_sized (x : indata K) : Prop :=
    Z.of_nat (length (raxis_c x)) = ntor x + 1 /\ Z.of_nat (length (zaxis_s x)) = ntor x + 1 /\
    shaped (rbc x) (mpol x) (2 * ntor x + 1) /\ shaped (zbs x) (mpol x) (2 * ntor x + 1) /\
    (forall a, raxis_s x = Some a -> Z.of_nat (length a) = ntor x + 1) /\
    (forall a, zaxis_c x = Some a -> Z.of_nat (length a) = ntor x + 1) /\
    (forall b, rbs x = Some b -> shaped b (mpol x) (2 * ntor x + 1)) /\
    (forall b, zbc x = Some b -> shaped b (mpol x) (2 * ntor x + 1)).
  Definition asymmetric_present (x : indata K) : Prop :=
    raxis_s x <> None /\ zaxis_c x <> None /\ rbs x <> None /\ zbc x <> None.
  Definition asymmetric_absent (x : indata K) : Prop :=
    raxis_s x = None /\ zaxis_c x = None /\ rbs x = None /\ zbc x = None.

  (** Integers representable in the member types. *)
  Definition ints_fit (x : indata K) : Prop :=
    fits32 (nfp x) /\ fits32 (mpol x) /\ fits32 (ntor x) /\ fits32 (mpol_geometry x) /\ fits32 (ntor_geometry x) /\ fits32 (ntheta x) /\ fits32 (nzeta x) /\
    (forall z, In z (ns_array x) -> fits32 z) /\ (forall z, In z (niter_array x) -> fits32 z) /\
    fits32 (ncurr x) /\ fits32 (nvacskip x) /\ fits32 (nstep x).
  Definition fin_list (l : list K) : Prop := forall v, In v l -> nfinite v = true.
  Definition fin_mat (b : mat K) : Prop := forall row, In row (m_body b) -> fin_list row.
  Definition all_finite (x : indata K) : Prop :=
    fin_list (ftol_array x) /\ nfinite (phiedge x) = true /\
    fin_list (am x) /\ fin_list (am_aux_s x) /\ fin_list (am_aux_f x) /\ nfinite (pres_scale x) = true /\ nfinite (gamma x) = true /\ nfinite (spres_ped x) = true /\
    fin_list (ai x) /\ fin_list (ai_aux_s x) /\ fin_list (ai_aux_f x) /\
    fin_list (ac x) /\ fin_list (ac_aux_s x) /\ fin_list (ac_aux_f x) /\ nfinite (curtor x) = true /\ nfinite (bloat x) = true /\
    fin_list (extcur x) /\ fin_list (aphi x) /\ nfinite (delt x) = true /\ nfinite (tcon0 x) = true /\
    fin_list (raxis_c x) /\ fin_list (zaxis_s x) /\ fin_mat (rbc x) /\ fin_mat (zbs x).
  Definition matching_lengths (x : indata K) : Prop :=
    length (ftol_array x) = length (ns_array x) /\ length (niter_array x) = length (ns_array x) /\
    length (am_aux_f x) = length (am_aux_s x) /\ length (ai_aux_f x) = length (ai_aux_s x) /\ length (ac_aux_f x) = length (ac_aux_s x).

  (** Everything but the resolution and the coefficients. *)
  Definition same_settings (x y : indata K) : Prop :=
    lasym x = lasym y /\ nfp x = nfp y /\ mpol_geometry x = mpol_geometry y /\ ntor_geometry x = ntor_geometry y /\ ntheta x = ntheta y /\ nzeta x = nzeta y /\
    ns_array x = ns_array y /\ ftol_array x = ftol_array y /\ niter_array x = niter_array y /\ phiedge x = phiedge y /\ ncurr x = ncurr y /\
    pmass_type x = pmass_type y /\ am x = am y /\ am_aux_s x = am_aux_s y /\ am_aux_f x = am_aux_f y /\ pres_scale x = pres_scale y /\ gamma x = gamma y /\ spres_ped x = spres_ped y /\
    piota_type x = piota_type y /\ ai x = ai y /\ ai_aux_s x = ai_aux_s y /\ ai_aux_f x = ai_aux_f y /\
    pcurr_type x = pcurr_type y /\ ac x = ac y /\ ac_aux_s x = ac_aux_s y /\ ac_aux_f x = ac_aux_f y /\ curtor x = curtor y /\ bloat x = bloat y /\
    lfreeb x = lfreeb y /\ mgrid_file x = mgrid_file y /\ extcur x = extcur y /\ nvacskip x = nvacskip y /\ free_boundary_method x = free_boundary_method y /\
    nstep x = nstep y /\ aphi x = aphi y /\ delt x = delt y /\ tcon0 x = tcon0 y /\ lforbal x = lforbal y /\ iteration_style x = iteration_style y /\ return_outputs x = return_outputs y.

  (** Modes of the old resolution are kept, new ones are zero. *)
  Definition resized (mpol ntor mpol' ntor' : Z) (b b' : mat K) : Prop :=
    shaped b' mpol' (2 * ntor' + 1) /\
    forall m n, 0 <= m < mpol' -> - ntor' <= n <= ntor' ->
      (m < mpol -> - ntor <= n <= ntor -> coef ntor' b' m n = coef ntor b m n) /\
      (m >= mpol \/ n < - ntor \/ n > ntor -> coef ntor' b' m n = nZ 0).
  Definition resized_axis (ntor ntor' : Z) (a a' : list K) : Prop :=
    Z.of_nat (length a') = ntor' + 1 /\
    forall n, 0 <= n <= ntor' ->
      (n <= ntor -> nth (Z.to_nat n) a' (nZ 0) = nth (Z.to_nat n) a (nZ 0)) /\ (n > ntor -> nth (Z.to_nat n) a' (nZ 0) = nZ 0).

  (** An array absent from an object with lasym counts as zero. *)
  Definition given_axis (x : indata K) (o : option (list K)) : list K := match o with Some a => a | None => zeros (ntor x + 1) end.
  Definition given_mat (x : indata K) (o : option (mat K)) : mat K := match o with Some b => b | None => zero_mat (mpol x) (2 * ntor x + 1) end.
  Definition resolution_changed (mp' nt' : Z) (x y : indata K) : Prop :=
    mpol y = mp' /\ ntor y = nt' /\ same_settings x y /\
    resized_axis (ntor x) nt' (raxis_c x) (raxis_c y) /\ resized_axis (ntor x) nt' (zaxis_s x) (zaxis_s y) /\
    resized (mpol x) (ntor x) mp' nt' (rbc x) (rbc y) /\ resized (mpol x) (ntor x) mp' nt' (zbs x) (zbs y) /\
    (if lasym x then
       (exists a, raxis_s y = Some a /\ resized_axis (ntor x) nt' (given_axis x (raxis_s x)) a) /\
       (exists a, zaxis_c y = Some a /\ resized_axis (ntor x) nt' (given_axis x (zaxis_c x)) a) /\
       (exists b, rbs y = Some b /\ resized (mpol x) (ntor x) mp' nt' (given_mat x (rbs x)) b) /\
       (exists b, zbc y = Some b /\ resized (mpol x) (ntor x) mp' nt' (given_mat x (zbc x)) b)
     else raxis_s y = raxis_s x /\ zaxis_c y = zaxis_c x /\ rbs y = rbs x /\ zbc y = zbc x).

  (** All zeros of the matrix are +0. *)
  Definition plus_zero (b : mat K) : Prop := forall row v, In row (m_body b) -> In v row -> neq v (nZ 0) = true -> v = nZ 0.
End Spec.

(** *** Accepted inputs, exact arithmetic. *)
Definition acceptable (x : indata num_R) : Prop :=
  nfp x > 0 /\ mpol x >= 2 /\ ntor x >= 0 /\ ntheta x >= 0 /\ nzeta x >= 0 /\
  ns_array x <> [] /\ (forall ns, In ns (ns_array x) -> ns >= 3) /\
  (forall i j, (i <= j < length (ns_array x))%nat -> nth i (ns_array x) 0 <= nth j (ns_array x) 0) /\
  (forall i, (i < length (ns_array x))%nat -> (0 <= nth i (ftol_array x) 0)%R) /\
  (forall i, (i < length (ns_array x))%nat -> nth i (niter_array x) 0 > 0) /\
  (phiedge x <> 0)%R /\ (ncurr x = 0 \/ ncurr x = 1) /\ (0 <= pres_scale x)%R /\ (gamma x <> 1)%R /\ (0 < spres_ped x <= 1)%R /\
  (ncurr x = 0 -> bloat x = 1%R) /\
  (lfreeb x = true -> nvacskip x >= 1 /\ free_boundary_method x <> BIEST) /\
  nstep x > 0 /\ (0 < delt x <= 10)%R /\ (0 <= tcon0 x <= 1)%R /\
  Z.of_nat (length (raxis_c x)) = ntor x + 1 /\ Z.of_nat (length (zaxis_s x)) = ntor x + 1 /\
  m_rows (rbc x) = mpol x /\ m_cols (rbc x) = 2 * ntor x + 1 /\ m_rows (zbs x) = mpol x /\ m_cols (zbs x) = 2 * ntor x + 1 /\
  (lasym x = true -> exists rs zc b1 b2, raxis_s x = Some rs /\ zaxis_c x = Some zc /\ rbs x = Some b1 /\ zbc x = Some b2 /\
     Z.of_nat (length rs) = ntor x + 1 /\ Z.of_nat (length zc) = ntor x + 1 /\
     m_rows b1 = mpol x /\ m_cols b1 = 2 * ntor x + 1 /\ m_rows b2 = mpol x /\ m_cols b2 = 2 * ntor x + 1) /\
  (lasym x = false -> asymmetric_absent x).

(** *** Inputs that can be read without undefined behaviour or exceptions. *)
Definition plain_entries {K : num} (j : list (string * json K)) (name : string) : Prop :=
  forall ws l, member j name = Some (JArr ws) -> In (JObj l) ws ->
    (forall z, member l "m" = Some (JInt z) -> 0 <= z < 2 ^ 31) /\ (forall z, member l "n" = Some (JInt z) -> - 2 ^ 31 < z < 2 ^ 31).
Definition plain_json {K : num} (j : list (string * json K)) : Prop :=
  (forall z, member j "mpol" = Some (JInt z) -> 0 <= z < 2 ^ 31) /\
  (forall z, member j "ntor" = Some (JInt z) -> 0 <= z < 2 ^ 30) /\
  plain_entries j "rbc" /\ plain_entries j "zbs" /\ plain_entries j "rbs" /\ plain_entries j "zbc" /\
  (member j "lasym" = Some (JBool true) -> member j "raxis_s" <> None /\ member j "zaxis_c" <> None).
