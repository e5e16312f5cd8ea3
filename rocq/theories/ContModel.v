(** Change of resolution of a solution and the continuation driver,
    src/vmecpp/_continuation.py. NumPy functions used there (linspace, interp,
    sqrt, elementwise arithmetic) follow NumPy's documented algorithms:
    numpy/core/function_base.py (linspace), numpy/core/src/multiarray/
    compiled_base.c (arr_interp); these are not part of the repository.
    Arrays of integers are converted to numbers by the generic pass; this
    conversion is not modelled. *)
From Coq Require Import String ZArith List Bool.
From Verif Require Import Base Num IndataModel PyCoefModel.
Import ListNotations.
Open Scope Z_scope.

Definition znth {A} (l : list A) (i : Z) (d : A) : A := nth (Z.to_nat i) l d.

Section Cont.
  Context {K : num} (nsqrt : K -> K).

  Definition isnan (x : K) : bool := negb (neq x x).

  (** np.linspace(0.0, 1.0, n). *)
  Definition linspace (n : Z) : list K :=
    let step := if n =? 1 then nZ 1 else ndiv (nZ 1) (nZ (n - 1)) in
    map (fun i => if (1 <? n) && (i =? n - 1) then nZ 1 else nadd (nmul (nZ i) step) (nZ 0)) (zrange 0 n).

  (** Number of leading elements not above [x]. *)
  Fixpoint count_le (x : K) (l : list K) : Z :=
    match l with [] => 0 | a :: r => if nle a x then 1 + count_le x r else 0 end.

  (** np.interp at one point, increasing [xp]. *)
  Definition np_interp (x : K) (xp fp : list K) : K :=
    let n := zlen xp in
    if isnan x then x else
    if nlt (znth xp (n - 1) (nZ 0)) x then znth fp (n - 1) (nZ 0) else
    if nlt x (znth xp 0 (nZ 0)) then znth fp 0 (nZ 0) else
    let j := count_le x (tl xp) in
    if j =? n - 1 then znth fp j (nZ 0) else
    if neq (znth xp j (nZ 0)) x then znth fp j (nZ 0) else
    let y0 := znth fp j (nZ 0) in let y1 := znth fp (j + 1) (nZ 0) in
    let x0 := znth xp j (nZ 0) in let x1 := znth xp (j + 1) (nZ 0) in
    let slope := ndiv (nsub y1 y0) (nsub x1 x0) in
    let r := nadd (nmul slope (nsub x x0)) y0 in
    if isnan r then
      let r := nadd (nmul slope (nsub x x1)) y1 in
      if isnan r && neq y0 y1 then y0 else r
    else r.

  (** _state_mode_table, lines 61-76: the pairs (xm, xn). *)
  Definition state_mode_table (mpol ntor nfp : Z) : list (Z * Z) :=
    flat_map (fun m =>
      let n_min := if m =? 0 then 0 else - ntor in
      map (fun n => (m, n * nfp)) (zrange n_min (ntor + 1))) (zrange 0 mpol).

  (** _radial_interpolate of one row, lines 79-100. *)
  Definition radial_interpolate_row (ns_new : Z) (row : list K) : list K :=
    let ns_old := zlen row in
    if ns_old =? ns_new then row
    else map (fun x => np_interp x (linspace ns_old) row) (linspace ns_new).

  (** 1 / sqrt(s), the axis value copied from index 1, lines 131-137. *)
  Definition inv_scale (sq : list K) : list K :=
    map (fun i => ndiv (nZ 1) (znth sq (if i =? 0 then 1 else i) (nZ 0))) (zrange 0 (zlen sq)).

  (** One row of _radial_interpolate_geometry, lines 139-147; at least two surfaces on both sides. *)
  Definition geometry_row (m : Z) (ns_old ns_new : Z) (row : list K) : list K :=
    let old_sqrt_s := map nsqrt (linspace ns_old) in
    let new_sqrt_s := map nsqrt (linspace ns_new) in
    let old_scale := inv_scale old_sqrt_s in
    let new_scale := inv_scale new_sqrt_s in
    let odd_m := m mod 2 =? 1 in
    let radial :=
      if odd_m then
        let r := map (fun i => nmul (znth row i (nZ 0)) (znth old_scale i (nZ 0))) (zrange 0 ns_old) in
        if ns_old >=? 3 then set_nth 0 (nsub (nmul (nZ 2) (znth r 1 (nZ 0))) (znth r 2 (nZ 0))) r else r
      else row in
    let interpolated := map (fun x => np_interp x old_sqrt_s radial) new_sqrt_s in
    if odd_m then
      set_nth 0 (nZ 0) (map (fun i => ndiv (znth interpolated i (nZ 0)) (znth new_scale i (nZ 0))) (zrange 0 ns_new))
    else interpolated.

  (** _radial_interpolate_geometry, lines 103-148. With one surface the access
      old_scale[1] raises. *)
  Definition radial_interpolate_geometry (values : mat K) (xm : list Z) (ns_new : Z) : outcome (mat K) :=
    let ns_old := m_cols values in
    if ns_old =? ns_new then Ok values else
    _ <- raise_unless ((2 <=? ns_old) && (2 <=? ns_new)) ;;
    Ok (mkMat (m_rows values) ns_new
      (map (fun i => geometry_row (znth xm i 0) ns_old ns_new (znth (m_body values) i [])) (zrange 0 (m_rows values)))).

  (** Dictionary from modes to row numbers; a later duplicate replaces an earlier
      one, lines 160-164. *)
  Definition src_index (src : list (Z * Z)) (mn : Z * Z) : option Z :=
    for_up 0 (zlen src) (fun i acc =>
      let '(m, n) := znth src i (0, 0) in
      if (m =? fst mn) && (n =? snd mn) then Some i else acc) None.

  (** _remap_modes, lines 150-171. values[j] beyond the array raises IndexError. *)
  Fixpoint remap_rows (values : mat K) (src dst : list (Z * Z)) : outcome (list (list K)) :=
    match dst with
    | [] => Ok []
    | mn :: r =>
        row <- match src_index src mn with
               | None => Ok (zeros (m_cols values))
               | Some j => _ <- raise_unless (j <? m_rows values) ;; Ok (znth (m_body values) j [])
               end ;;
        rest <- remap_rows values src r ;; Ok (row :: rest)
    end.
  Definition remap_modes (values : mat K) (src dst : list (Z * Z)) : outcome (mat K) :=
    rows <- remap_rows values src dst ;; Ok (mkMat (zlen dst) (m_cols values) rows).

  (** _remap_axis, lines 174-182. *)
  Definition remap_axis (values : list K) (ntor_new : Z) : list K :=
    let cut := firstn (Z.to_nat (ntor_new + 1)) values in cut ++ zeros (ntor_new + 1 - zlen cut).

  (** Fields of VmecWOut that are arrays: 1-D or 2-D. Other fields are [w_rest]. *)
  Inductive array := A1 (v : list K) | A2 (v : mat K).
  Definition last_dim (a : array) : Z := match a with A1 v => zlen v | A2 v => m_cols v end.
  Definition size (a : array) : Z := match a with A1 v => zlen v | A2 v => m_rows v * m_cols v end.
  Definition radial_interpolate (a : array) (ns_new : Z) : array :=
    match a with
    | A1 v => A1 (radial_interpolate_row ns_new v)
    | A2 v => if m_cols v =? ns_new then A2 v else A2 (mkMat (m_rows v) ns_new (map (radial_interpolate_row ns_new) (m_body v)))
    end.

  Record wout := mkWout {
    w_nfp : Z; w_ns : Z; w_mpol : Z; w_ntor : Z; w_mnmax : Z; w_modes : list (Z * Z);   (* (xm, xn) *)
    w_geometry : list (string * option (mat K));      (* rmnc zmns lmns lmns_full rmns zmnc lmnc lmnc_full *)
    w_axis : list (string * option (list K));         (* raxis_cc zaxis_cs raxis_cs zaxis_cc *)
    w_arrays : list (string * array) }.               (* all other arrays except xm_nyq, xn_nyq *)

  Fixpoint map_fields {A} (f : A -> outcome A) (l : list (string * option A)) : outcome (list (string * option A)) :=
    match l with
    | [] => Ok []
    | (name, None) :: r => t <- map_fields f r ;; Ok ((name, None) :: t)
    | (name, Some a) :: r => b <- f a ;; t <- map_fields f r ;; Ok ((name, Some b) :: t)
    end.

  (** interpolate_solution, lines 185-258; [ns_new], [mpol_new], [ntor_new] are those of the target input. *)
  Definition interpolate_solution (w : wout) (ns_new mpol_new ntor_new : Z) : outcome wout :=
    let dst := state_mode_table mpol_new ntor_new (w_nfp w) in
    geometry <- map_fields (fun v => r <- remap_modes v (w_modes w) dst ;; radial_interpolate_geometry r (map fst dst) ns_new) (w_geometry w) ;;
    axis <- map_fields (fun v => Ok (remap_axis v ntor_new)) (w_axis w) ;;
    let arrays := map (fun p => (fst p,
      if size (snd p) =? 0 then snd p
      else if last_dim (snd p) =? w_ns w then radial_interpolate (snd p) ns_new else snd p)) (w_arrays w) in
    Ok (mkWout (w_nfp w) ns_new mpol_new ntor_new (zlen dst) dst geometry axis arrays).
End Cont.
Arguments array : clear implicits.
Arguments wout : clear implicits.

(** *** The driver. *)
Section Driver.
  Context {K : num} {Rest Out : Type}.

  (** A resolution setting: an integer, or one per step. *)
  Inductive resolution := Scalar (z : Z) | Schedule (l : list Z).
  (** The part of VmecInput the driver touches; [i_rest] is everything else. *)
  Record input := mkInput {
    i_mpol : resolution; i_ntor : resolution;
    i_ns : list Z; i_ftol : list K; i_niter : list Z;
    i_boundary : list (string * option (mat K));       (* rbc zbs rbs zbc *)
    i_axis : list (string * option (list K));          (* raxis_c zaxis_s raxis_s zaxis_c *)
    i_rest : Rest }.

  (** _final_resolution, __init__.py:103-106; an empty schedule raises. *)
  Definition final (r : resolution) : Z := match r with Scalar z => z | Schedule l => last l 0 end.

  (** _step_input, lines 261-294. *)
  Definition step_input (b : input) (ns mpol ntor : Z) (ftol : K) (niter : Z) : outcome input :=
    boundary <- map_fields (fun c => resize_2d_coeff c mpol ntor) (i_boundary b) ;;
    axis <- map_fields (fun a => Ok (remap_axis a ntor)) (i_axis b) ;;
    Ok (mkInput (Scalar mpol) (Scalar ntor) [ns] [ftol] [niter] boundary axis (i_rest b)).

  (** _resolve, lines 334-346. *)
  Definition resolve (r : resolution) (n_steps : Z) : outcome (list Z) :=
    match r with
    | Scalar z => Ok (repeat z (Z.to_nat n_steps))
    | Schedule l => _ <- raise_unless (zlen l =? n_steps) ;; Ok l
    end.

  (** l[i] of a Python list; the driver only uses i >= 0. *)
  Definition item {A} (l : list A) (i : Z) : outcome A := match nth_error l (Z.to_nat i) with Some a => Ok a | None => Throws end.

  (** vmecpp.run on one step and interpolate_solution are parameters here; every
      call of [run] is recorded. *)
  Context (run : input -> option Out -> outcome Out) (interp : Out -> input -> outcome Out).

  Fixpoint steps (b : input) (mpols ntors : list Z) (i : Z) (k : nat) (output : option Out)
      : list (input * option Out) * outcome (option Out) :=
    match k with
    | O => ([], Ok output)
    | S k =>
        let next := (
          ns <- item (i_ns b) i ;; mp <- item mpols i ;; nt <- item ntors i ;; ft <- item (i_ftol b) i ;; ni <- item (i_niter b) i ;;
          s <- step_input b ns mp nt ft ni ;;
          g <- match output with None => Ok None | Some o => r <- interp o s ;; Ok (Some r) end ;; Ok (s, g)) in
        match next with
        | Ok (s, g) =>
            match run s g with
            | Ok o => let '(calls, r) := steps b mpols ntors (i + 1) k (Some o) in ((s, g) :: calls, r)
            | Error => ([(s, g)], Error) | Throws => ([(s, g)], Throws) | UB => ([(s, g)], UB)
            end
        | Error => ([], Error) | Throws => ([], Throws) | UB => ([], UB)
        end
    end.

  (** _run_fourier_continuation, lines 297-377: the calls of [run] and the result
      (the last output; its [input] attribute is replaced by the original input,
      which is not shown here). Line 376 asserts that there is an output. *)
  Definition run_fourier_continuation (b : input) (restart_from : option Out) : list (input * option Out) * outcome Out :=
    let n_steps := zlen (i_ns b) in
    match resolve (i_mpol b) n_steps, resolve (i_ntor b) n_steps with
    | Ok mpols, Ok ntors =>
        let '(calls, r) := steps b mpols ntors 0 (Z.to_nat n_steps) restart_from in
        (calls, o <- r ;; match o with Some o => Ok o | None => Throws end)
    | _, _ => ([], Throws)
    end.
End Driver.
Arguments input : clear implicits.
