(** The wrapper for SIMSOPT: class Vmec of src/vmecpp/simsopt_compat.py, 45-600.
    [K] stands for doubles, [k0] for 0.0; [O] collects the input fields that the
    wrapper never touches, [Q] is VmecOutput, [W] VmecWOut.  External: vmecpp.run
    ([solve], None for a RuntimeError; it does not change its argument), wout.save
    (succeeds), the conversion to and from the C++ input in set_mpol_ntor ([resize],
    new arrays), and SIMSOPT: a change of the degrees of freedom of the object calls
    set_dofs and recompute_bell, a change of the boundary's coefficients calls
    recompute_bell, to_RZFourier and copy of a SurfaceRZFourier return the same
    coefficients, change_resolution keeps the common modes in place.  mpol and ntor
    are plain integers; boundaries are SurfaceRZFourier.  MPI, logging, the radial
    grids (SimsGridModel) and the quadrature points are left out. *)
From Coq Require Import ZArith List Bool String Ascii.
Import ListNotations.
Open Scope Z_scope.

(** ** _make_wout_filename, 581-600, on the base name of the input file *)
Fixpoint str_len (s : string) : nat := match s with EmptyString => O | String _ r => S (str_len r) end.
Fixpoint starts (p s : string) : bool :=
  match p, s with
  | EmptyString, _ => true
  | String a p, String b s => Ascii.eqb a b && starts p s
  | _, _ => false
  end.
Fixpoint drop (n : nat) (s : string) : string := match n, s with S n, String _ s => drop n s | _, _ => s end.
Fixpoint take (n : nat) (s : string) : string := match n, s with S n, String a s => String a (take n s) | _, _ => EmptyString end.
Definition ends (p s : string) : bool := (str_len p <=? str_len s)%nat && String.eqb (drop (str_len s - str_len p) s) p.
(** str.split(".") *)
Fixpoint split_dot (s : string) : list string :=
  match s with
  | EmptyString => [EmptyString]
  | String a r =>
      if Ascii.eqb a "."%char then EmptyString :: split_dot r
      else match split_dot r with w :: ws => String a w :: ws | [] => [String a EmptyString] end
  end.
(** ".".join *)
Fixpoint join_dot (l : list string) : string :=
  match l with [] => EmptyString | [w] => w | w :: ws => (w ++ "." ++ join_dot ws)%string end.
Definition make_wout_filename (base : string) : option string :=
  let out :=
    if starts "input." base && ends ".json" base then Some (join_dot (removelast (tl (split_dot base))))
    else if ends ".json" base then Some (take (str_len base - str_len ".json") base)
    else if starts "input." base then Some (drop (str_len "input.") base)
    else None in
  match out with Some o => Some ("wout_" ++ o ++ ".nc")%string | None => None end.

(** __init__, 127: names taken as input files *)
Definition accepts_input (base : string) : bool := starts "input" base || ends ".json" base.

Section Sims.
Context {K O Q W : Type}.
Variable k0 : K.
Record dofs := mkDofs { delt : K; tcon0 : K; phiedge : K; curtor : K; gamma : K }.
Record indata := mkIn {
  i_mpol : Z; i_ntor : Z; i_lasym : bool; i_dofs : dofs;
  i_ns : list Z; i_ftol : list K; i_niter : list Z;
  i_rbc : list (list K); i_zbs : list (list K); i_rbs : list (list K); i_zbc : list (list K);
  i_raxis_c : list K; i_zaxis_s : list K; i_raxis_s : list K; i_zaxis_c : list K;
  i_other : O }.
(** SurfaceRZFourier: m = 0 … mpol inclusive, n = -ntor … ntor; arrays indexed [m, n + ntor] *)
Record surface := mkSurf { s_mpol : Z; s_ntor : Z; s_rc : Z -> Z -> K; s_zs : Z -> Z -> K; s_rs : Z -> Z -> K; s_zc : Z -> Z -> K }.
Record vmec := mkV {
  v_runnable : bool; v_need : bool; v_iter : Z; v_keep : bool; v_file : string;
  v_indata : indata; v_boundary : surface; v_wout : option W;
  v_calls : list (indata * option Q); (* calls of vmecpp.run, newest first *)
  v_saved : list (string * W) }.
Inductive outcome := Done | ObjectiveFailure | RuntimeError.
Variable solve : indata -> option Q -> option Q.
Variable wout_of : Q -> W.
Variable resize : indata -> Z -> Z -> list (list K) * list (list K) * list (list K) * list (list K) * (list K * list K * list K * list K).

Definition zrange (n : Z) : list Z := map Z.of_nat (seq 0 (Z.to_nat n)).
(** SurfaceRZFourier.change_resolution *)
Definition chg (c : Z -> Z -> K) (s : surface) (mpol ntor : Z) : Z -> Z -> K :=
  fun m i => let n := i - ntor in
    if (m <=? s_mpol s) && (- s_ntor s <=? n) && (n <=? s_ntor s) then c m (n + s_ntor s) else k0.
Definition change_resolution (s : surface) (mpol ntor : Z) : surface :=
  mkSurf mpol ntor (chg (s_rc s) s mpol ntor) (chg (s_zs s) s mpol ntor) (chg (s_rs s) s mpol ntor) (chg (s_zc s) s mpol ntor).
(** _surface_rzfourier_resolution, 451-454 *)
Definition surface_resolution (mpol ntor : Z) : Z * Z := (mpol - 1, ntor).
(** _resize_surface_rzfourier, 456-464 *)
Definition resize_surface (s : surface) (mpol ntor : Z) : surface :=
  if (s_mpol s =? mpol) && (s_ntor s =? ntor) then s else change_resolution s mpol ntor.
Definition get (c : Z -> Z -> K) (s : surface) (m n : Z) : K := c m (n + s_ntor s).
Definition fill (l : list K) : list K := map (fun _ => k0) l.
Definition fill2 (l : list (list K)) : list (list K) := map fill l.
(** the double loop of set_indata *)
Definition transfer (mpol ntor : Z) (c : Z -> Z -> K) (s : surface) : list (list K) :=
  map (fun m => map (fun n => get c s m (n - ntor)) (zrange (2 * ntor + 1))) (zrange mpol).
(** set_indata, 466-520; None: RuntimeError *)
Definition set_indata (v : vmec) : option vmec :=
  if negb (v_runnable v) then None else
  let vi := v_indata v in
  let '(tm, tn) := surface_resolution (i_mpol vi) (i_ntor vi) in
  let b := resize_surface (v_boundary v) tm tn in
  let vi' := mkIn (i_mpol vi) (i_ntor vi) (i_lasym vi) (i_dofs vi) (i_ns vi) (i_ftol vi) (i_niter vi)
    (transfer (i_mpol vi) (i_ntor vi) (s_rc b) b) (transfer (i_mpol vi) (i_ntor vi) (s_zs b) b)
    (if i_lasym vi then transfer (i_mpol vi) (i_ntor vi) (s_rs b) b else i_rbs vi)
    (if i_lasym vi then transfer (i_mpol vi) (i_ntor vi) (s_zc b) b else i_zbc vi)
    (fill (i_raxis_c vi)) (fill (i_zaxis_s vi))
    (if i_lasym vi then fill (i_raxis_s vi) else i_raxis_s vi) (if i_lasym vi then fill (i_zaxis_c vi) else i_zaxis_c vi)
    (i_other vi) in
  Some (mkV (v_runnable v) (v_need v) (v_iter v) (v_keep v) (v_file v) vi' (v_boundary v) (v_wout v) (v_calls v) (v_saved v)).
(** l[-1:] *)
Definition last1 {X} (l : list X) : list X := skipn (List.length l - 1) l.
Definition restart_indata (vi : indata) : indata :=
  mkIn (i_mpol vi) (i_ntor vi) (i_lasym vi) (i_dofs vi) (last1 (i_ns vi)) (last1 (i_ftol vi)) (last1 (i_niter vi))
    (i_rbc vi) (i_zbs vi) (i_rbs vi) (i_zbc vi) (i_raxis_c vi) (i_zaxis_s vi) (i_raxis_s vi) (i_zaxis_c vi) (i_other vi).
(** run, 214-277 *)
Definition run (restart : option Q) (v : vmec) : vmec * outcome :=
  if negb (v_need v) then (v, Done) else
  if negb (v_runnable v) then (v, RuntimeError) else
  let v := mkV (v_runnable v) (v_need v) (v_iter v + 1) (v_keep v) (v_file v) (v_indata v) (v_boundary v) (v_wout v) (v_calls v) (v_saved v) in
  match set_indata v with
  | None => (v, RuntimeError)
  | Some v =>
      let ind := match restart with Some _ => restart_indata (v_indata v) | None => v_indata v end in
      let calls := (ind, restart) :: v_calls v in
      match solve ind restart with
      | None => (mkV (v_runnable v) (v_need v) (v_iter v) (v_keep v) (v_file v) (v_indata v) (v_boundary v) (v_wout v) calls (v_saved v), ObjectiveFailure)
      | Some q =>
          let w := wout_of q in
          if v_keep v then
            match make_wout_filename (v_file v) with
            | None => (mkV (v_runnable v) (v_need v) (v_iter v) (v_keep v) (v_file v) (v_indata v) (v_boundary v) (Some w) calls (v_saved v), RuntimeError)
            | Some f => (mkV (v_runnable v) false (v_iter v) (v_keep v) (v_file v) (v_indata v) (v_boundary v) (Some w) calls ((f, w) :: v_saved v), Done)
            end
          else (mkV (v_runnable v) false (v_iter v) (v_keep v) (v_file v) (v_indata v) (v_boundary v) (Some w) calls (v_saved v), Done)
      end
  end.
(** aspect, volume, iota_axis, …, 294-326 and 370-424: run, then read the result; None: an exception *)
Definition access {X} (f : W -> X) (v : vmec) : vmec * option X :=
  let '(v, o) := run None v in
  (v, match o with Done => option_map f (v_wout v) | _ => None end).
(** recompute_bell, 211-212 *)
Definition bell (v : vmec) : vmec :=
  mkV (v_runnable v) true (v_iter v) (v_keep v) (v_file v) (v_indata v) (v_boundary v) (v_wout v) (v_calls v) (v_saved v).
Definition with_indata (v : vmec) (vi : indata) : vmec :=
  mkV (v_runnable v) (v_need v) (v_iter v) (v_keep v) (v_file v) vi (v_boundary v) (v_wout v) (v_calls v) (v_saved v).
Definition with_boundary (v : vmec) (b : surface) : vmec :=
  mkV (v_runnable v) (v_need v) (v_iter v) (v_keep v) (v_file v) (v_indata v) b (v_wout v) (v_calls v) (v_saved v).
(** set_dofs, 360-368, and the bell of SIMSOPT *)
Definition set_dofs (x : dofs) (v : vmec) : vmec :=
  if v_runnable v then
    let vi := v_indata v in
    bell (with_indata v (mkIn (i_mpol vi) (i_ntor vi) (i_lasym vi) x (i_ns vi) (i_ftol vi) (i_niter vi)
      (i_rbc vi) (i_zbs vi) (i_rbs vi) (i_zbc vi) (i_raxis_c vi) (i_zaxis_s vi) (i_raxis_s vi) (i_zaxis_c vi) (i_other vi)))
  else bell v.
(** SIMSOPT: the coefficients of the boundary change *)
Definition change_surface (b : surface) (v : vmec) : vmec := bell (with_boundary v b).
(** the setter of boundary with another object, 430-437 *)
Definition set_boundary (b : surface) (v : vmec) : vmec := bell (with_boundary v b).
(** get_input and write_input, 533-551: the input object that is written *)
Definition get_input (v : vmec) : vmec * option indata :=
  match set_indata v with Some v => (v, Some (v_indata v)) | None => (v, None) end.
(** set_mpol_ntor, 553-578 *)
Definition set_mpol_ntor (mpol ntor : Z) (v : vmec) : vmec :=
  let vi := v_indata v in
  let '(rbc, zbs, rbs, zbc, (rac, zas, ras, zac)) := resize vi mpol ntor in
  let vi' := mkIn mpol ntor (i_lasym vi) (i_dofs vi) (i_ns vi) (i_ftol vi) (i_niter vi) rbc zbs rbs zbc rac zas ras zac (i_other vi) in
  let '(tm, tn) := surface_resolution mpol ntor in
  bell (with_boundary (with_indata v vi') (resize_surface (v_boundary v) tm tn)).
(** __init__ from an input file, 86-175: [vi] is the content of the file.  The loop
    copies the coefficients with the same index into the surface. *)
Definition entry (l : list (list K)) (m n : Z) : K := nth (Z.to_nat n) (nth (Z.to_nat m) l []) k0.
Definition init (file : string) (keep : bool) (vi : indata) : vmec :=
  let '(tm, tn) := surface_resolution (i_mpol vi) (i_ntor vi) in
  let cp (on : bool) l m n := if on && (0 <=? m) && (m <? i_mpol vi) && (0 <=? n) && (n <? 2 * i_ntor vi + 1) then entry l m n else k0 in
  let b := mkSurf tm tn (cp true (i_rbc vi)) (cp true (i_zbs vi)) (cp (i_lasym vi) (i_rbs vi)) (cp (i_lasym vi) (i_zbc vi)) in
  mkV true true (-1) keep file vi b None [] [].
(** __init__ from a wout file, 177-184 and 206-209 *)
Definition init_wout (file : string) (keep : bool) (vi : indata) (b : surface) (w : W) : vmec :=
  mkV false false 0 keep file vi b (Some w) [] [].

(** What a user does with the object. *)
Inductive op :=
| OpDofs (x : dofs) | OpSurface (b : surface) | OpReplace (b : surface) | OpMpolNtor (mpol ntor : Z)
| OpRun (restart : option Q) | OpAccess | OpGetInput
| OpEdit (f : indata -> indata) (* assignment to a field of vmec.indata *).
Definition step (o : op) (v : vmec) : vmec :=
  match o with
  | OpDofs x => set_dofs x v
  | OpSurface b => change_surface b v
  | OpReplace b => set_boundary b v
  | OpMpolNtor m n => set_mpol_ntor m n v
  | OpRun r => fst (run r v)
  | OpAccess => fst (run None v)
  | OpGetInput => fst (get_input v)
  | OpEdit f => with_indata v (f (v_indata v))
  end.
Definition steps (l : list op) (v : vmec) : vmec := fold_left (fun v o => step o v) l v.
End Sims.
