(** The multigrid run: [Vmec::run] and the part of [Vmec::InitializeRadial] that
    decides what a stage starts from, on top of the stage loop (LoopModel.v).

    All C++ paths are relative to /repo/src/vmecpp/cpp/vmecpp.

    Simplifications:
    - no checkpoint is requested;
    - the checks before the loop (mgrid loading, IsConsistent,
      CheckInitialState, vmec.cc:230-258) are outside: the model starts from an
      accepted input;
    - geometry constructions (boundary and axis, hot restart, interpolation) are
      arbitrary functions. *)
From Coq Require Import ZArith List Bool.
From Verif Require Import Base Num LoopModel.
Import ListNotations.
Open Scope Z_scope.

Section Run.
Context {K : num} {G V F : Type}.
Notation st := (@st K G V F).

(** Settings of a run: members of VmecINDATA read by run() and
    InitializeRadial, the arguments of run(), and whether an interrupt callback is
    installed. *)
Record rin : Type := mkRin {
  r_ns : list Z; r_ftol : list K; r_niter : list Z;
  r_delt : K; r_nstep : Z; r_parvmec : bool; r_lfreeb : bool; r_retout : bool;
  r_nvacskip : Z;
  r_maxgrid : Z;      (* maximum_multi_grid_step *)
  r_hot : bool;       (* initial_state.has_value() *)
  r_cb : bool
}.

(** Environment: the forward model of a stage with [ns] surfaces and lambda
    scale [lam]; the first geometry; interpolation from [ns_old] to [ns]; sum of
    squares of the flux derivative over the half grid (rmsPhiP); square root. *)
Record renv : Type := mkRenv {
  e_ext : Z -> K -> @ext K G V F;
  e_first : Z -> G;
  e_interp : Z -> Z -> G -> G;
  e_rms : Z -> K;
  e_sqrt : K -> K
}.

(** What a stage did: grid index (negative for the inserted ns=3 stage), number of
    surfaces, tolerance, lambda scale in force, and its outcome. *)
Inductive outcome : Type := OCancelled | OError | OStatus (s : vmec_status).
Record stage_log : Type := mkLog {
  l_grid : Z; l_ns : Z; l_ftol : K; l_lam : K; l_out : outcome
}.

(** State of the run: solver state, fc_.ns_old, fc_.ns_min, fc_.niterv,
    constants_.lamscale, stages run so far (newest first). *)
Record rst : Type := mkRst {
  sol : st; ns_old : Z; ns_min : Z; niterv : Z; lam : K; stages : list stage_log
}.

Context (i : rin) (E : renv).

Definition stage_cfg (ns niter : Z) (ftol : K) : @cfg K :=
  mkCfg niter ftol (r_delt i) (r_nstep i) (r_parvmec i) (r_lfreeb i) ns
        (r_retout i) (r_cb i).

(** constants_.lamscale = sqrt(rmsPhiP * deltaS), vmec.cc:699; deltaS =
    1 / (ns - 1), vmec.cc:549. *)
Definition lamscale_of (ns : Z) : K :=
  e_sqrt E (nmul (e_rms E ns) (ndiv (nZ 1) (nsub (nZ ns) (nZ 1)))).

(** InitializeRadial, vmec.cc:508-766.  The counters are always reset; the
    ns-dependent objects (model with its nvacskip, profiles and with them the
    lambda scale, geometry, velocity, backup) are only rebuilt if ns changes. *)
Definition initialize_radial (ns niter : Z) (ftol : K) (r : rst) : rst :=
  let s := sol r in
  let s := set_fsq (nZ 1) (set_iter2 1 (set_iter1 1 (set_ijacob 0 s))) in
  let s := set_reason NO_RESTART (set_res0 (nZ (-1)) (set_res1 (nZ (-1)) s)) in
  let s := set_delt0r (r_delt i) s in
  let s := if r_lfreeb i && negb (ns_old r =? 0) && (ns_old r <? ns)
              && vac_eqb (vac s) VActive
           then set_vac VInitialized s else s in
  if ns_old r =? ns then
    mkRst s (ns_old r) (ns_min r) (niterv r) (lam r) (stages r)
  else
    let linterp := (ns_old r <? ns) && negb (ns_old r =? 0) in
    let g := if linterp then e_interp E (ns_old r) ns (x s) else e_first E ns in
    let s := set_nvacskip (r_nvacskip i) (set_ivacskip 0 s) in
    let l := lamscale_of ns in
    mkRst (init_stage (stage_cfg ns niter ftol) (e_ext E ns l) g s)
          ns (ns_min r) (niterv r) l (stages r).

(** Result of the grid loop: [GStop] = return from run(). *)
Inductive grid_result : Type :=
| GReturn (cancelled : bool) (r : rst)
| GNext (giving_up : bool) (r : rst).

Definition hard (v : vmec_status) : bool :=
  match v with ST_NORMAL | ST_SUCCESS => false | _ => true end.

(** One stage and the checks after it, vmec.cc:341-381: [inl] leaves the loop over
    grids. *)
Definition run_stage (grid ns niter : Z) (ftol : K) (r : rst) : grid_result + rst :=
  let r := initialize_radial ns niter ftol r in
  let res := solve_equilibrium (stage_cfg ns niter ftol) (e_ext E ns (lam r)) (sol r) in
  let upd o s := mkRst s (ns_old r) (ns_min r) (niterv r) (lam r)
                   (mkLog grid ns ftol (lam r) o :: stages r) in
  match res with
  | StageCancelled s => inl (GReturn true (upd OCancelled s))
  | StageError s => inl (GReturn false (upd OError s))
  | StageOk s =>
      let r := upd (OStatus (status s)) s in
      if hard (status s) then
        if r_retout i then inl (GNext true r) else inl (GReturn false r)
      else inr r
  end.

(** The loop over igrid, vmec.cc:300-386. *)
Fixpoint grid_loop (grids : list Z) (r : rst) : grid_result :=
  match grids with
  | [] => GNext false r
  | igrid :: rest =>
      let r := mkRst (sol r) (ns_old r) (ns_min r) (niterv r) (nZ 0) (stages r) in
      if igrid <? 0 then
        let r := mkRst (set_vac VOff (sol r)) (ns_old r) (ns_min r) (niterv r) (lam r)
                       (stages r) in
        match run_stage igrid 3 (niterv r) (nfrac 1 10000) r with
        | inl g => g | inr r => grid_loop rest r
        end
      else
        let nsval := nth (Z.to_nat igrid) (r_ns i) 0 in
        if nsval <? ns_min r then grid_loop rest r
        else
          let ftol := nth (Z.to_nat igrid) (r_ftol i) (nZ 0) in
          let niter := nth (Z.to_nat igrid) (r_niter i) 0 in
          let r := mkRst (sol r) (ns_old r) nsval niter (lam r) (stages r) in
          match run_stage igrid nsval niter ftol r with
          | inl g => g | inr r => grid_loop rest r
          end
  end.

Inductive run_result : Type :=
| RunCancelled (r : rst) | RunError (r : rst) | RunOk (r : rst).

(** After the loop over jacob_off, vmec.cc:402-457. *)
Definition finish_run (r : rst) : run_result :=
  if negb (st_eqb (status (sol r)) ST_SUCCESS) && negb (r_retout i)
  then RunError r else RunOk r.

(** Number of grids, vmec.cc:299. *)
Definition max_grids : Z := Z.min (Z.of_nat (length (r_ns i))) (r_maxgrid i).

(** The loop over jacob_off, vmec.cc:273-400. *)
Fixpoint jacob_loop (offs : list Z) (r : rst) : run_result :=
  match offs with
  | [] => finish_run r
  | jacob_off :: rest =>
      let s := if r_lfreeb i && r_hot i then set_vac VInitialized (sol r) else sol r in
      let r := mkRst s (ns_old r) 3 (niterv r) (lam r) (stages r) in
      match grid_loop (zrange (- jacob_off) max_grids) r with
      | GReturn true r => RunCancelled r
      | GReturn false r => RunError r
      | GNext giving_up r =>
          if giving_up then finish_run r
          else if negb (st_eqb (status (sol r)) ST_BAD_JACOBIAN) then finish_run r
          else jacob_loop rest r
      end
  end.

(** Vmec::run from vmec.cc:260 on; [s] is the state the solver object was left in
    (constructor or an earlier run). *)
Definition run (s : st) : run_result :=
  jacob_loop [0; 1]
    (mkRst (set_delt0r (r_delt i) s) 0 3 0 (nZ 0) []).

End Run.
