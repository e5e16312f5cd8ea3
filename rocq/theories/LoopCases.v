(** Concrete stages used as non-trivial instances beside the theorems on the
    stage loop: a geometry is one number, the equilibrium is 0, each time step
    halves the distance. *)
From Coq Require Import ZArith List Bool SpecFloat.
From Verif Require Import Base Num LoopModel LoopSpec.
Import ListNotations.
Open Scope Z_scope.

Section Cases.
Context {K : num}.

Definition lc_out3 (r l r1 : K) : @evalout K unit :=
  @mkOut K unit false false false false r r l r1 r1 r1 tt.
Definition lc_out (r : K) : @evalout K unit := lc_out3 r r r.

Definition lc_bad : @evalout K unit :=
  @mkOut K unit true false false false (nZ 0) (nZ 0) (nZ 0) (nZ 0) (nZ 0) (nZ 0) tt.

Definition lc_state := @st K K unit unit.

(** Before InitializeRadial: everything zero. *)
Definition lc_raw (vs : vacuum_state) (nvs : Z) : lc_state :=
  let z := nZ 0 in
  @mkSt K K unit unit z tt z tt 0 0 0 NO_RESTART z z z z z z z z z z
        (repeat z 10) vs nvs 0 ST_NORMAL true false false 0 [].

Definition lc_ext (eval : lc_state -> @evalout K unit) (cb : Z -> bool)
  : @ext K K unit unit :=
  @mkExt K K unit unit eval
    (fun _ _ _ _ _ g => (ndiv g (nZ 2), tt))
    tt (nZ 0) (nZ 1) (fun g => g) cb.

Definition lc_cfg (niter : Z) (ftol : K) (parvmec lfreeb cb : bool) : @cfg K :=
  @mkCfg K niter ftol (nfrac 9 10) 10 parvmec lfreeb 11 false cb.

(** Residual = geometry. *)
Definition lc_relax : lc_state -> @evalout K unit := fun s => lc_out (x s).

(** As [lc_relax], but the very first evaluations find a bad Jacobian. *)
Definition lc_relax_bad (n : nat) : lc_state -> @evalout K unit :=
  fun s => if Nat.ltb (evals (trace s)) n then lc_bad else lc_out (x s).

Definition lc_run (c : cfg) (M : @ext K K unit unit) (vs : vacuum_state) (nvs : Z) : stage_result :=
  solve_equilibrium c M (init_stage c M (nZ 1) (lc_raw vs nvs)).

End Cases.

Definition lc_final {K : num} {G V F : Type} (r : @stage_result K G V F) : @st K G V F :=
  match r with StageCancelled s | StageError s | StageOk s => s end.
Definition lc_ok {K : num} {G V F : Type} (r : @stage_result K G V F) : bool :=
  match r with StageOk s => st_eqb (status s) ST_SUCCESS | _ => false end.
