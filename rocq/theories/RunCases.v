(** Concrete runs used beside the theorems about runs: a geometry is one number,
    the equilibrium is 0, each time step halves the distance. *)
From Coq Require Import ZArith List Bool.
From Verif Require Import Base Num LoopModel LoopSpec LoopCases RunModel RunSpec.
Import ListNotations.
Open Scope Z_scope.

Definition rc_in (ns : list Z) (retout cb : bool) : @rin num_f64 :=
  @mkRin num_f64 ns (map (fun _ => nfrac 1 1000000) ns) (map (fun _ => 300) ns)
    (nfrac 9 10) 10 false false retout 1 (Z.of_nat (length ns)) false cb.

(** Lambda scale: the flux derivative is 1 on every half-grid surface. *)
Definition rc_env (eval : @lc_state num_f64 -> @evalout num_f64 unit) (cb : Z -> bool)
  : @renv num_f64 num_f64 unit unit :=
  @mkRenv num_f64 num_f64 unit unit
    (fun _ _ => lc_ext eval cb) (fun _ => nZ 1) (fun _ _ g => nmul g (nZ 3))
    (fun ns => nZ (ns - 1)) (fun x => x).

Definition rc_fresh : @lc_state num_f64 := lc_raw VOff 1.

Definition rc_view (x : @run_result num_f64 num_f64 unit unit) :=
  (match x with RunCancelled _ => 0 | RunError _ => 1 | RunOk _ => 2 end,
   map (fun e => (l_grid e, l_ns e, l_out e)) (stages (run_state x))).
