(** Property C17: the Python driver of a stage and the C++ driver. *)
From Coq Require Import ZArith List Bool Lia SpecFloat Reals Lra.
From Verif Require Import Base Num LoopModel LoopSpec LoopCases PyIterModel PyIterSpec PyIterProofs PyIterSim PyIterCases.
Import ListNotations.
Open Scope Z_scope.

(** Fixed boundary, no callback, full output not forced; the forward model is a function of the
    state and avoids the situations of [tame].  Then, from a freshly
    initialised stage, both drivers end with the same verdict after the same
    evaluations, time steps (with the same time-step lengths, velocities and
    geometries), saves, roll-backs and re-initialisations; only at the very end may
    the C++ driver touch its backup once more.
    Missing for the full claim: the situations excluded by [tame]; the claim
    is false there, see below. *)
Theorem C17_same_run_partial : forall (K : num) (G V F : Type) (c : @cfg K) (M : @ext K G V F) (good : K -> Prop) (g : G) (s : @st K G V F),
  c_lfreeb c = false -> c_cb c = false -> c_retout c = false -> 1 <= c_niterv c ->
  function_of_state M -> sane good -> tame c good M ->
  interrupted s = false -> vac_eqb (vac s) VInitialized = false ->
  let s0 := init_stage c M g s in
  let r := solve_equilibrium c M s0 in
  let q := py_solve c M (style_of c) s0 in
  cpp_verdict r = py_verdict q /\
  exists extra, actions (trace (cpp_state r)) = extra ++ actions (trace (py_state q)) /\ Forall is_backup extra /\
    (cpp_verdict r = Unfinished -> extra = []) /\ (extra = [] -> x (cpp_state r) = x (py_state q)).
Proof. intros. apply (solve_sim c M good); assumption. Qed.
Print Assumptions C17_same_run_partial.

(** A forward model to which the theorem applies: it starts with overlapping
    surfaces, has its axis re-guessed, and converges. *)
Lemma C17_sane_R : @sane num_R (fun a : R => (0 < a)%R).
Proof.
  split; cbn [neq nle nlt ndiv nmul nZ num_R].
  - intros a A. unfold Reqb. destruct (Req_EM_T a 0) as [E|]; [|reflexivity]. lra.
  - intros a A. unfold Reqb. destruct (Req_EM_T a (-1)) as [E|]; [|reflexivity]. lra.
  - intros a b A B. unfold Rleb. destruct (Rle_dec (a / b) 0) as [L|]; [|reflexivity]. exfalso.
    assert (0 < a / b)%R by (apply Rdiv_lt_0_compat; assumption). lra.
  - intros a b A L. unfold Rleb, Rltb in *. destruct (Rle_dec a b) as [L'|]; [|discriminate L]. destruct (Rlt_dec (100 * b) a) as [Q|]; [|reflexivity]. lra.
Qed.

Definition C17_case_ext {K : num} : @ext K K unit unit := lc_ext pi_tame (fun _ => false).
Definition C17_case_cfg {K : num} (p : bool) : @cfg K := lc_cfg 60 (nfrac 1 1000) p false false.

Example C17_same_run_case : forall p : bool,
  function_of_state (@C17_case_ext num_R) /\ tame (@C17_case_cfg num_R p) (fun a : R => (0 < a)%R) (@C17_case_ext num_R).
Proof.
  intros p. split.
  - intros s s' (A1 & A2 & A3 & A4 & A5 & A6 & A7 & _). cbn [m_eval C17_case_ext lc_ext]. unfold pi_tame. rewrite A6, A7. reflexivity.
  - intros s. cbn [m_eval C17_case_ext lc_ext]. unfold pi_tame. cbv zeta.
    destruct ((ijacob s =? 0) && (iter2 s =? 1)) eqn:E.
    + apply andb_prop in E. destruct E as [_ E]. apply Z.eqb_eq in E. split; [intros _; left; exact E|intros Q; discriminate Q].
    + destruct ((ijacob s <? 75) && (15 <? iter2 s)) eqn:E2; (split; [intros Q; discriminate Q|intros _]).
      * apply andb_prop in E2. destruct E2 as [E2 E3]. apply Z.ltb_lt in E2, E3.
        split; [reflexivity|]. split; [intros; lia|]. split; [intros; lia|]. split; [cbn; lra|]. cbn. unfold Reqb. match goal with |- context [Req_EM_T ?a ?b] => destruct (Req_EM_T a b) end; [lra|reflexivity].
      * split; [reflexivity|]. split; [|split; [|split]]; cbn.
        -- intros _ _ _. unfold Rltb. match goal with |- context [Rlt_dec ?a ?b] => destruct (Rlt_dec a b) end; [lra|reflexivity].
        -- intros _. unfold below. cbn. unfold Rleb. match goal with |- context [Rle_dec ?a ?b] => destruct (Rle_dec a b) end; [lra|reflexivity].
        -- lra.
        -- unfold Reqb. match goal with |- context [Req_EM_T ?a ?b] => destruct (Req_EM_T a b) end; [lra|reflexivity].
Qed.

(** The same model run in binary64: 18 evaluations, and both drivers converge. *)
Example C17_same_run_case_result : forall p : bool,
  let c := @C17_case_cfg num_f64 p in
  let s0 := init_stage c C17_case_ext (nZ 1) (lc_raw VOff 1) in
  cpp_verdict (solve_equilibrium c C17_case_ext s0) = Converged /\
  py_verdict (py_solve c C17_case_ext (style_of c) s0) = Converged /\
  evals (trace (py_state (py_solve c C17_case_ext (style_of c) s0))) = 17%nat.
Proof. intros [|]; repeat split; vm_compute; reflexivity. Qed.

(** Lists that differ otherwise than by the newest entries. *)
Lemma not_suffix {A} (h : A -> Z) (a b : list A) :
  (if list_eq_dec Z.eq_dec (map h (skipn (length a - length b) a)) (map h b) then false else true) = true -> forall e, a <> e ++ b.
Proof.
  intros N e E. assert (Q : skipn (length a - length b) a = b).
  { rewrite E, app_length. replace (length e + length b - length b)%nat with (length e) by lia.
    rewrite skipn_app, skipn_all, Nat.sub_diag. reflexivity. }
  rewrite Q in N. destruct (list_eq_dec _ _ _); [discriminate N|contradiction].
Qed.

(** 8.52, one bad Jacobian after more than ten improving iterations: the C++ driver
    rolls back in its save branch and does not count the iteration as bad, the
    Python driver rolls back and counts it; from then on the iteration
    numbers differ and the saves come at different iterations. *)
Definition C17_late : @ext num_f64 num_f64 unit unit := lc_ext (pi_eval (Nat.eqb 13)) (fun _ => false).
Theorem C17_8_52_refuted : exists (c : @cfg num_f64) (M : @ext num_f64 num_f64 unit unit) g s,
  c_lfreeb c = false /\ c_cb c = false /\ c_retout c = false /\ c_parvmec c = false /\ 1 <= c_niterv c /\ function_of_state M /\
  interrupted s = false /\ vac s = VOff /\
  let s0 := init_stage c M g s in
  forall extra, actions (trace (cpp_state (solve_equilibrium c M s0))) <> extra ++ actions (trace (py_state (py_solve c M Vmec852 s0))).
Proof.
  exists (lc_cfg 60 (nfrac 1 1000000000) false false false), C17_late, (nZ 1), (lc_raw VOff 1).
  do 5 (split; [reflexivity || (cbn; lia)|]). split.
  { intros s s' (A1 & A2 & A3 & A4 & A5 & A6 & A7 & A8 & A9 & A10 & A11 & A12 & A13 & A14 & A15 & A16).
    cbn [m_eval C17_late lc_ext]. unfold pi_eval, pi_evals. rewrite A1, A16. reflexivity. }
  do 2 (split; [reflexivity|]). cbv zeta. apply (not_suffix shape). vm_compute. reflexivity.
Qed.
Print Assumptions C17_8_52_refuted.

(** PARVMEC style, surfaces overlap in the course of the run: the C++ driver rolls
    back and gives up after 75 bad Jacobians, the Python driver never rolls
    back and reports an unfinished run. *)
Definition C17_wall : @ext num_f64 num_f64 unit unit := lc_ext pi_wall (fun _ => false).
Theorem C17_parvmec_refuted : exists (c : @cfg num_f64) (M : @ext num_f64 num_f64 unit unit) g s,
  c_lfreeb c = false /\ c_cb c = false /\ c_retout c = false /\ c_parvmec c = true /\ 1 <= c_niterv c /\ function_of_state M /\
  interrupted s = false /\ vac s = VOff /\
  let s0 := init_stage c M g s in
  cpp_verdict (solve_equilibrium c M s0) = Failed /\ py_verdict (py_solve c M Parvmec s0) = Unfinished /\
  (forall b, ~ In (EvRollback b) (trace (py_state (py_solve c M Parvmec s0)))).
Proof.
  exists (lc_cfg 600 (nfrac 1 1000000000) true false false), C17_wall, (nZ 1), (lc_raw VOff 1).
  do 5 (split; [reflexivity || (cbn; lia)|]). split.
  { intros s s' (A1 & _). cbn [m_eval C17_wall lc_ext]. unfold pi_wall. rewrite A1. reflexivity. }
  do 2 (split; [reflexivity|]). cbv zeta. split; [vm_compute; reflexivity|]. split; [vm_compute; reflexivity|].
  intros b I. apply (in_map shape) in I. cbn [shape] in I.
  assert (Q : forallb (fun z => negb (z =? 5)) (map shape (trace (py_state (py_solve (lc_cfg 600 (nfrac 1 1000000000) true false false) C17_wall Parvmec
                (init_stage (lc_cfg 600 (nfrac 1 1000000000) true false false) C17_wall (nZ 1) (lc_raw VOff 1)))))) = true) by (vm_compute; reflexivity).
  rewrite forallb_forall in Q. specialize (Q 5 I). discriminate Q.
Qed.
Print Assumptions C17_parvmec_refuted.

(** Huge forces in the first evaluation: the axis is re-guessed by both drivers, but
    the C++ driver keeps the velocity of the step it made before, the Python driver
    restarts from rest. *)
Theorem C17_velocity_refuted : exists (c : @cfg num_f64) (M : @ext num_f64 num_f64 Z unit) g s,
  c_lfreeb c = false /\ c_cb c = false /\ c_retout c = false /\ 1 <= c_niterv c /\ function_of_state M /\
  interrupted s = false /\ vac s = VOff /\
  let s0 := init_stage c M g s in
  velocities (actions (trace (cpp_state (solve_equilibrium c M s0)))) <> velocities (actions (trace (py_state (py_solve c M (style_of c) s0)))).
Proof.
  exists (lc_cfg 60 (nfrac 1 1000000000) false false false), (pi_vext true), (nZ 1), pi_vraw.
  do 4 (split; [reflexivity || (cbn; lia)|]). split.
  { intros s s' (A1 & A2 & A3 & A4 & A5 & A6 & A7 & A8 & A9 & A10 & A11 & A12 & A13 & A14 & A15 & A16).
    cbn [m_eval pi_vext]. rewrite A1, A16. reflexivity. }
  do 2 (split; [reflexivity|]). cbv zeta. intros E. apply (f_equal (fun l => hd 0 l)) in E. revert E. vm_compute. discriminate.
Qed.
Print Assumptions C17_velocity_refuted.
