(** Property C80: the iteration styles of the Python driver. *)
From Coq Require Import ZArith List Bool SpecFloat.
From Verif Require Import Base Num LoopModel LoopSpec LoopCases PyIterModel PyIterSpec PyIterCases PyStyleSpec PyStyleProofs.
Import ListNotations.
Open Scope Z_scope.

(** Fixed boundary; any two of the styles vmec_8_52, parvmec, robust, started from
    the same state.  If neither run reverts the geometry, both make the same
    evaluations and time steps (same lengths, velocities and geometries) and axis
    re-guesses, and end with the same verdict in the same geometry. *)
Theorem C80_styles_differ_in_reverts : forall (K : num) (G V F : Type) (c : @cfg K) (M : @ext K G V F) (a b : style) (s : @st K G V F),
  c_lfreeb c = false -> blind_to_control M ->
  let r := py_solve c M a s in
  let q := py_solve c M b s in
  never_reverts (py_state r) -> never_reverts (py_state q) ->
  py_verdict r = py_verdict q /\ moves (trace (py_state r)) = moves (trace (py_state q)) /\ x (py_state r) = x (py_state q) /\
  fsqr (py_state r) = fsqr (py_state q) /\ fsqz (py_state r) = fsqz (py_state q) /\ fsql (py_state r) = fsql (py_state q).
Proof.
  intros K G V F c M a b s FB BL r q N1 N2. destruct (solve_alike c M FB BL a b s N1 N2) as [A B].
  unfold alike in B. split; [exact A|]. tauto.
Qed.
Print Assumptions C80_styles_differ_in_reverts.

(** Overlapping surfaces at the start, re-guessed axis, convergence: no style
    reverts, and yet they save at different times. *)
Definition C80_ext : @ext num_f64 num_f64 unit unit := lc_ext pi_tame (fun _ => false).
Definition C80_run (a : style) := py_solve (lc_cfg 60 (nfrac 1 1000) false false false) C80_ext a
  (init_stage (lc_cfg 60 (nfrac 1 1000) false false false) C80_ext (nZ 1) (lc_raw VOff 1)).
Definition C80_saves (a : style) : nat := length (filter (fun z => z =? 4) (map shape (trace (py_state (C80_run a))))).

Example C80_styles_case : blind_to_control C80_ext /\ (forall a, never_reverts (py_state (C80_run a))) /\
  (forall a, py_verdict (C80_run a) = Converged) /\ C80_saves Vmec852 <> C80_saves Parvmec.
Proof.
  split.
  { intros s p (_ & _ & _ & _ & A & B & _). cbn [m_eval C80_ext lc_ext]. unfold pi_tame. rewrite A, B. reflexivity. }
  split.
  { intros a g I. apply (in_map shape) in I. cbn [shape] in I.
    assert (Q : forallb (fun z => negb (z =? 5)) (map shape (trace (py_state (C80_run a)))) = true) by (destruct a; vm_compute; reflexivity).
    rewrite forallb_forall in Q. specialize (Q 5 I). discriminate Q. }
  split; [intros [| |]; vm_compute; reflexivity|]. vm_compute. discriminate.
Qed.
