(** C11, geometry part: is the geometry held after successful termination the
    one whose residuals were tested?  Yes under the restrictions of
    [C11_geometry_held_partial]; no in general (three refutations). *)
From Coq Require Import ZArith List Bool Lia.
From Flocq Require Import IEEE754.BinarySingleNaN.
From Verif Require Import Base Num NumB64 LoopModel LoopSpec LoopCases LoopProofs LoopConv LoopGeom.
Import ListNotations.
Open Scope Z_scope.

(** Full statement, refuted below: [forall c M g s s', 1 <= c_niterv c ->
    solve_equilibrium c M (init_stage c M g s) = StageOk s' -> status s' =
    ST_SUCCESS -> exists g' b r z l, last_eval (trace s') = Some (g',b,r,z,l) /\
    m_mask M (x s') = g'].  Proved here for IEEE doubles (any implementation of the
    logarithm), 8.52 style, preconditioned residuals that are not negative
    (infinite or NaN allowed), ftol at most 1/200, and no vacuum soft start in
    this stage. *)
Theorem C11_geometry_held_partial :
  forall (lg : b64 -> b64) (G V F : Type) (c : @cfg (num_b64 lg))
         (M : @ext (num_b64 lg) G V F) (g : G) s s',
    (forall s, let o := m_eval M s in
       b64_pos (o_r1 o) /\ b64_pos (o_z1 o) /\ b64_pos (o_l1 o)) ->
    (forall g, m_mask M (m_mask M g) = m_mask M g) ->
    b64_le (c_ftolv c) (b64_div (b64_ofZ 1) (b64_ofZ 200)) = true ->
    c_parvmec c = false ->
    (c_lfreeb c = false \/ vac s = VActive) ->
    1 <= c_niterv c ->
    solve_equilibrium c M (init_stage c M g s) = StageOk s' ->
    status s' = ST_SUCCESS ->
    exists g' b r z l, last_eval (trace s') = Some (g', b, r, z, l) /\
      m_mask M (x s') = g'.
Proof.
  intros lg G V F c M g s s' HO HM HF HP HV HN HE HS.
  eapply (stage_geom c M b64_pos); try exact HE; auto.
  - exact pos_ofZ_1.
  - exact leash_le_b64.
  - exact leash_self_b64.
  - intros s1. destruct (HO s1) as (A & B & C). apply pos_add; auto. apply pos_add; auto.
  - intros a b. apply loose_b64. exact HF.
Qed.
Print Assumptions C11_geometry_held_partial.

(** What goes wrong: the stage ends with SUCCESS, but the geometry it holds is
    not the one last evaluated. *)
Definition lost {K : num} {G V F : Type} (c : @cfg K) (M : @ext K G V F) (g : G) s : Prop :=
  exists s' g' b r z l,
    solve_equilibrium c M (init_stage c M g s) = StageOk s' /\
    status s' = ST_SUCCESS /\
    last_eval (trace s') = Some (g', b, r, z, l) /\ m_mask M (x s') <> g'.

(** Decision procedure for one-dimensional geometries (strictly larger is
    different). *)
Definition lost_b (c : @cfg num_f64) (M : @ext num_f64 num_f64 unit unit) : bool :=
  match lc_run c M VOff 1 with
  | StageOk s' => st_eqb (status s') ST_SUCCESS &&
      match last_eval (trace s') with
      | Some (g', _, _, _, _) => f64_lt g' (m_mask M (x s'))
      | None => false
      end
  | _ => false
  end.

Lemma f64_lt_irrefl a : f64_lt a a = false.
Proof.
  unfold f64_lt. destruct a as [s|s| |s m e]; cbn; auto; destruct s; auto;
    rewrite Z.compare_refl, Pos.compare_cont_refl; reflexivity.
Qed.

Lemma lost_b_sound c M : lost_b c M = true -> lost c M (nZ 1) (lc_raw VOff 1).
Proof.
  unfold lost_b, lc_run, lost.
  destruct (solve_equilibrium _ _ _) as [|s1|s1]; try discriminate.
  destruct (st_eqb _ _) eqn:ES; [|discriminate].
  destruct (last_eval (trace s1)) as [[[[[g b] r] z] l]|] eqn:EL; [|discriminate].
  cbn [andb]. intros H. exists s1, g, b, r, z, l. split; [reflexivity|].
  split; [destruct (status s1); auto; discriminate|]. split; [exact EL|].
  intros E. rewrite E, f64_lt_irrefl in H. discriminate.
Qed.

(** Witnesses: (a) the soft start of the vacuum pressure rolls the geometry back
    after the residuals of the converged geometry were computed. *)
Definition C11_soft_start : @ext num_f64 num_f64 unit unit :=
  lc_ext (fun s => lc_out (nmul (x s) (x s))) (fun _ => false).

(** (b) PARVMEC style: the previous residual sum, out of bounds by 10^4, is looked
    at again in the converged iteration. *)
Definition C11_parvmec : @ext num_f64 num_f64 unit unit :=
  lc_ext (fun s => let n := evals (trace s) in
    if Nat.ltb n 10 then lc_out3 (nZ 1) (nZ 1) (nZ (if Nat.ltb n 1 then 1 else 2))
    else if Nat.ltb n 11 then lc_out3 (nZ 1) (nZ 1) (nZ 1000000)
    else lc_out3 (nZ 0) (nZ 0) (nZ 1)) (fun _ => false).

(** (c) ftol = 0.006: "quite some iterations and quite large forces" fires in the
    converged iteration. *)
Definition C11_loose : @ext num_f64 num_f64 unit unit :=
  lc_ext (fun s => let n := evals (trace s) in
    if Nat.ltb n 60 then lc_out3 (nfrac 4 1000) (nZ 1) (nZ (if Nat.ltb n 1 then 1 else 2))
    else lc_out3 (nfrac 55 10000) (nfrac 1 1000) (nZ 2)) (fun _ => false).

Theorem C11_geometry_held_refuted :
  lost (lc_cfg 50 (nfrac 1 10000) false true false) C11_soft_start (nZ 1) (lc_raw VOff 1) /\
  lost (lc_cfg 100 (nfrac 1 1000) true false false) C11_parvmec (nZ 1) (lc_raw VOff 1) /\
  lost (lc_cfg 100 (nfrac 6 1000) false false false) C11_loose (nZ 1) (lc_raw VOff 1).
Proof.
  split; [|split]; apply lost_b_sound; vm_compute; reflexivity.
Qed.
Print Assumptions C11_geometry_held_refuted.

(** Instance of [C11_geometry_held_partial]: residual = |geometry|, doubles; the
    stage converges after some iterations. *)
Definition C11_num : num := num_b64 (fun a => a).
Definition C11_abs : @ext C11_num C11_num unit unit :=
  lc_ext (fun s => lc_out (nabs (x s))) (fun _ => false).

Lemma abs_pos (a : b64) : b64_pos (b64_abs a).
Proof.
  destruct (is_finite a) eqn:F.
  - apply pos_fin; [destruct a; auto|]. unfold b64_abs. rewrite B2R_Babs.
    apply Rbasic_fun.Rabs_pos.
  - destruct a; try discriminate; reflexivity.
Qed.

Example C11_geometry_instance :
  let c : @cfg C11_num := lc_cfg 30 (nfrac 1 1000) false false false in
  (forall s, let o := m_eval C11_abs s in
     b64_pos (o_r1 o) /\ b64_pos (o_z1 o) /\ b64_pos (o_l1 o)) /\
  b64_le (c_ftolv c) (b64_div (b64_ofZ 1) (b64_ofZ 200)) = true /\
  lc_ok (lc_run c C11_abs VOff 1) = true.
Proof.
  split; [|split; vm_compute; reflexivity].
  intros s. cbn. repeat split; apply abs_pos.
Qed.
