(** Property theorems C76: profiles given as a function. *)
From Coq Require Import String ZArith List Bool Reals Lia Lra SpecFloat.
From Verif Require Import Base BaseLemmas Num SumLemmas IndataModel IndataProofs ContModel ProfileModel ProfileSpec PolyProofs ProfileGridProofs ProfileProps MgSpec SetProfModel SetProfProofs.
Import ListNotations.
Open Scope R_scope.

(** The modified input as seen by the solver. *)
Definition as_profile (p : py_profile num_R) : profile_in := mk_profile_in (py_type p) (py_coeffs p) (py_knots p) (py_values p).

Lemma torflux_1 x : torflux [1] x = x.
Proof. rewrite torflux_eval. change (vlen [1]) with 1%Z. unfold zsum. change (zrange 0 1) with [0%Z]. cbn [rsum]. unfold vat. change (Z.to_nat 0) with 0%nat. change (Z.to_nat (0 + 1)) with 1%nat. simpl. ring. Qed.

Lemma half_range ns j : (2 <= ns)%Z -> (0 <= j < ns - 1)%Z -> 0 <= half_pos ns j <= 1.
Proof.
  intros Hn Hj. unfold half_pos. assert (2 <= IZR ns) by (apply IZR_le; lia). assert (0 <= IZR j) by (apply IZR_le; lia).
  assert (IZR j <= IZR ns - 2) by (rewrite <- minus_IZR; apply IZR_le; lia). split.
  - apply Rmult_le_pos; [lra|]. apply Rlt_le, Rinv_0_lt_compat. lra.
  - apply Rmult_le_reg_r with (IZR ns - 1); [lra|]. unfold Rdiv. rewrite Rmult_assoc, Rinv_l by lra. lra.
Qed.
Lemma full_range ns j : (2 <= ns)%Z -> (0 <= j < ns)%Z -> 0 <= full_pos ns j <= 1.
Proof.
  intros Hn Hj. unfold full_pos. assert (2 <= IZR ns) by (apply IZR_le; lia). assert (0 <= IZR j) by (apply IZR_le; lia).
  assert (IZR j <= IZR ns - 1) by (rewrite <- minus_IZR; apply IZR_le; lia). split.
  - apply Rmult_le_pos; [lra|]. apply Rlt_le, Rinv_0_lt_compat. lra.
  - apply Rmult_le_reg_r with (IZR ns - 1); [lra|]. unfold Rdiv. rewrite Rmult_assoc, Rinv_l by lra. lra.
Qed.

(** C76, exact arithmetic: whatever the function and the multigrid schedule, on every
    surface of every step the solver's profile has the value of the function there:
    rotational transform on full and half grid, current and mass on the half grid and
    at the edge, with the default flux profile, no pedestal and no bloating. Missing
    from the full claim: rounding. *)
Theorem C76_exact_partial ns_array (f : R -> R) dm tiny mu0 pres_scale : ns_array <> [] -> (forall ns, In ns ns_array -> (2 <= ns)%Z) ->
  exists pi pc pm, SetProfModel.set_profile (K := num_R) "iota" ns_array f = Ok pi /\ SetProfModel.set_profile (K := num_R) "current" ns_array f = Ok pc /\
    SetProfModel.set_profile (K := num_R) "pressure" ns_array f = Ok pm /\
  forall g ns, In ns ns_array -> gi_aphi g = [1] -> gi_spres_ped g = 1 ->
    gi_iota g = evalIotaProfile dm tiny (as_profile pi) -> gi_curr g = evalCurrProfile dm tiny 1 (as_profile pc) ->
    gi_mass g = evalMassProfile dm tiny mu0 pres_scale 1 (as_profile pm) ->
    (forall jF, (0 <= jF < ns)%Z -> iotaF g ns jF = Val (f (IZR jF / (IZR ns - 1)))) /\
    (forall jH, (0 <= jH < ns - 1)%Z ->
       let s := (IZR jH + 1 / 2) / (IZR ns - 1) in
       iotaH g ns jH = Val (flip_sign (gi_flip g) (f s)) /\
       (forall it, currH g it ns jH = Val (f s * it)) /\
       gi_curr g 1 = Val (f 1) /\
       massH g ns jH = obind (std_pow (Rabs (gi_mtf g * torfluxDeriv [1] s) * gi_r00 g) (gi_gamma g)) (fun w => Val (f s * (mu0 * pres_scale) * w))).
Proof.
  intros Hne H. destruct (collect_R ns_array [] I H) as (knots & E & Ha & _ & Hin).
  assert (E' : @collect num_R ns_array (@nil (N num_R)) = Ok knots) by exact E. clear E. unfold SetProfModel.set_profile. rewrite E'. cbn [obind String.eqb Ascii.eqb Bool.eqb].
  eexists; eexists; eexists. split; [reflexivity|]. split; [reflexivity|]. split; [reflexivity|].
  intros g ns Hns Haphi Hped Hi Hc Hm. pose proof (H ns Hns) as Hn.
  pose proof (asc_increasing _ Ha) as Hinc.
  assert (H2 : (2 <= List.length knots)%nat).
  { assert (N : NoDup [pos ns 0; pos ns 1]).
    { constructor; [|constructor; [intros []|constructor]]. intros [EE|[]]. unfold pos in EE. assert (2 <= IZR ns) by (apply IZR_le; lia). rewrite minus_IZR in EE.
      unfold Rdiv in EE. apply Rmult_eq_reg_r in EE; [lra|]. apply Rinv_neq_0_compat. lra. }
    apply (NoDup_incl_length N). intros y [<-|[<-|[]]]; apply (Hin ns Hns); lia. }
  assert (V : forall s, In s knots -> evalLineSegment knots (map f knots) s = f s) by (intros s Hs; apply interp_exact; assumption).
  assert (I1 : forall j, (0 <= j < ns)%Z -> In (full_pos ns j) knots) by (intros j Hj; rewrite full_pos_pos; apply (Hin ns Hns); exact Hj).
  assert (I2 : forall j, (0 <= j < ns - 1)%Z -> In (half_pos ns j) knots) by (intros j Hj; rewrite half_pos_pos by exact Hn; apply (Hin ns Hns); lia).
  assert (I3 : In 1 knots).
  { replace 1 with (full_pos ns (ns - 1)); [apply I1; lia|]. unfold full_pos. rewrite minus_IZR. field. assert (2 <= IZR ns) by (apply IZR_le; lia). lra. }
  assert (M : forall s, 0 <= s <= 1 -> Rmin (Rabs (s * 1)) 1 = s) by (intros s Hs; rewrite Rmult_1_r, Rabs_right, Rmin_left by lra; reflexivity).
  split.
  - intros jF HF. unfold iotaF. rewrite Hi, Haphi, torflux_1. pose proof (full_range ns jF Hn HF). rewrite Rmin_left by lra.
    change (Val (evalLineSegment knots (map f knots) (full_pos ns jF)) = Val (f (full_pos ns jF))). rewrite V by auto. reflexivity.
  - intros jH HH. cbv zeta. change ((IZR jH + 1 / 2) / (IZR ns - 1)) with (half_pos ns jH). pose proof (half_range ns jH Hn HH) as Hr. split; [|split; [|split]].
    + unfold iotaH. rewrite Hi, Haphi, torflux_1, Rmin_left by lra.
      change (Val (flip_sign (gi_flip g) (evalLineSegment knots (map f knots) (half_pos ns jH))) = Val (flip_sign (gi_flip g) (f (half_pos ns jH)))). rewrite V by auto. reflexivity.
    + intros it. unfold currH. rewrite Hc, Haphi, torflux_1, Rmin_left by lra. unfold evalCurrProfile. cbv zeta. rewrite M by exact Hr.
      change (Val (evalLineSegment knots (map f knots) (half_pos ns jH) * it) = Val (f (half_pos ns jH) * it)). rewrite V by auto. reflexivity.
    + rewrite Hc. unfold evalCurrProfile. cbv zeta. rewrite M by lra. change (Val (evalLineSegment knots (map f knots) 1) = Val (f 1)). rewrite V by auto. reflexivity.
    + unfold massH. cbv zeta. rewrite Hm, Haphi, Hped, torflux_1. rewrite !Rmin_left by (try rewrite Rmin_left; lra). unfold evalMassProfile. cbv zeta. rewrite M by exact Hr.
      change (obind (std_pow (Rabs (gi_mtf g * torfluxDeriv [1] (half_pos ns jH)) * gi_r00 g) (gi_gamma g)) (fun w => Val (evalLineSegment knots (map f knots) (half_pos ns jH) * (mu0 * pres_scale) * w))
        = obind (std_pow (Rabs (gi_mtf g * torfluxDeriv [1] (half_pos ns jH)) * gi_r00 g) (gi_gamma g)) (fun w => Val (f (half_pos ns jH) * (mu0 * pres_scale) * w))).
      rewrite V by auto. reflexivity.
Qed.
Print Assumptions C76_exact_partial.

(** C76 refuted in double precision. The surfaces computed by the solver and the knots
    computed by Python can differ in the last bit, and just right of a knot the line
    segment profile is not continuous (see C32). With f(s) = s^2 and a single grid of
    seven surfaces, iota on surface 5 is wrong by more than 0.01 (0.6806 instead of
    0.6944); with twelve surfaces, iota on half-grid surface 5 is wrong by more than 0.004. *)
Definition square (x : num_f64) : num_f64 := nmul x x.
Lemma holds_of {A} (o : IndataModel.outcome A) (c : A -> bool) : match o with Ok p => c p | _ => false end = true -> exists p, o = Ok p /\ c p = true.
Proof. destruct o as [p| | |]; intros H; try discriminate. exists p. auto. Qed.
Theorem C76_refuted :
  (exists p, SetProfModel.set_profile (K := num_f64) "iota" [7%Z] square = Ok p /\
     @nlt num_f64 (nfrac 1 100) (nabs (nsub (square (full_position 7 5)) (iota_full p 7 5))) = true) /\
  (exists p, SetProfModel.set_profile (K := num_f64) "iota" [12%Z] square = Ok p /\
     @nlt num_f64 (nfrac 4 1000) (nabs (nsub (square (half_position 12 5)) (iota_half p 12 5))) = true).
Proof. split; apply holds_of; vm_compute; reflexivity. Qed.
Print Assumptions C76_refuted.

(** A schedule with two grids. *)
Example C76_case : [3%Z; 5%Z] <> [] /\ (forall ns, In ns [3%Z; 5%Z] -> (2 <= ns)%Z) /\ gi_aphi (mk_grid_in 1 [1] Val Val Val 1 0 1 false) = [1].
Proof. split; [discriminate|]. split; [|reflexivity]. cbn. intuition lia. Qed.
