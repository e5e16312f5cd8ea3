(** The current density, the force residual and the flux surface averages of the
    jxbout output, vmec/output_quantities/output_quantities.cc:2501-2840.  Exact
    arithmetic.  Matrices are flat arrays (row = surface) as indexed by the
    source; new arrays are zero.  Simplifications: each output array and each
    accumulator has its own loop, where the source fills several in one; local
    variables of the loop over the grid points (kl) are functions of kl.
    DBL_EPSILON and DBL_MAX are the real numbers they stand for. *)
From Coq Require Import ZArith Bool Reals.
From Verif Require Import Base SizesModel.
Open Scope R_scope.

(** common/util/util.h:189 *)
Definition MU_0 : R := 4 / 10 ^ 7 * PI.
(** 2561 *)
Definition dnorm1 : R := 4 * PI * PI.
(** float.h *)
Definition DBL_EPSILON : R := / 2 ^ 52.
Definition DBL_MAX : R := (2 - / 2 ^ 52) * 2 ^ 1023.

(** What is read: members of vmec_internal_results, the derivatives of the filter
    (covariant_b_derivatives) and bsubs_full. *)
Record jxb_in := mkJxbIn {
  x_dVdsH : Z -> R; x_presH : Z -> R; x_phipH : Z -> R; x_phiF : Z -> R;
  x_gsqrt : Z -> R; x_total_pressure : Z -> R;
  x_bsubu : Z -> R; x_bsubv : Z -> R; x_bsupu : Z -> R; x_bsupv : Z -> R;
  x_guu : Z -> R; x_guv : Z -> R; x_gvv : Z -> R;
  x_bsubsu : Z -> R; x_bsubsv : Z -> R; x_bsubuv : Z -> R; x_bsubvu : Z -> R;
  x_bsubs_full : Z -> R; x_sign_of_jacobian : R }.

Section J.
  Context (s : sizes) (ns : Z) (deltaS : R) (d : jxb_in).
  Local Notation nZnT := (sz_nZnT s).

  (** Half-grid values inside and outside of the full-grid surface [jF], 2564-2565. *)
  Definition inside (a : Z -> R) (jF kl : Z) : R := a ((jF - 1) * nZnT + kl)%Z.
  Definition outside (a : Z -> R) (jF kl : Z) : R := a (jF * nZnT + kl)%Z.

  (** 2570-2573 *)
  Definition ovp (jF : Z) : R := 2 / (x_dVdsH d jF + x_dVdsH d (jF - 1)%Z) / dnorm1.
  (** 2575 *)
  Definition tjnorm (jF : Z) : R := ovp jF * x_sign_of_jacobian d.
  (** 2578-2584 *)
  Definition pprime (jF : Z) : R := 1 / MU_0 * (x_presH d jF - x_presH d (jF - 1)%Z) / deltaS.
  Definition pprime_ovp (jF : Z) : R := pprime jF * ovp jF.
  Definition pnorm (jF : Z) : R := 1 / (Rabs (pprime_ovp jF) + DBL_EPSILON).

  (** 2604-2616 *)
  Definition sqgb2 (jF kl : Z) : R :=
    let bsq_outside := outside (x_total_pressure d) jF kl - x_presH d jF in
    let bsq_inside := inside (x_total_pressure d) jF kl - x_presH d (jF - 1)%Z in
    outside (x_gsqrt d) jF kl * bsq_outside + inside (x_gsqrt d) jF kl * bsq_inside.
  (** 2630-2631 *)
  Definition kperpu (jF kl : Z) : R := 1 / 2 * (outside (x_bsubv d) jF kl + inside (x_bsubv d) jF kl) * pprime jF / sqgb2 jF kl.
  Definition kperpv (jF kl : Z) : R := 1 / 2 * (outside (x_bsubu d) jF kl + inside (x_bsubu d) jF kl) * pprime jF / sqgb2 jF kl.
  (** 2635-2648 *)
  Definition kp2 (jF kl : Z) : R :=
    let term_uu := kperpu jF kl * kperpu jF kl * (outside (x_guu d) jF kl + inside (x_guu d) jF kl) / 2 in
    let term_uv := kperpu jF kl * kperpv jF kl * (outside (x_guv d) jF kl + inside (x_guv d) jF kl) / 2 in
    let term_vv := kperpv jF kl * kperpv jF kl * (outside (x_gvv d) jF kl + inside (x_gvv d) jF kl) / 2 in
    term_uu + 2 * term_uv + term_vv.
  (** 2652-2659 *)
  Definition itheta_pt (jF kl : Z) : R :=
    let bsubvs := (outside (x_bsubv d) jF kl - inside (x_bsubv d) jF kl) / deltaS in
    (x_bsubsv d (jF * nZnT + kl)%Z - bsubvs) / MU_0.
  Definition izeta_pt (jF kl : Z) : R :=
    let bsubus := (outside (x_bsubu d) jF kl - inside (x_bsubu d) jF kl) / deltaS in
    (- x_bsubsu d (jF * nZnT + kl)%Z + bsubus) / MU_0.
  (** 2663 *)
  Definition sqrtg (jF kl : Z) : R := (outside (x_gsqrt d) jF kl + inside (x_gsqrt d) jF kl) / 2.
  (** 2677-2682 *)
  Definition bsup1 (b : Z -> R) (jF kl : Z) : R :=
    (outside b jF kl * outside (x_gsqrt d) jF kl + inside b jF kl * inside (x_gsqrt d) jF kl) / (2 * sqrtg jF kl).
  (** 2686-2687 *)
  Definition bsub1 (b : Z -> R) (jF kl : Z) : R := (outside b jF kl + inside b jF kl) / 2.
  (** 2691-2692 *)
  Definition jxb (jF kl : Z) : R :=
    ovp jF * (itheta_pt jF kl * bsup1 (x_bsupv d) jF kl - izeta_pt jF kl * bsup1 (x_bsupu d) jF kl).
  (** 2696-2697 *)
  Definition bdotk_pt (jF kl : Z) : R :=
    itheta_pt jF kl * bsub1 (x_bsubu d) jF kl + izeta_pt jF kl * bsub1 (x_bsubv d) jF kl.
  (** 2701 *)
  Definition force_residual (jF kl : Z) : R := jxb jF kl - pprime_ovp jF.

  (** The accumulation over the grid points of one surface, 2601-2602, 2706-2720;
      [f] receives the integration weight of the point. *)
  Definition accum (f : Z -> R -> R) : R :=
    for_up 0 nZnT (fun kl acc => acc + f kl (sz_wInt s (kl mod sz_nThetaEff s))) 0.
  Definition average_force_residual (jF : Z) : R := accum (fun kl w => force_residual jF kl * w).
  Definition average_pressure_gradient (jF : Z) : R := accum (fun _ w => pprime_ovp jF * w).
  Definition average_jdotb (jF : Z) : R := accum (fun kl w => bdotk_pt jF kl * w).
  Definition average_bdotb (jF : Z) : R := accum (fun kl w => sqgb2 jF kl * w).
  Definition average_jpar2 (jF : Z) : R := accum (fun kl w => bdotk_pt jF kl * bdotk_pt jF kl * w / sqgb2 jF kl).
  Definition average_jperp2 (jF : Z) : R := accum (fun kl w => kp2 jF kl * sqrtg jF kl * w).
  (** 2586-2587, 2703-2704 *)
  Definition force_residual_max (jF : Z) : R :=
    for_up 0 nZnT (fun kl acc => Rmax acc (force_residual jF kl * pnorm jF)) (- DBL_MAX).
  Definition force_residual_min (jF : Z) : R :=
    for_up 0 nZnT (fun kl acc => Rmin acc (force_residual jF kl * pnorm jF)) DBL_MAX.

  (** The loop over the interior surfaces, 2563, filling a profile ... *)
  Definition profile (f : Z -> R) : Z -> R := for_up 1 (ns - 1) (fun jF a => upd a jF (f jF)) (fun _ => 0).
  (** ... or a matrix. *)
  Definition matrix (f : Z -> Z -> R) : Z -> R :=
    for_up 1 (ns - 1) (fun jF a => for_up 0 nZnT (fun kl a => upd a (jF * nZnT + kl)%Z (f jF kl)) a) (fun _ => 0).
  (** Extrapolation of a profile to the axis and the boundary, 2822-2824 etc. *)
  Definition extrapolate (a : Z -> R) : Z -> R :=
    let a := upd a 0%Z (2 * a 1%Z - a 2%Z) in
    upd a (ns - 1)%Z (2 * a (ns - 2)%Z - a (ns - 3)%Z).
  (** Same for every point of a matrix, 2803-2820. *)
  Definition extrapolateRows (a : Z -> R) : Z -> R :=
    for_up 0 nZnT (fun kl a =>
      let a := upd a (0 * nZnT + kl)%Z (2 * a (1 * nZnT + kl)%Z - a (2 * nZnT + kl)%Z) in
      upd a ((ns - 1) * nZnT + kl)%Z (2 * a ((ns - 2) * nZnT + kl)%Z - a ((ns - 3) * nZnT + kl)%Z)) a.

  (** The members of the result.  [done_]: the run converged or outputs are wanted
      in any case, 2741-2742, 2777-2778. *)
  Definition o_itheta : Z -> R := matrix itheta_pt.
  Definition o_izeta : Z -> R := extrapolateRows (matrix izeta_pt).
  Definition o_bdotk : Z -> R := matrix bdotk_pt.
  Definition o_amaxfor : Z -> R := profile (fun jF => 100 * Rmin (force_residual_max jF) (9999 / 1000)).
  Definition o_aminfor : Z -> R := profile (fun jF => 100 * Rmax (force_residual_min jF) (- (9999 / 1000))).
  Definition o_avforce : Z -> R := profile average_force_residual.
  Definition o_pprim : Z -> R := extrapolate (profile average_pressure_gradient).
  Definition o_jdotb : Z -> R := extrapolate (profile (fun jF => dnorm1 * tjnorm jF * average_jdotb jF)).
  Definition o_bdotb : Z -> R := extrapolate (profile (fun jF => dnorm1 * tjnorm jF * average_bdotb jF)).
  Definition o_bdotgradv : Z -> R :=
    extrapolate (profile (fun jF => dnorm1 * tjnorm jF * (x_phipH d jF + x_phipH d (jF - 1)%Z) / 2)).
  Definition o_jpar2 : Z -> R := profile (fun jF => dnorm1 * tjnorm jF * average_jpar2 jF).
  Definition o_jperp2 : Z -> R := profile (fun jF => dnorm1 * tjnorm jF * average_jperp2 jF).

  Section Converged.
    Context (done_ : bool).
    Definition when (f : Z -> Z -> R) : Z -> R := if done_ then matrix f else fun _ => 0.
    (** 2743-2770; phin: 2524, 2744 *)
    Definition o_phin : Z -> R :=
      let a := upd (fun _ : Z => 0) (ns - 1)%Z 1 in
      if done_ then for_up 1 (ns - 1) (fun jF a => upd a jF (x_phiF d jF / x_phiF d (ns - 1)%Z)) a else a.
    Definition o_jsupu3 : Z -> R := when (fun jF kl => ovp jF * itheta_pt jF kl).
    Definition o_jsupv3 : Z -> R := when (fun jF kl => ovp jF * izeta_pt jF kl).
    Definition o_bsupu3 : Z -> R := when (bsup1 (x_bsupu d)).
    Definition o_bsupv3 : Z -> R := when (bsup1 (x_bsupv d)).
    Definition o_jcrossb : Z -> R := when jxb.
    Definition o_jxb_gradp : Z -> R := when (fun jF kl => jxb jF kl - pprime_ovp jF).
    Definition o_jdotb_sqrtg : Z -> R := when (fun jF kl => ovp jF * bdotk_pt jF kl).
    Definition o_sqrtg3 : Z -> R := when (fun jF kl => sqrtg jF kl * ovp jF).
    Definition o_bsubs3 : Z -> R := when (fun jF kl => x_bsubs_full d (jF * nZnT + kl)%Z).
    (** 2777-2798: the half-grid quantities; num_half = ns - 1. *)
    Definition halfMatrix (f : Z -> Z -> R) : Z -> R :=
      if done_ then for_up 0 (ns - 1 - 1) (fun jH a => for_up 0 nZnT (fun kl a =>
        upd a (jH * nZnT + kl)%Z (f jH (jH * nZnT + kl)%Z)) a) (fun _ => 0) else fun _ => 0.
    Definition o_jsups3 : Z -> R :=
      halfMatrix (fun jH i => 1 / x_dVdsH d jH / dnorm1 * (x_bsubuv d i - x_bsubvu d i) / MU_0).
    Definition o_bsubu3 : Z -> R := halfMatrix (fun _ i => x_bsubu d i).
    Definition o_bsubv3 : Z -> R := halfMatrix (fun _ i => x_bsubv d i).
  End Converged.
End J.
