(** Shafranov integrals and beta-star of the output:
    vmec/output_quantities/output_quantities.cc:3602-3687 (intermediate values),
    4175-4178 (betstr) and 4183-4310.  Exact arithmetic; arrays as in GeoModel.
    [vac] says that the run has a free boundary and the vacuum field is active. *)
From Coq Require Import ZArith List Bool Reals.
From Verif Require Import Base SizesModel JxbModel GeoModel.
Open Scope R_scope.

Section Shaf.
  Variables (s : sizes) (ns : Z) (g : full_geo) (h : half_fields) (sign_of_jacobian deltaS : R).
  (** handover_storage: rBtor, bSubVVac, vacuum_magnetic_pressure, vacuum_b_phi;
      vmec_internal_results.currv; threed1_geomag.rcen *)
  Record handover := mkHand { rBtor : R; bSubVVac : R; vac_p : Z -> R; vac_b_phi : Z -> R; currv : R; rcen : R }.
  Variables (d : handover) (vac : bool).
  Local Notation nZnT := (sz_nZnT s).
  Local Notation nThetaEff := (sz_nThetaEff s).
  Local Notation nZeta := (sz_nZeta s).
  Local Notation w kl := (sz_wInt s (kl mod nThetaEff)%Z).
  Local Notation lcfs kl := ((ns - 1) * nZnT + kl)%Z.
  Local Notation tau := (tau s h sign_of_jacobian).

  (** 3612-3651: musubi, rshaf1, rshaf2 *)
  Definition shaf_sums : R * R * R :=
    for_up 0 (ns - 1) (fun jH st => for_up 0 nZnT (fun kl st =>
      let '(musubi, rshaf1, rshaf2) := st in
      let i := (jH * nZnT + kl)%Z in
      let btor_vac := rBtor d / r12 h i in
      let btor1 := r12 h i * bsupv h i in
      let dbtor := btor1 * btor1 - btor_vac * btor_vac in
      let phat := (total_pressure h i - 5 / 10 * btor_vac * btor_vac - dbtor) * tau jH kl in
      (musubi - dbtor * tau jH kl, rshaf1 + phat, rshaf2 + phat / r12 h i)) st) (0, 0, 0).
  Definition musubi0 : R := fst (fst shaf_sums).
  Definition rshaf : R := snd (fst shaf_sums) / snd shaf_sums.
  (** 3657-3662 *)
  Definition redge (kl : Z) : R := r_e g (lcfs kl) + r_o g (lcfs kl).
  (** 3663-3687 *)
  Definition phat : Z -> R :=
    if vac then
      for_up 0 nZeta (fun k a => for_up 0 nThetaEff (fun l a =>
        let idx_kl := (k * nThetaEff + l)%Z in
        let idx_lk := (l * nZeta + k)%Z in
        let bsubvvac_r := bSubVVac d / redge idx_kl in
        upd a idx_kl (vac_p d idx_lk - 5 / 10 * bsubvvac_r * bsubvvac_r)) a) (fun _ => 0)
    else
      for_up 0 nZnT (fun kl a =>
        let bsq_at_lcfs := 15 / 10 * total_pressure h ((ns - 2) * nZnT + kl)%Z - 5 / 10 * total_pressure h ((ns - 3) * nZnT + kl)%Z in
        let btor_edge := rBtor d / redge kl in
        upd a kl (bsq_at_lcfs - 5 / 10 * btor_edge * btor_edge)) (fun _ => 0).
  (** 4200-4229 *)
  Definition bpol2vac : Z -> R :=
    if vac then
      for_up 0 nThetaEff (fun l a => for_up 0 nZeta (fun k a =>
        let idx_lk := (l * nZeta + k)%Z in
        let idx_kl := (k * nThetaEff + l)%Z in
        let bphiv := vac_b_phi d idx_lk in
        upd a idx_kl (2 * vac_p d idx_lk - bphiv * bphiv)) a) (fun _ => 0)
    else
      for_up 0 nZnT (fun kl a =>
        let bsq_lcfs := 15 / 10 * total_pressure h ((ns - 2) * nZnT + kl)%Z - 5 / 10 * total_pressure h ((ns - 3) * nZnT + kl)%Z in
        let bsupv_lcfs := 15 / 10 * bsupv h ((ns - 2) * nZnT + kl)%Z - 5 / 10 * bsupv h ((ns - 3) * nZnT + kl)%Z in
        let btor_lcfs := bsupv_lcfs * redge kl in
        upd a kl (2 * bsq_lcfs - btor_lcfs * btor_lcfs)) (fun _ => 0).
  (** 4231-4246 *)
  Definition aminr1 : R := volume_p s ns g / surf_area_p s ns g.
  Definition bpol_area : R := for_up 0 nZnT (fun kl acc => acc + bpol2vac kl * surf_area s ns g kl) 0.
  Definition factor : R := 1 / (4 * PI * PI * aminr1 * bpol_area).
  Definition facnorm : R := factor * 4 * PI * PI.
  (** 4248-4253 *)
  Definition scaling_ratio : R :=
    let c := currv d / circum_p s ns g in factor * c * c * volume_p s ns g.
  (** 4255-4272: sigr0, sigr1, sigz1 *)
  Definition sig : R * R * R :=
    for_up 0 nZnT (fun kl st =>
      let '(sigr0, sigr1, sigz1) := st in
      let r_edge := redge kl in
      let z_edge := z_e g (lcfs kl) + z_o g (lcfs kl) in
      let rbps1u := facnorm * r_edge * phat kl * w kl in
      (sigr0 + rbps1u * zuFull g (lcfs kl), sigr1 + rbps1u * zuFull g (lcfs kl) * r_edge, sigz1 - rbps1u * ruFull g (lcfs kl) * z_edge)) (0, 0, 0).
  Definition sigr0 : R := fst (fst sig).
  Definition sigz1 : R := snd sig.
  Definition er : R := snd (fst sig) + snd sig.
  (** 4274-4306 *)
  Definition r_lao : R := volume_p s ns g / (2 * PI * cross_area_p s ns g).
  Definition f_lao : R := rshaf / r_lao.
  Definition f_geo : R := rshaf / rcen d.
  Definition smaleli : R := factor * sumbpol s ns h sign_of_jacobian deltaS.
  Definition betai : R := 2 * factor * sump ns h deltaS.
  Definition musubi : R := vnorm deltaS * factor * musubi0.
  Definition lambda : R := 5 / 10 * smaleli + betai.
  Definition s11 : R := er - rshaf * sigr0.
  Definition s12 : R := er - rcen d * sigr0.
  Definition s13 : R := er - r_lao * sigr0.
  Definition s2 : R := sigr0 * rshaf.
  Definition s3 : R := sigz1.
  Definition delta2 : R := 1 - f_geo.
  Definition delta3 : R := 1 - f_lao.
  (** 4175-4178, with sump2 of 3715 *)
  Definition sump2 : R := vnorm deltaS * snd (field_sums s ns h sign_of_jacobian).
  Definition betstr : R :=
    2 * sqrt (sump2 / volume_p s ns g) / (sumbtot s ns h sign_of_jacobian deltaS / volume_p s ns g).
End Shaf.
