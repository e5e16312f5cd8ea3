(** Geometric and magnetic quantities of the output:
    vmec/output_quantities/output_quantities.cc:3201-3264 (first table, part),
    3538-3747 (intermediate), 3749-3935 (result, part), 4073-4110 (volume integrals).
    Exact arithmetic. Matrices are flat arrays, row by row: the entry of surface j and
    grid point kl of a matrix with nZnT columns is at j * nZnT + kl. A vector write
    outside its size is [None]. *)
From Coq Require Import ZArith List Bool Reals.
From Verif Require Import Base SizesModel JxbModel.
Open Scope R_scope.

Section Geo.
  Variables (s : sizes) (ns : Z).
  Local Notation nZnT := (sz_nZnT s).
  Local Notation nThetaEff := (sz_nThetaEff s).
  Local Notation w kl := (sz_wInt s (kl mod nThetaEff)%Z).
  Local Notation lcfs kl := ((ns - 1) * nZnT + kl)%Z.

  (** Geometry on the full grid (vmec_internal_results.r_e, r_o, ...) *)
  Record full_geo := mkGeo {
    r_e : Z -> R; r_o : Z -> R; z_e : Z -> R; z_o : Z -> R; zu_e : Z -> R; zu_o : Z -> R;
    rv_e : Z -> R; rv_o : Z -> R; zv_e : Z -> R; zv_o : Z -> R; ruFull : Z -> R; zuFull : Z -> R }.
  Variable g : full_geo.

  (** 3553-3582 *)
  Definition circumference_sum : R :=
    for_up 0 nZnT (fun kl acc =>
      let ru0 := ruFull g (lcfs kl) in
      let zu0 := zuFull g (lcfs kl) in
      acc + sqrt (ru0 * ru0 + zu0 * zu0) * w kl) 0.
  Definition surf_area (kl : Z) : R :=
    let ru0 := ruFull g (lcfs kl) in
    let zu0 := zuFull g (lcfs kl) in
    let guu_1u := ru0 * ru0 + zu0 * zu0 in
    let r := r_e g (lcfs kl) + r_o g (lcfs kl) in
    let rv := rv_e g (lcfs kl) + rv_o g (lcfs kl) in
    let zv := zv_e g (lcfs kl) + zv_o g (lcfs kl) in
    let x := rv * zu0 - zv * ru0 in
    w kl * sqrt (r * r * guu_1u + x * x).

  (** 3777-3785 *)
  Definition circum_p : R := 2 * PI * circumference_sum.
  Definition surf_area_p : R := 4 * PI * PI * for_up 0 nZnT (fun kl acc => acc + surf_area kl) 0.

  (** 3787-3801 *)
  Definition sums : R * R :=
    for_up 0 nZnT (fun kl st =>
      let rb := r_e g (lcfs kl) + r_o g (lcfs kl) in
      let zub := zu_e g (lcfs kl) + zu_o g (lcfs kl) in
      let t1 := rb * zub * w kl in
      (fst st + t1, snd st + rb * t1)) (0, 0).
  Definition cross_area_p : R := 2 * PI * Rabs (fst sums).
  Definition volume_p : R := 2 * PI * PI * Rabs (snd sums).

  (** 3803-3806 *)
  Definition Rmajor_p : R := volume_p / (2 * PI * cross_area_p).
  Definition Aminor_p : R := sqrt (cross_area_p / PI).
  Definition aspect : R := Rmajor_p / Aminor_p.

  (** 3828-3836 *)
  Definition kappa_p : R :=
    let d := surf_area_p * Aminor_p / (2 * volume_p) in
    let d2 := d * d in
    1 + PI * PI / 8 * (d2 + sqrt (Rabs (d2 * d2 - 1)) - 1).

  (** 3852-3864; the smallest value starts from the largest double, [big] *)
  Definition extremes (big : R) : R * R * R :=
    for_up 0 nZnT (fun kl st =>
      let r := r_e g (lcfs kl) + r_o g (lcfs kl) in
      let z := z_e g (lcfs kl) + z_o g (lcfs kl) in
      (Rmax (fst (fst st)) r, Rmin (snd (fst st)) r, Rmax (snd st) z)) (0, big, 0).
  Definition rmax_surf (big : R) : R := fst (fst (extremes big)).
  Definition rmin_surf (big : R) : R := snd (fst (extremes big)).
  Definition zmax_surf (big : R) : R := snd (extremes big).

  (** 3889-3931. [put] writes into a vector of the given size. *)
  Definition symmetry_planes_count : Z := if (sz_ntor s >? 0)%Z then 2%Z else 1%Z.
  Definition put (size i : Z) (v : R) (a : option (Z -> R)) : option (Z -> R) :=
    match a with Some a => if ((0 <=? i) && (i <? size))%Z then Some (upd a i v) else None | None => None end.
  Definition waist_height : option (Z -> R) * option (Z -> R) * Z :=
    for_up 0 (Z.quot (sz_nZeta s) 2 + 1) (fun k st =>
      if (negb (k =? 0) && negb (k =? Z.quot (sz_nZeta s) 2))%Z then st else
      let '(waist, height, index) := st in
      let index_outboard := (((ns - 1) * sz_nZeta s + k) * nThetaEff + 0)%Z in
      let r_outboard := r_e g index_outboard + r_o g index_outboard in
      let index_inboard := (((ns - 1) * sz_nZeta s + k) * sz_nThetaReduced s + (sz_nThetaReduced s - 1))%Z in
      let r_inboard := r_e g index_inboard + r_o g index_inboard in
      let h := for_up 0 nThetaEff (fun l h =>
        let i := (((ns - 1) * sz_nZeta s + k) * nThetaEff + l)%Z in
        Rmax h (z_e g i + z_o g i)) 0 in
      (put symmetry_planes_count index (r_outboard - r_inboard) waist,
       put symmetry_planes_count index (h * 2) height, (index + 1)%Z)) (Some (fun _ => 0), Some (fun _ => 0), 0%Z).
  Definition waist : option (Z -> R) := fst (fst waist_height).
  Definition height : option (Z -> R) := snd (fst waist_height).

  (** ** Magnetic quantities. Half-grid fields and profiles. *)
  Record half_fields := mkHalf {
    gsqrt : Z -> R; r12 : Z -> R; bsupv : Z -> R; total_pressure : Z -> R; dVdsH : Z -> R; presH : Z -> R }.
  Variables (h : half_fields) (sign_of_jacobian deltaS : R).

  (** 3246-3248 *)
  Definition tau (jH kl : Z) : R := sign_of_jacobian * w kl * gsqrt h (jH * nZnT + kl)%Z.
  (** 3239-3260 *)
  Definition beta_vol (jH : Z) : R :=
    let s2 := for_up 0 nZnT (fun kl acc => acc + total_pressure h (jH * nZnT + kl)%Z * tau jH kl) 0 in
    presH h jH / (s2 / dVdsH h jH - presH h jH).
  (** 3253-3263 *)
  Definition overr (jH : Z) : R :=
    for_up 0 nZnT (fun kl acc => acc + tau jH kl / r12 h (jH * nZnT + kl)%Z) 0 / dVdsH h jH.
  (** 3267-3269 *)
  Definition beta_axis : R := 15 / 10 * beta_vol 0 - 5 / 10 * beta_vol 1.

  (** 3550-3551, 3597-3601 *)
  Definition anorm : R := 2 * PI * deltaS.
  Definition vnorm : R := 2 * PI * anorm.
  Definition sump : R := vnorm * for_up 0 (ns - 1) (fun jH acc => acc + dVdsH h jH * presH h jH) 0.

  (** 3689-3717 *)
  Definition field_sums : R * R * R :=
    for_up 0 (ns - 1) (fun jH st =>
      let st := for_up 0 nZnT (fun kl st =>
        let '(bsq, btor, p2) := st in
        let r_bsupv := r12 h (jH * nZnT + kl)%Z * bsupv h (jH * nZnT + kl)%Z in
        (bsq + total_pressure h (jH * nZnT + kl)%Z * tau jH kl, btor + tau jH kl * r_bsupv * r_bsupv, p2)) st in
      (fst st, snd st + presH h jH * presH h jH * dVdsH h jH)) (0, 0, 0).
  Definition sumbtot : R := 2 * (vnorm * fst (fst field_sums) - sump).
  Definition sumbtor : R := vnorm * snd (fst field_sums).
  Definition sumbpol : R := sumbtot - sumbtor.

  (** 3765-3775 *)
  Definition toroidal_flux : R :=
    anorm * for_up 0 (ns - 1) (fun jH acc => for_up 0 nZnT (fun kl acc => acc + bsupv h (jH * nZnT + kl)%Z * tau jH kl) acc) 0.

  (** 3866-3887, one entry (jH, l) of the arrays *)
  Definition mod_b (jH k l : Z) : R :=
    sqrt (2 * (total_pressure h (jH * nZnT + (k * nThetaEff + l))%Z - presH h jH)).
  Definition bmax (jH l : Z) : R := for_up 0 (sz_nZeta s) (fun k m => Rmax m (mod_b jH k l)) 0.
  Definition bmin (big : R) (jH l : Z) : R := for_up 0 (sz_nZeta s) (fun k m => Rmin m (mod_b jH k l)) big.

  (** 3847-3848 *)
  Definition pavg : R := sump / volume_p.
  (** 3933-3936 *)
  Definition betapol : R := 2 * sump / sumbpol.
  Definition betatot : R := 2 * sump / sumbtot.
  Definition betator : R := 2 * sump / sumbtor.
  Definition VolAvgB : R := sqrt (Rabs (sumbtot / volume_p)).

  (** 4073-4110 *)
  Definition int_p : R := sump / MU_0.
  Definition avg_p : R := pavg / MU_0.
  Definition int_bpol : R := 5 / 10 / MU_0 * sumbpol.
  Definition int_btor : R := 5 / 10 / MU_0 * sumbtor.
  Definition int_modb : R := 5 / 10 / MU_0 * sumbtot.
  Definition avg_modb : R := 5 / 10 / MU_0 * sumbtot / volume_p.
End Geo.
