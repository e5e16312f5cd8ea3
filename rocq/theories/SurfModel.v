(** Model of SurfaceGeometry, free_boundary/surface_geometry/surface_geometry.cc.
    [double] is modelled by [R] (exact arithmetic), [int] by [Z], arrays by
    functions of the flat index. The twelve arrays r1b, z1b, rub, ... are one
    family indexed by [comp] and the twelve ..._asym arrays another; the eight
    coefficient spans and the 8 x 3 accumulators of the poloidal transform are
    families indexed by [coef] and the order of the poloidal derivative. The
    OpenMP barriers of [update] are not modelled: every thread computes its own
    SurfaceGeometry object from the shared coefficients. *)
From Coq Require Import ZArith Reals Bool.
From Verif Require Import Base FourierModel SizesModel.
Open Scope R_scope.

Inductive comp := R1 | Z1 | Ru | Rv | Zu | Zv | Ruu | Ruv | Rvv | Zuu | Zuv | Zvv.
Inductive coef := rCC | rSS | rSC | rCS | zSC | zCS | zCC | zSS.
Inductive dcomp := Snr | Snv | Snz | Guu | Guv | Gvv | Auu | Auv | Avv | Drv.

Definition fam := comp -> Z -> R.

Record surf := mkSurf {
  sf_sym : fam;            (* r1b, z1b, rub, ... , zvv *)
  sf_asym : fam;           (* r1b_asym, ... *)
  sf_der : dcomp -> Z -> R; (* snr, ..., drv *)
  sf_rzb2 : Z -> R; sf_rcosuv : Z -> R; sf_rsinuv : Z -> R }.

(** Derivative orders of the arrays. *)
Definition ou (c : comp) : Z :=
  match c with R1 | Z1 | Rv | Zv | Rvv | Zvv => 0 | Ru | Zu | Ruv | Zuv => 1 | Ruu | Zuu => 2 end%Z.
Definition ov (c : comp) : Z :=
  match c with R1 | Z1 | Ru | Zu | Ruu | Zuu => 0 | Rv | Zv | Ruv | Zuv => 1 | Rvv | Zvv => 2 end%Z.
Definition is_r (c : comp) : bool :=
  match c with R1 | Ru | Rv | Ruu | Ruv | Rvv => true | _ => false end.
(** The coefficient whose accumulator is multiplied by the first (cosnv, sinnvn,
    cosnvnn) and second (sinnv, cosnvn, sinnvnn) toroidal factor. *)
Definition first_coef (asym : bool) (c : comp) : coef :=
  match asym, is_r c with false, true => rCC | false, false => zSC | true, true => rSC | true, false => zCC end.
Definition second_coef (asym : bool) (c : comp) : coef :=
  match asym, is_r c with false, true => rSS | false, false => zCS | true, true => rCS | true, false => zSS end.
(** Poloidal dependence: cos(mu) or sin(mu). *)
Definition cos_like (x : coef) : bool := match x with rCC | rCS | zCS | zCC => true | _ => false end.
Definition asym_coef (x : coef) : bool := match x with rSC | rCS | zCC | zSS => true | _ => false end.
Definition is_second (c : comp) : bool := match c with Ruu | Ruv | Rvv | Zuu | Zuv | Zvv => true | _ => false end.
Definition is_pos (c : comp) : bool := match c with R1 | Z1 => true | _ => false end.

Section SURF.
Variable s : sizes.
Variables ztMin ztMax : Z.
Variable fullUpdate : bool.
Variable fb : basis_tables.

(** surface_geometry.cc:152: derivOffset *)
Definition derivOffset : Z := if sz_lasym s then 0%Z else ztMin.
Definition off (c : comp) : Z := if is_pos c then 0%Z else derivOffset.

(** surface_geometry.cc:139-182: zeroing *)
Definition zeroed (a : fam) : fam :=
  fun c => if (negb (is_second c) || fullUpdate)%bool then fun _ => 0 else a c.

(** surface_geometry.cc:228-272: one term of the poloidal transform *)
Definition pol_basis (x : coef) (o l m : Z) : R :=
  let i := (l * (sz_mnyq2 s + 1) + m)%Z in
  match o with
  | 0%Z => if cos_like x then bt_cosmu fb i else bt_sinmu fb i
  | 1%Z => if cos_like x then bt_sinmum fb i else bt_cosmum fb i
  | _ => - IZR (m * m) * (if cos_like x then bt_cosmu fb i else bt_sinmu fb i)
  end.

(** surface_geometry.cc:190-273: the accumulators for mode n at poloidal index l *)
Definition accumulate (X : coef -> Z -> R) (n l : Z) : coef -> Z -> R :=
  let lMin := (ztMin / sz_nZeta s)%Z in
  let lMax := (ztMax / sz_nZeta s)%Z in
  for_up 0 (sz_mpol s) (fun m acc => fun x o =>
    if ((negb (asym_coef x) || sz_lasym s) &&
        ((o =? 0)%Z || sz_lasym s || ((lMin <=? l)%Z && (l <=? lMax)%Z)))%bool
    then acc x o + X x (n * sz_mpol s + m)%Z * pol_basis x o l m else acc x o) (fun _ _ => 0).

(** surface_geometry.cc:278-279, 296-297, 313-314: toroidal factors *)
Definition tor_first (o n k : Z) : R :=
  let i := (n * sz_nZeta s + k)%Z in
  match o with
  | 0%Z => bt_cosnv fb i | 1%Z => bt_sinnvn fb i
  | _ => - IZR (n * sz_nfp s * n * sz_nfp s) * bt_cosnv fb i end.
Definition tor_second (o n k : Z) : R :=
  let i := (n * sz_nZeta s + k)%Z in
  match o with
  | 0%Z => bt_sinnv fb i | 1%Z => bt_cosnvn fb i
  | _ => - IZR (n * sz_nfp s * n * sz_nfp s) * bt_sinnv fb i end.

(** surface_geometry.cc:281, 295, 312: which arrays grid point idx_kl adds to *)
Definition writes (c : comp) (idx_kl : Z) : bool :=
  (is_pos c || ((sz_lasym s || ((ztMin <=? idx_kl)%Z && (idx_kl <? ztMax)%Z)) && (negb (is_second c) || fullUpdate)))%bool.

(** surface_geometry.cc:275-340: one grid point *)
Definition grid_add (acc : coef -> Z -> R) (n l k : Z) (asym : bool) (a : fam) : fam :=
  let idx_kl := (l * sz_nZeta s + k)%Z in
  fun c =>
    if writes c idx_kl then
      upd (a c) (idx_kl - off c)%Z (a c (idx_kl - off c)%Z +
        (acc (first_coef asym c) (ou c) * tor_first (ov c) n k +
         acc (second_coef asym c) (ou c) * tor_second (ov c) n k))
    else a c.

(** surface_geometry.cc:184-342 *)
Definition transform (X : coef -> Z -> R) (ab : fam * fam) : fam * fam :=
  for_up 0 (sz_ntor s + 1) (fun n ab =>
    for_up 0 (sz_nThetaReduced s) (fun l ab =>
      let acc := accumulate X n l in
      for_up 0 (sz_nZeta s) (fun k '(a, b) =>
        (grid_add acc n l k false a,
         if sz_lasym s then grid_add acc n l k true b else b)) ab) ab) ab.

(** surface_geometry.cc:347-349 *)
Definition even_mirror (c : comp) : bool :=
  match c with R1 | Ruu | Ruv | Rvv | Zu | Zv => true | _ => false end.

(** surface_geometry.cc:352-381: second poloidal half *)
Definition mirror (b : fam) (a : fam) : fam :=
  for_up 1 (sz_nThetaReduced s - 1) (fun l a =>
    let lRev := ((sz_nThetaEven s - l) mod sz_nThetaEven s)%Z in
    for_up 0 (sz_nZeta s) (fun k a =>
      let kRev := ((sz_nZeta s - k) mod sz_nZeta s)%Z in
      let kl := (l * sz_nZeta s + k)%Z in
      let klRev := (lRev * sz_nZeta s + kRev)%Z in
      fun c => if (negb (is_second c) || fullUpdate)%bool
               then upd (a c) klRev (if even_mirror c then a c kl - b c kl else - a c kl + b c kl)
               else a c) a) a.

(** surface_geometry.cc:383-404: first poloidal half *)
Definition add_halves (b : fam) (a : fam) : fam :=
  for_up 0 (sz_nThetaReduced s) (fun l a =>
    for_up 0 (sz_nZeta s) (fun k a =>
      let kl := (l * sz_nZeta s + k)%Z in
      fun c => if (negb (is_second c) || fullUpdate)%bool then upd (a c) kl (a c kl + b c kl) else a c) a) a.

(** surface_geometry.cc:124-406: inverseDFT *)
Definition inverseDFT (X : coef -> Z -> R) (ab : fam * fam) : fam * fam :=
  let '(a, b) := ab in
  let a := zeroed a in
  let b := if sz_lasym s then zeroed b else b in
  let '(a, b) := transform X (a, b) in
  if sz_lasym s then (add_halves b (mirror b a), b) else (a, b).

(** surface_geometry.cc:412-443: quantities at one grid point *)
Definition point_quantities (sgn : R) (a : fam) (kl : Z) (q : dcomp -> Z -> R) : dcomp -> Z -> R :=
  let o := (kl - ztMin)%Z in
  let d := (kl - derivOffset)%Z in
  let nfp := IZR (sz_nfp s) in
  let nfp2 := IZR (sz_nfp s * sz_nfp s) in
  let snr := sgn * a R1 kl * a Zu d in
  let snv := sgn * (a Ru d * a Zv d - a Zu d * a Rv d) in
  let snz := - sgn * a R1 kl * a Ru d in
  let v x := match x with
    | Snr => snr | Snv => snv | Snz => snz
    | Guu => a Ru d * a Ru d + a Zu d * a Zu d
    | Guv => 2 * (a Ru d * a Rv d + a Zu d * a Zv d) / nfp
    | Gvv => (a Rv d * a Rv d + a R1 kl * a R1 kl + a Zv d * a Zv d) / nfp2
    | Auu => (a Ruu d * snr + a Zuu d * snz) / 2
    | Auv => (a Ruv d * snr + a Ru d * snv + a Zuv d * snz) / nfp
    | Avv => (a Rv d * snv + ((a Rvv d - a R1 kl) * snr + a Zvv d * snz) / 2) / nfp2
    | Drv => - (a R1 kl * snr + a Z1 kl * snz)
    end in
  fun x => match x with
    | Auu | Auv | Avv | Drv => if fullUpdate then upd (q x) o (v x) else q x
    | _ => upd (q x) o (v x) end.

(** surface_geometry.cc:91-96 *)
Definition cos_phi (k : Z) : R := cos (2 * PI / IZR (sz_nfp s * sz_nZeta s) * IZR k).
Definition sin_phi (k : Z) : R := sin (2 * PI / IZR (sz_nfp s * sz_nZeta s) * IZR k).

(** surface_geometry.cc:453-467: mirror of r1b, z1b, rzb2 *)
Definition mirror_sym (ar : fam * (Z -> R)) : fam * (Z -> R) :=
  for_up 1 (sz_nThetaReduced s - 1) (fun l ar =>
    let lRev := ((sz_nThetaEven s - l) mod sz_nThetaEven s)%Z in
    for_up 0 (sz_nZeta s) (fun k '(a, r) =>
      let kRev := ((sz_nZeta s - k) mod sz_nZeta s)%Z in
      let kl := (l * sz_nZeta s + k)%Z in
      let klRev := (lRev * sz_nZeta s + kRev)%Z in
      ((fun c => match c with R1 => upd (a R1) klRev (a R1 kl) | Z1 => upd (a Z1) klRev (- a Z1 kl) | _ => a c end),
       upd r klRev (r kl))) ar) ar.

(** surface_geometry.cc:408-477: derivedSurfaceQuantities *)
Definition derivedSurfaceQuantities (signOfJacobian : Z) (g : surf) : surf :=
  let a := sf_sym g in
  let q := for_up ztMin ztMax (fun kl q => point_quantities (IZR signOfJacobian) a kl q) (sf_der g) in
  if fullUpdate then
    let r := for_up 0 (sz_nZnT s) (fun kl r => upd r kl (a R1 kl * a R1 kl + a Z1 kl * a Z1 kl)) (sf_rzb2 g) in
    let '(a, r) := if sz_lasym s then (a, r) else mirror_sym (a, r) in
    let '(rc, rs) := for_up 0 (sz_nThetaEven s * sz_nZeta s) (fun kl '(rc, rs) =>
      let k := (kl mod sz_nZeta s)%Z in
      (upd rc kl (a R1 kl * cos_phi k), upd rs kl (a R1 kl * sin_phi k))) (sf_rcosuv g, sf_rsinuv g) in
    mkSurf a (sf_asym g) q r rc rs
  else mkSurf a (sf_asym g) q (sf_rzb2 g) (sf_rcosuv g) (sf_rsinuv g).

(** surface_geometry.cc:100-121: update *)
Definition update (X : coef -> Z -> R) (signOfJacobian : Z) (g : surf) : surf :=
  let '(a, b) := inverseDFT X (sf_sym g, sf_asym g) in
  derivedSurfaceQuantities signOfJacobian
    (mkSurf a b (sf_der g) (sf_rzb2 g) (sf_rcosuv g) (sf_rsinuv g)).
End SURF.
