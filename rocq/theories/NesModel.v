(** Model of the last part of Nestor::update, free_boundary/nestor/nestor.cc:131-247:
    from the solution of the linear system to the vacuum field on the boundary.
    [double] is modelled by [R] (exact arithmetic), [int] by [Z], arrays by
    functions of the flat index. [%] and [/] act on non-negative integers only.
    The barriers and the single region order the reset of the two net sums before
    all additions; the critical sections run in any order ([net_field]). The
    early returns for checkpoints are left out (they skip this part). *)
From Coq Require Import ZArith Reals Bool List.
From Verif Require Import Base SizesModel FourierModel SurfModel SingSumModel.
Open Scope R_scope.

Section NES.
Variable s : sizes.
Variable fb : basis_tables.
Variables mf nf ztMin ztMax : Z.
Variable g : surf.       (* sg_ *)
Local Notation nz := (sz_nZeta s).

(** nestor.cc:132 *)
Definition nes_mnpd : Z := ((mf + 1) * (2 * nf + 1))%Z.

(** nestor.cc:144-177: mode mn at grid point kl *)
Definition pot_step (bvec : Z -> R) (kl mn : Z) (uv : (Z -> R) * (Z -> R)) : (Z -> R) * (Z -> R) :=
  let '(potU, potV) := uv in
  let l := (kl / nz)%Z in
  let k := (kl mod nz)%Z in
  let lr := if (l <? sz_nThetaReduced s)%Z then l else (sz_nThetaEven s - l)%Z in
  let sgnmu := if (l <? sz_nThetaReduced s)%Z then 1 else -1 in
  let n := (mn / (mf + 1) - nf)%Z in
  let m := (mn mod (mf + 1))%Z in
  let abs_n := Z.abs n in
  let sign_n := Z.sgn n in
  let idx_lm := (lr * (sz_mnyq2 s + 1) + m)%Z in
  let cosmu := bt_cosmu fb idx_lm / mscale m in
  let sinmu := sgnmu * bt_sinmu fb idx_lm / mscale m in
  let idx_nk := (abs_n * nz + k)%Z in
  let cosnv := bt_cosnv fb idx_nk / nscale abs_n in
  let sinnv := bt_sinnv fb idx_nk / nscale abs_n in
  let cos_mu_nv := cosmu * cosnv + IZR sign_n * sinmu * sinnv in
  let potU := upd potU (kl - ztMin)%Z (potU (kl - ztMin)%Z + bvec mn * IZR m * cos_mu_nv) in
  let potV := upd potV (kl - ztMin)%Z (potV (kl - ztMin)%Z + bvec mn * IZR (- n * sz_nfp s) * cos_mu_nv) in
  if sz_lasym s then
    let sin_mu_nv := sinmu * cosnv - IZR sign_n * cosmu * sinnv in
    let potcos := bvec (nes_mnpd + mn)%Z in
    (upd potU (kl - ztMin)%Z (potU (kl - ztMin)%Z - potcos * IZR m * sin_mu_nv),
     upd potV (kl - ztMin)%Z (potV (kl - ztMin)%Z - potcos * IZR (- n * sz_nfp s) * sin_mu_nv))
  else (potU, potV).

(** nestor.cc:134-179: potU and potV *)
Definition potential_derivatives (bvec : Z -> R) : (Z -> R) * (Z -> R) :=
  for_up ztMin ztMax (fun kl uv => for_up 0 nes_mnpd (fun mn uv => pot_step bvec kl mn uv) uv) ((fun _ => 0), (fun _ => 0)).

(** nestor.cc:184-187: bSubU and bSubV *)
Definition covariant (bvec efU efV : Z -> R) (old : (Z -> R) * (Z -> R)) : (Z -> R) * (Z -> R) :=
  let '(potU, potV) := potential_derivatives bvec in
  for_up ztMin ztMax (fun kl '(bu, bv) =>
    (upd bu (kl - ztMin)%Z (potU (kl - ztMin)%Z + efU (kl - ztMin)%Z),
     upd bv (kl - ztMin)%Z (potV (kl - ztMin)%Z + efV (kl - ztMin)%Z))) old.

(** nestor.cc:182-192: this thread's part of the net sums *)
Definition local_net (signOfJacobian : Z) (bvec efU efV : Z -> R) (old : (Z -> R) * (Z -> R)) : R * R :=
  let '(bu, bv) := covariant bvec efU efV old in
  let '(u, v) := for_up ztMin ztMax (fun kl '(u, v) =>
    let l := (kl / nz)%Z in
    (u + bu (kl - ztMin)%Z * sz_wInt s l, v + bv (kl - ztMin)%Z * sz_wInt s l)) (0, 0) in
  (u * (IZR signOfJacobian * 2 * PI), v).

(** nestor.cc:217-247: pressure and cylindrical components. The four shared
    arrays are bSqVacShare, vacuum_b_r_share_, vacuum_b_phi_share_,
    vacuum_b_z_share_. *)
Record vac := mkVac { v_bsq : Z -> R; v_r : Z -> R; v_phi : Z -> R; v_z : Z -> R }.
Definition vacuum_field (b : (Z -> R) * (Z -> R)) (w : vac) : vac :=
  let '(bSubU, bSubV) := b in
  for_up ztMin ztMax (fun kl w =>
    let j := (kl - ztMin)%Z in
    let nfp := IZR (sz_nfp s) in
    let guu := sf_der g Guu j in
    let guv := sf_der g Guv j * nfp * (1 / 2) in
    let gvv := sf_der g Gvv j * nfp * nfp in
    let det := guu * gvv - guv * guv in
    let bSupU := (gvv * bSubU j - guv * bSubV j) / det in
    let bSupV := (- guv * bSubU j + guu * bSubV j) / det in
    let d := (kl - derivOffset s ztMin)%Z in
    mkVac (upd (v_bsq w) kl ((bSubU j * bSupU + bSubV j * bSupV) * (1 / 2)))
          (upd (v_r w) kl (sf_sym g Ru d * bSupU + sf_sym g Rv d * bSupV))
          (upd (v_phi w) kl (sf_sym g R1 kl * bSupV))
          (upd (v_z w) kl (sf_sym g Zu d * bSupU + sf_sym g Zv d * bSupV))) w.
End NES.

(** nestor.cc:194-214: reset, then one critical section per thread *)
Definition net_field (parts : list (R * R)) : R * R :=
  fold_left (fun uv p => (fst uv + fst p, snd uv + snd p)) parts (0, 0).
