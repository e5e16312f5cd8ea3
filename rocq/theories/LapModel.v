(** Model of LaplaceSolver, free_boundary/laplace_solver/laplace_solver.cc.
    [double] is modelled by [R] (exact arithmetic), [int] by [Z], arrays by
    functions of the flat index. Matrix-vector products of Eigen are sums.
    Local buffers that are completely assigned before they are read
    (kernel_odd, kernel_even, g1, g2, actemp_l, astemp_l, cac, cas, result) are
    functions. [%] acts on non-negative integers only. *)
From Coq Require Import ZArith Reals Bool List.
From Verif Require Import Base SumLemmas SizesModel FourierModel SingSumModel.
Open Scope R_scope.

Section LAP.
(** Members used: the sizes, the basis tables, mf, nf and the tangential range
    of this thread. *)
Variable s : sizes.
Variable fb : basis_tables.
Variables mf nf ztMin ztMax : Z.
Local Notation nz := (sz_nZeta s).
Local Notation nT := (sz_nThetaEven s).
Local Notation nTR := (sz_nThetaReduced s).
Local Notation nTE := (sz_nThetaEff s).
Local Notation lasym := (sz_lasym s).
Local Notation numLocal := (ztMax - ztMin)%Z.
(** laplace_solver.cc:46, 233, 303, 371, 477 *)
Definition mnpd : Z := ((mf + 1) * (2 * nf + 1))%Z.

(** laplace_solver.cc:97-120: the scaled basis tables *)
Definition cosnv_scaled (n k : Z) : R := bt_cosnv fb (n * nz + k)%Z * (1 / nscale n).
Definition sinnv_scaled (n k : Z) : R := bt_sinnv fb (n * nz + k)%Z * (1 / nscale n).
Definition cosmui_scaled (l m : Z) : R := bt_cosmui fb (l * (sz_mnyq2 s + 1) + m)%Z * (1 / mscale m).
Definition sinmui_scaled (l m : Z) : R := bt_sinmui fb (l * (sz_mnyq2 s + 1) + m)%Z * (1 / mscale m).

(** laplace_solver.cc:145-149 (and 215-221): the reflected grid point *)
Definition kl_rev (l k : Z) : Z := (((nT - l) mod nT) * nz + (nz - k) mod nz)%Z.

(** laplace_solver.cc:144-206: body of the loops over klp and l *)
Definition green_row (greenp : Z -> R) (klp l : Z) (gg : (Z -> R) * (Z -> R)) : (Z -> R) * (Z -> R) :=
  let klpRel := (klp - ztMin)%Z in
  let klpOff := (klpRel * nT * nz)%Z in
  let kernel_odd k := (greenp (klpOff + (l * nz + k))%Z - greenp (klpOff + kl_rev l k)%Z) * (1 / 2) in
  let kernel_even k := (greenp (klpOff + (l * nz + k))%Z + greenp (klpOff + kl_rev l k)%Z) * (1 / 2) in
  let g1_symm n := zsum 0 nz (fun k => cosnv_scaled n k * kernel_odd k) in
  let g2_symm n := zsum 0 nz (fun k => sinnv_scaled n k * kernel_odd k) in
  let g1_asym n := zsum 0 nz (fun k => cosnv_scaled n k * kernel_even k) in
  let g2_asym n := zsum 0 nz (fun k => sinnv_scaled n k * kernel_even k) in
  for_up 0 (mf + 1) (fun m gg =>
    let cosmui := cosmui_scaled l m in
    let sinmui := sinmui_scaled l m in
    for_up 0 (nf + 1) (fun n '(gs, gc) =>
      let posn := ((nf + n) * (mf + 1) + m)%Z in
      let negn := ((nf - n) * (mf + 1) + m)%Z in
      let gcos_symm := g1_symm n * sinmui in
      let gsin_symm := g2_symm n * cosmui in
      let gs := add_at gs (posn * numLocal + klpRel)%Z (gcos_symm - gsin_symm) in
      let gs := if (n >? 0)%Z then add_at gs (negn * numLocal + klpRel)%Z (gcos_symm + gsin_symm) else gs in
      let gcos_asym := g1_asym n * cosmui in
      let gsin_asym := g2_asym n * sinmui in
      let gc := if lasym then
          let gc := add_at gc (posn * numLocal + klpRel)%Z (gcos_asym + gsin_asym) in
          if (n >? 0)%Z then add_at gc (negn * numLocal + klpRel)%Z (gcos_asym - gsin_asym) else gc
        else gc in
      (gs, gc)) gg) gg.

(** laplace_solver.cc:123-207: TransformGreensFunctionDerivative. Arrays:
    grpmn_sin, grpmn_cos. *)
Definition transform_green (greenp : Z -> R) (gg : (Z -> R) * (Z -> R)) : (Z -> R) * (Z -> R) :=
  let zero := fun _ : Z => 0 in
  let '(_, gc) := gg in
  for_up ztMin ztMax (fun klp gg => for_up 0 nTR (fun l gg => green_row greenp klp l gg) gg)
    (zero, if lasym then zero else gc).

(** laplace_solver.cc:209-229: SymmetriseSourceTerm. Arrays: gstore_symm,
    gstore_asym. *)
Definition symmetrise (gstore : Z -> R) (sa : (Z -> R) * (Z -> R)) : (Z -> R) * (Z -> R) :=
  for_up 0 nTR (fun l sa => for_up 0 nz (fun k '(sy, as_) =>
    let kl := (l * nz + k)%Z in
    (upd sy kl ((gstore kl - gstore (kl_rev l k)) * (1 / 2)),
     if lasym then upd as_ kl ((gstore kl + gstore (kl_rev l k)) * (1 / 2)) else as_)) sa) sa.

(** laplace_solver.cc:231-249: AccumulateFullGrpmn *)
Definition accumulate (sin_singular cos_singular : Z -> R) (gg : (Z -> R) * (Z -> R)) : (Z -> R) * (Z -> R) :=
  let inv_nfp := 1 / IZR (sz_nfp s) in
  let '(gs, gc) := gg in
  (for_up 0 (mnpd * numLocal) (fun i gs => upd gs i (gs i + sin_singular i * inv_nfp)) gs,
   if lasym then for_up 0 (mnpd * numLocal) (fun i gc => upd gc i (gc i + cos_singular i * inv_nfp)) gc else gc).

(** laplace_solver.cc:251-310 (source part of PerformToroidalFourierTransforms):
    bcos and bsin of one of the two source halves. *)
Definition toroidal_source (gstore_half : Z -> R) : (Z -> R) * (Z -> R) :=
  let zero := fun _ : Z => 0 in
  let bcos_mat n l := zsum 0 nz (fun k => cosnv_scaled n k * gstore_half (l * nz + k)%Z) in
  let bsin_mat n l := zsum 0 nz (fun k => sinnv_scaled n k * gstore_half (l * nz + k)%Z) in
  for_up 0 (nf + 1) (fun n bb => for_up 0 nTR (fun l '(bc, bs) =>
    let posn := ((nf + n) * nTR + l)%Z in
    let negn := ((nf - n) * nTR + l)%Z in
    let bc := upd bc posn (bcos_mat n l) in
    let bs := upd bs posn (bsin_mat n l) in
    if (n >? 0)%Z then (upd bc negn (bcos_mat n l), upd bs negn (- bsin_mat n l)) else (bc, bs)) bb)
    (zero, zero).

(** laplace_solver.cc:303-367 (matrix part of PerformToroidalFourierTransforms):
    actemp and astemp of one of the two kernels. *)
Definition toroidal_matrix (grpmn : Z -> R) : (Z -> R) * (Z -> R) :=
  let zero := fun _ : Z => 0 in
  let at_ mn an l := ((mn * (2 * nf + 1) + an) * nTE + l)%Z in
  let aa := for_up 0 nTE (fun l aa => for_up 0 nz (fun k aa =>
    let klp := (l * nz + k)%Z in
    if ((klp <? ztMin) || (klp >=? ztMax))%Z%bool then aa else
    for_up 0 mnpd (fun mn aa =>
      let v := grpmn (mn * numLocal + (klp - ztMin))%Z in
      for_up 0 (nf + 1) (fun n '(ac, as_) =>
        (add_at ac (at_ mn (nf + n)%Z l) (cosnv_scaled n k * v),
         add_at as_ (at_ mn (nf + n)%Z l) (sinnv_scaled n k * v))) aa) aa) aa) (zero, zero) in
  for_up 0 mnpd (fun mn aa => for_up 1 (nf + 1) (fun n aa => for_up 0 nTE (fun l '(ac, as_) =>
    (upd ac (at_ mn (nf - n)%Z l) (ac (at_ mn (nf + n)%Z l)),
     upd as_ (at_ mn (nf - n)%Z l) (- as_ (at_ mn (nf + n)%Z l)))) aa) aa) aa.

(** laplace_solver.cc:369-411 (source part of PerformPoloidalFourierTransforms) *)
Definition poloidal_source_sin (bc bs : Z -> R) : Z -> R :=
  for_up 0 (2 * nf + 1) (fun an b => for_up 0 (mf + 1) (fun m b =>
    upd b (an * (mf + 1) + m)%Z
      (zsum 0 nTR (fun l => sinmui_scaled l m * bc (an * nTR + l)%Z)
       - zsum 0 nTR (fun l => cosmui_scaled l m * bs (an * nTR + l)%Z))) b) (fun _ => 0).
Definition poloidal_source_cos (bc bs : Z -> R) : Z -> R :=
  for_up 0 (2 * nf + 1) (fun an b => for_up 0 (mf + 1) (fun m b =>
    upd b (an * (mf + 1) + m)%Z
      (zsum 0 nTR (fun l => cosmui_scaled l m * bc (an * nTR + l)%Z)
       + zsum 0 nTR (fun l => sinmui_scaled l m * bs (an * nTR + l)%Z))) b) (fun _ => 0).

(** laplace_solver.cc:413-478: the four matrix blocks. The loops assign every
    entry once; [block] is one of them. *)
Definition block (f : Z -> Z -> Z -> R) : Z -> R :=
  for_up 0 mnpd (fun mn a => for_up 0 (2 * nf + 1) (fun an a => for_up 0 (mf + 1) (fun m a =>
    upd a ((an * (mf + 1) + m) * mnpd + mn)%Z (f mn an m)) a) a) (fun _ => 0).
Definition base_idx (mn an : Z) : Z := ((mn * (2 * nf + 1) + an) * nTE)%Z.
(** lines 423-437 *)
Definition amat_sin_sin (ac as_ : Z -> R) : Z -> R := block (fun mn an m =>
  zsum 0 nTR (fun l => sinmui_scaled l m * ac (base_idx mn an + l)%Z)
  - zsum 0 nTR (fun l => cosmui_scaled l m * as_ (base_idx mn an + l)%Z)).
(** lines 439-445 *)
Definition amat_sin_cos (ac as_ : Z -> R) : Z -> R := block (fun mn an m =>
  zsum 0 nTR (fun l => cosmui_scaled l m * ac (base_idx mn an + l)%Z)
  + zsum 0 nTR (fun l => sinmui_scaled l m * as_ (base_idx mn an + l)%Z)).
(** lines 447-476 *)
Definition fold_m (a : Z -> R) (b l : Z) : R := 1 / 2 * (a (b + l)%Z - a (b + (nT - l) mod nT)%Z).
Definition fold_p (a : Z -> R) (b l : Z) : R := 1 / 2 * (a (b + l)%Z + a (b + (nT - l) mod nT)%Z).
Definition amat_cos_sin (acc asc : Z -> R) : Z -> R := block (fun mn an m =>
  zsum 0 nTR (fun l => sinmui_scaled l m * fold_m acc (base_idx mn an) l)
  - zsum 0 nTR (fun l => cosmui_scaled l m * fold_p asc (base_idx mn an) l)).
Definition amat_cos_cos (acc asc : Z -> R) : Z -> R := block (fun mn an m =>
  zsum 0 nTR (fun l => cosmui_scaled l m * fold_p acc (base_idx mn an) l)
  + zsum 0 nTR (fun l => sinmui_scaled l m * fold_m asc (base_idx mn an) l)).
End LAP.

(** What one thread brings to the shared system. *)
Record lap_part := mkLap { lp_ss : Z -> R; lp_sc : Z -> R; lp_cs : Z -> R; lp_cc : Z -> R;  (* amat *)
  lp_bs : Z -> R; lp_bc : Z -> R }.                                                          (* bvec *)

(** The calls of one thread on a full update, nestor.cc: regularised kernel and
    source, singular kernel; starting from the previous arrays. *)
Definition thread_part (s : sizes) (fb : basis_tables) (mf nf ztMin ztMax : Z)
    (greenp gstore sin_singular cos_singular : Z -> R) (grpmn0 gst0 : (Z -> R) * (Z -> R)) : lap_part :=
  let '(gs, gc) := accumulate s mf nf ztMin ztMax sin_singular cos_singular
                     (transform_green s fb mf nf ztMin ztMax greenp grpmn0) in
  let '(sy, as_) := symmetrise s gstore gst0 in
  let '(bc, bs) := toroidal_source s fb nf sy in
  let '(bca, bsa) := toroidal_source s fb nf as_ in
  let '(ac, as_) := toroidal_matrix s fb mf nf ztMin ztMax gs in
  let '(acc, asc) := toroidal_matrix s fb mf nf ztMin ztMax gc in
  mkLap (amat_sin_sin s fb mf nf ac as_) (amat_sin_cos s fb mf nf ac as_)
        (amat_cos_sin s fb mf nf acc asc) (amat_cos_cos s fb mf nf acc asc)
        (poloidal_source_sin s fb mf nf bc bs) (poloidal_source_cos s fb mf nf bca bsa).

Section SHARED.
Variable s : sizes.
Variables mf nf : Z.
Local Notation lasym := (sz_lasym s).
Local Notation M := (mnpd mf nf).
Definition mnpd_dim : Z := if lasym then (2 * M)%Z else M.

(** laplace_solver.cc:496-524: the critical section of one thread *)
Definition add_part (p : lap_part) (a : Z -> R) : Z -> R :=
  if lasym then
    for_up 0 M (fun j a => for_up 0 M (fun i a =>
      let src := (j * M + i)%Z in
      let a := add_at a (i + j * mnpd_dim)%Z (lp_ss p src) in
      let a := add_at a (i + (j + M) * mnpd_dim)%Z (lp_sc p src) in
      let a := add_at a ((i + M) + j * mnpd_dim)%Z (lp_cs p src) in
      add_at a ((i + M) + (j + M) * mnpd_dim)%Z (lp_cc p src)) a) a
  else for_up 0 (M * M) (fun i a => upd a i (a i + lp_ss p i)) a.

(** laplace_solver.cc:532-583: the single section *)
Definition finish_matrix (a : Z -> R) : Z -> R :=
  let a := for_up 0 M (fun mnp a => for_up 0 nf (fun an a =>
    if lasym then
      let row := (an * (mf + 1) + 0)%Z in
      let a := upd a (row + mnp * mnpd_dim)%Z 0 in
      let a := upd a (row + (mnp + M) * mnpd_dim)%Z 0 in
      let a := upd a ((row + M) + mnp * mnpd_dim)%Z 0 in
      upd a ((row + M) + (mnp + M) * mnpd_dim)%Z 0
    else upd a ((mnp * (2 * nf + 1) + an) * (mf + 1) + 0)%Z 0) a) a in
  if lasym then
    let a := for_up 0 M (fun mn a =>
      let a := add_at a (mn + mn * mnpd_dim)%Z (1 / 2) in
      add_at a ((mn + M) + (mn + M) * mnpd_dim)%Z (1 / 2)) a in
    let mn0 := (nf * (mf + 1))%Z in
    add_at a ((mn0 + M) + (mn0 + M) * mnpd_dim)%Z (1 / 2)
  else for_up 0 M (fun mn a => add_at a (mn * M + mn)%Z (1 / 2)) a.

(** laplace_solver.cc:480-588: BuildMatrix, executed by a team whose critical
    sections come in the order of the list *)
Definition build_matrix (parts : list lap_part) (matrixShare : Z -> R) : Z -> R :=
  let a := for_up 0 (mnpd_dim * mnpd_dim) (fun i a => upd a i 0) matrixShare in
  finish_matrix (fold_left (fun a p => add_part p a) parts a).

(** laplace_solver.cc:620-679: the right-hand side of SolveForPotential; each
    thread brings its part and its singular source vectors *)
Definition add_rhs (p : lap_part) (sin_singular cos_singular : Z -> R) (b : Z -> R) : Z -> R :=
  let inv_nfp := 1 / IZR (sz_nfp s) in
  let b := for_up 0 M (fun i b => upd b i (b i + (lp_bs p i + sin_singular i * inv_nfp))) b in
  if lasym then for_up 0 M (fun i b => upd b (M + i)%Z (b (M + i)%Z + (lp_bc p i + cos_singular i * inv_nfp))) b else b.
Definition build_rhs (parts : list (lap_part * ((Z -> R) * (Z -> R)))) (bvecShare : Z -> R) : Z -> R :=
  let b := for_up 0 mnpd_dim (fun i b => upd b i 0) bvecShare in
  let b := fold_left (fun b q => add_rhs (fst q) (fst (snd q)) (snd (snd q)) b) parts b in
  for_up 0 nf (fun an b =>
    let b := upd b (an * (mf + 1) + 0)%Z 0 in
    if lasym then upd b (M + an * (mf + 1) + 0)%Z 0 else b) b.
End SHARED.
