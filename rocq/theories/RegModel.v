(** Model of RegularizedIntegrals,
    free_boundary/regularized_integrals/regularized_integrals.cc. [double] is
    modelled by [R] (exact arithmetic), [int] by [Z], arrays by functions of the
    flat index; the scratch buffers are arrays too. The surface geometry is the
    record of SurfModel. [%] acts on non-negative integers only. *)
From Coq Require Import ZArith Reals Bool.
From Verif Require Import Base SizesModel SingSumModel SurfModel.
Open Scope R_scope.

(** regularized_integrals.cc:39-53, 69-73: 2 tan(x), with the pole at pi/2 masked *)
Definition epsTan : R := 1 / 10 ^ 15.
Definition bigNo : R := 10 ^ 50.
Definition masked_tan (x : R) : R :=
  if Rlt_dec (Rabs (x - 1 / 2 * PI)) epsTan then bigNo else 2 * tan x.

(** regularized_integrals.h:37 *)
Definition kAxisymmetricToroidalImages : Z := 64.

Record chunk_st := mkCh {
  ch_ga1 : Z -> R; ch_ga2 : Z -> R; ch_h : Z -> R; ch_f : Z -> R; (* ga1_buf, ga2_buf, htemp_buf, ftemp_buf *)
  ch_kl : Z;                                                      (* kl *)
  ch_green : Z -> R; ch_gstore : Z -> R }.                        (* greenp, gstore *)

Section REG.
Variable s : sizes.
Variables ztMin ztMax : Z.
Variable g : surf.
Variable bDotN : Z -> R.
Local Notation nz := (sz_nZeta s).
Local Notation nT := (sz_nThetaEven s).
Local Notation nfp := (sz_nfp s).
Local Notation q := (sf_der g).
Local Notation rcosuv := (sf_rcosuv g).
Local Notation rsinuv := (sf_rsinuv g).
Local Notation r1b := (sf_sym g R1).
Local Notation z1b := (sf_sym g Z1).

(** regularized_integrals.cc:39-58, 66-74 *)
Definition tanu (l : Z) : R := masked_tan (PI / IZR nT * IZR l).
Definition tanv (k : Z) : R := masked_tan (PI / IZR nz * IZR k).
Definition tanv_per (p : Z) : R := masked_tan (PI * IZR p / IZR kAxisymmetricToroidalImages).

(** surface_geometry.cc:85-90 *)
Definition cos_per (p : Z) : R := cos (2 * PI / IZR nfp * IZR p).
Definition sin_per (p : Z) : R := sin (2 * PI / IZR nfp * IZR p).

Definition theta_by_nzeta : Z := (nT * nz)%Z.
Definition twopidivnfp : R := 2 * PI / IZR nfp.

(** regularized_integrals.cc:116-134, 195-206, 270-276: the rotated source point and normal *)
Definition xper (c sn : R) (klp : Z) : R := rcosuv klp * c - rsinuv klp * sn.
Definition yper (c sn : R) (klp : Z) : R := rcosuv klp * sn + rsinuv klp * c.
Definition sxsave (c sn : R) (klp : Z) : R :=
  (q Snr (klp - ztMin)%Z * xper c sn klp - q Snv (klp - ztMin)%Z * yper c sn klp) / r1b klp.
Definition sysave (c sn : R) (klp : Z) : R :=
  (q Snr (klp - ztMin)%Z * yper c sn klp + q Snv (klp - ztMin)%Z * xper c sn klp) / r1b klp.

(** regularized_integrals.cc:126-134: gsave, dsave *)
Definition fill_gsave (klp : Z) (a : Z -> R) : Z -> R :=
  for_up 0 theta_by_nzeta (fun kl a => upd a kl (sf_rzb2 g klp + sf_rzb2 g kl - 2 * z1b kl * z1b klp)) a.
Definition fill_dsave (klp : Z) (a : Z -> R) : Z -> R :=
  for_up 0 theta_by_nzeta (fun kl a => upd a kl (q Drv (klp - ztMin)%Z + z1b kl * q Snz (klp - ztMin)%Z)) a.

(** The quadratic forms of lines 152-162, 287-292 *)
Definition form1 (o : Z) (tu tv : R) : R := q Guu o * tu * tu + q Guv o * tu * tv + q Gvv o * tv * tv.
Definition form2 (o : Z) (tu tv : R) : R := q Auu o * tu * tu + q Auv o * tu * tv + q Avv o * tv * tv.

(** regularized_integrals.cc:138-194: the four loops over the columns of one
    poloidal row, [kl] advancing with [k] *)
Definition chunk (klp kl_end : Z) (gsave dsave : Z -> R) (st : chunk_st) : chunk_st :=
  let o := (klp - ztMin)%Z in
  let lp := (klp / nz)%Z in
  let kp := (klp mod nz)%Z in
  let c := cos_per 0 in let sn := sin_per 0 in
  let xp := xper c sn klp in let yp := yper c sn klp in
  let sx := sxsave c sn klp in let sy := sysave c sn klp in
  let bexni := bDotN o * sz_wInt s lp in
  let kl := ch_kl st in
  let l := (kl / nz)%Z in
  let delta_l := ((l - lp + nT) mod nT)%Z in
  let k_start := (kl mod nz)%Z in
  let k_end := Z.min nz (kl_end - l * nz) in
  let kl_backup := kl in
  let st := for_up k_start k_end (fun k st =>
    let delta_k := ((k - kp + nz) mod nz)%Z in
    mkCh (upd (ch_ga1 st) k (form1 o (tanu delta_l) (tanv delta_k)))
         (upd (ch_ga2 st) k (form2 o (tanu delta_l) (tanv delta_k)))
         (ch_h st) (ch_f st) (ch_kl st + 1)%Z (ch_green st) (ch_gstore st)) st in
  let st := for_up k_start k_end (fun k st =>
    let a2 := upd (ch_ga2 st) k (ch_ga2 st k / ch_ga1 st k) in
    let a1 := upd (ch_ga1 st) k (1 / sqrt (ch_ga1 st k)) in
    mkCh a1 a2 (ch_h st) (ch_f st) (ch_kl st + 1)%Z (ch_green st) (ch_gstore st)) st in
  let st := mkCh (ch_ga1 st) (ch_ga2 st) (ch_h st) (ch_f st) kl_backup (ch_green st) (ch_gstore st) in
  let st := for_up k_start k_end (fun k st =>
    let kl := ch_kl st in
    let f := upd (ch_f st) k (1 / (gsave kl - 2 * (xp * rcosuv kl + yp * rsinuv kl))) in
    let h := upd (ch_h st) k (sqrt (f k)) in
    mkCh (ch_ga1 st) (ch_ga2 st) h f (kl + 1)%Z (ch_green st) (ch_gstore st)) st in
  let st := mkCh (ch_ga1 st) (ch_ga2 st) (ch_h st) (ch_f st) kl_backup (ch_green st) (ch_gstore st) in
  for_up k_start k_end (fun k st =>
    let kl := ch_kl st in
    let ip := (o * theta_by_nzeta + kl)%Z in
    let gr := add_at (ch_green st) ip (twopidivnfp *
       (ch_h st k * ch_f st k * (rcosuv kl * sx + rsinuv kl * sy + dsave kl) - ch_ga1 st k * ch_ga2 st k)) in
    let v := twopidivnfp * (ch_h st k - ch_ga1 st k) in
    mkCh (ch_ga1 st) (ch_ga2 st) (ch_h st) (ch_f st) (kl + 1)%Z gr (add_at (ch_gstore st) kl (bexni * v))) st.

(** regularized_integrals.cc:136-195: do_loop. The loop variable is advanced by
    the body by at least one, so [kl_end - kl_start] rounds are enough. *)
Fixpoint rounds (klp kl_end : Z) (gsave dsave : Z -> R) (fuel : nat) (st : chunk_st) : chunk_st :=
  match fuel with
  | O => st
  | S f => if (ch_kl st <? kl_end)%Z then rounds klp kl_end gsave dsave f (chunk klp kl_end gsave dsave st) else st
  end.
Definition do_loop (klp kl_start kl_end : Z) (gsave dsave : Z -> R) (st : chunk_st) : chunk_st :=
  rounds klp kl_end gsave dsave (Z.to_nat (kl_end - kl_start))
    (mkCh (ch_ga1 st) (ch_ga2 st) (ch_h st) (ch_f st) kl_start (ch_green st) (ch_gstore st)).

(** regularized_integrals.cc:200-222: all following field periods *)
Definition other_periods (klp : Z) (gsave dsave : Z -> R) (gg : (Z -> R) * (Z -> R)) : (Z -> R) * (Z -> R) :=
  let o := (klp - ztMin)%Z in
  let bexni := bDotN o * sz_wInt s (klp / nz) in
  for_up 1 nfp (fun p gg =>
    let c := cos_per p in let sn := sin_per p in
    for_up 0 theta_by_nzeta (fun kl '(gr, gs) =>
      let ftemp := 1 / (gsave kl - 2 * (xper c sn klp * rcosuv kl + yper c sn klp * rsinuv kl)) in
      let htemp := sqrt ftemp in
      (add_at gr (o * theta_by_nzeta + kl)%Z
         (twopidivnfp * htemp * ftemp * (rcosuv kl * sxsave c sn klp + rsinuv kl * sysave c sn klp + dsave kl)),
       add_at gs kl (bexni * (twopidivnfp * htemp)))) gg) gg.

(** State of the object: gsave, dsave, greenp, gstore. *)
Record reg := mkReg { rg_gsave : Z -> R; rg_dsave : Z -> R; rg_greenp : Z -> R; rg_gstore : Z -> R }.

(** regularized_integrals.cc:96-224: one source point *)
Definition source_point (klp : Z) (st : reg) : reg :=
  let gsave := fill_gsave klp (rg_gsave st) in
  let dsave := fill_dsave klp (rg_dsave st) in
  let z := fun _ : Z => 0 in
  let c := do_loop klp 0 klp gsave dsave (mkCh z z z z 0 (rg_greenp st) (rg_gstore st)) in
  let c := do_loop klp (klp + 1) theta_by_nzeta gsave dsave c in
  let '(gr, gs) := other_periods klp gsave dsave (ch_green c, ch_gstore c) in
  mkReg gsave dsave gr gs.

(** regularized_integrals.cc:226-326: updateAxisymmetric *)
Definition axi_point (klp : Z) (st : reg) : reg :=
  let o := (klp - ztMin)%Z in
  let gsave := for_up 0 nT (fun kl a => upd a kl (sf_rzb2 g klp + sf_rzb2 g kl - 2 * z1b kl * z1b klp)) (rg_gsave st) in
  let dsave := for_up 0 nT (fun kl a => upd a kl (q Drv o + z1b kl * q Snz o)) (rg_dsave st) in
  let measure := 2 * PI / IZR kAxisymmetricToroidalImages in
  let bexni := bDotN o * sz_wInt s klp in
  let '(gr, gs) := for_up 0 kAxisymmetricToroidalImages (fun p gg =>
    let c := cos (measure * IZR p) in let sn := sin (measure * IZR p) in
    for_up 0 nT (fun kl '(gr, gs) =>
      if ((p =? 0)%Z && (kl =? klp)%Z)%bool then (gr, gs) else
      let delta_l := ((kl - klp + nT) mod nT)%Z in
      let ga1 := form1 o (tanu delta_l) (tanv_per p) in
      let ga2 := form2 o (tanu delta_l) (tanv_per p) / ga1 in
      let ga1 := 1 / sqrt ga1 in
      let ftemp := 1 / (gsave kl - 2 * (xper c sn klp * rcosuv kl + yper c sn klp * rsinuv kl)) in
      let htemp := sqrt ftemp in
      (add_at gr (o * nT + kl)%Z (measure *
         (htemp * ftemp * (rcosuv kl * sxsave c sn klp + rsinuv kl * sysave c sn klp + dsave kl) - ga1 * ga2)),
       add_at gs kl (bexni * measure * (htemp - ga1)))) gg) (rg_greenp st, rg_gstore st) in
  mkReg gsave dsave gr gs.

(** regularized_integrals.cc:78-224: update *)
Definition reg_update (st : reg) : reg :=
  let st := mkReg (rg_gsave st) (rg_dsave st) (fun _ => 0) (fun _ => 0) in
  if (nz =? 1)%Z then for_up ztMin ztMax axi_point st
  else for_up ztMin ztMax source_point st.
End REG.
