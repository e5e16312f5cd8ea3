(** The Mercier stability criterion of the output,
    vmec/output_quantities/output_quantities.cc:2842-3190.  Exact arithmetic.
    Arrays and loops as in JxbModel; bdotk is read from the jxbout contents.
    Simplification: values at the points of one surface are functions of the
    surface and the point instead of matrices; they are only read for the
    surface and point for which they were computed. *)
From Coq Require Import ZArith Bool Reals.
From Verif Require Import Base SizesModel JxbModel.
Open Scope R_scope.

(** Members of vmec_internal_results read here in addition to those of [jxb_in]. *)
Record merc_in := mkMercIn {
  y_iotaH : Z -> R;
  y_r_e : Z -> R; y_r_o : Z -> R; y_ru_e : Z -> R; y_ru_o : Z -> R; y_zu_e : Z -> R; y_zu_o : Z -> R;
  y_rv_e : Z -> R; y_rv_o : Z -> R; y_zv_e : Z -> R; y_zv_o : Z -> R }.

Section M.
  Context (s : sizes) (ns : Z) (deltaS : R) (d : jxb_in) (y : merc_in) (bdotk : Z -> R).
  Local Notation nZnT := (sz_nZnT s).
  Local Notation signgs := (x_sign_of_jacobian d).

  (** ComputeIntermediateMercierQuantities, half grid: 2903-2926. *)
  Definition phip_realH (jH : Z) : R := 2 * PI * x_phipH d jH * signgs.
  Definition vp_real (jH : Z) : R := signgs * (4 * PI * PI) * x_dVdsH d jH / phip_realH jH.
  Definition torcur (jH : Z) : R :=
    accum s (fun kl w => x_bsubu d (jH * nZnT + kl)%Z * w) * (signgs * 2 * PI).

  (** Full grid, 2929-2960: a derivative with respect to the flux. *)
  Definition phip_realF (jF : Z) : R := (phip_realH jF + phip_realH (jF - 1)) / 2.
  Definition d_dphi (a : Z -> R) (jF : Z) : R := (a jF - a (jF - 1)%Z) / (phip_realF jF * deltaS).
  Definition i_shear : Z -> R := profile ns (d_dphi (y_iotaH y)).
  Definition i_vpp : Z -> R := profile ns (d_dphi vp_real).
  Definition i_pres : Z -> R := profile ns (d_dphi (x_presH d)).
  Definition i_cur : Z -> R := profile ns (d_dphi torcur).

  (** 2967-2990 *)
  Definition gsqrt_mean (jF kl : Z) : R := (outside s (x_gsqrt d) jF kl + inside s (x_gsqrt d) jF kl) / 2.
  Definition bdotj (jF kl : Z) : R := bdotk (jF * nZnT + kl)%Z * MU_0 / gsqrt_mean jF kl.
  Definition gsqrt_full (jF kl : Z) : R := gsqrt_mean jF kl / phip_realF jF.
  (** 2992-3036 *)
  Definition s_full (jF : Z) : R := IZR jF * deltaS.
  Definition geo (e o : Z -> R) (jF kl : Z) : R := e (jF * nZnT + kl)%Z + sqrt (s_full jF) * o (jF * nZnT + kl)%Z.
  Definition gpp (jF kl : Z) : R :=
    let rtf := geo (y_ru_e y) (y_ru_o y) jF kl in let ztf := geo (y_zu_e y) (y_zu_o y) jF kl in
    let rzf := geo (y_rv_e y) (y_rv_o y) jF kl in let zzf := geo (y_zv_e y) (y_zv_o y) jF kl in
    let r1f := geo (y_r_e y) (y_r_o y) jF kl in
    let gtt := rtf * rtf + ztf * ztf in
    let ingredient := rtf * zzf - rzf * ztf in
    gsqrt_full jF kl * gsqrt_full jF kl / (gtt * r1f * r1f + ingredient * ingredient).
  (** 3041-3053 *)
  Definition b2 (jH kl : Z) : R := 2 * (x_total_pressure d (jH * nZnT + kl)%Z - x_presH d jH).
  (** 3055-3096 *)
  Definition b2i (jF kl : Z) : R := (b2 jF kl + b2 (jF - 1) kl) / 2.
  Definition i_tpp : Z -> R := profile ns (fun jF =>
    accum s (fun kl w => gsqrt_full jF kl / b2i jF kl * w) * (4 * PI * PI)).
  Definition i_tbb : Z -> R := profile ns (fun jF =>
    accum s (fun kl w => b2i jF kl * gsqrt_full jF kl * gpp jF kl * w) * (4 * PI * PI)).
  Definition i_tjb : Z -> R := profile ns (fun jF =>
    accum s (fun kl w => bdotj jF kl * gpp jF kl * gsqrt_full jF kl * w) * (4 * PI * PI)).
  Definition i_tjj : Z -> R := profile ns (fun jF =>
    accum s (fun kl w => bdotj jF kl * gpp jF kl * gsqrt_full jF kl * bdotj jF kl / b2i jF kl * w) * (4 * PI * PI)).

  (** ComputeMercierStability, first table 3127-3180; a surface with vp_full = 0 is
      skipped. *)
  Definition vp_full (jF : Z) : R := (vp_real jF + vp_real (jF - 1)) / 2.
  Definition table (f : Z -> R) : Z -> R :=
    for_up 1 (ns - 1) (fun jF a => if Req_EM_T (vp_full jF) 0 then a else upd a jF (f jF)) (fun _ => 0).
  Definition m_s : Z -> R := upd (upd (profile ns s_full) 0%Z 0) (ns - 1)%Z 1.
  Definition m_toroidal_flux : Z -> R := table (fun jF =>
    for_up 1 (jF + 1) (fun jF' acc => acc + phip_realF jF') 0 * deltaS).
  Definition m_iota : Z -> R := table (fun jF => (y_iotaH y jF + y_iotaH y (jF - 1)%Z) / 2).
  Definition m_shear : Z -> R := table (fun jF => i_shear jF / vp_full jF).
  Definition m_d_volume_d_s : Z -> R := table vp_full.
  Definition m_well : Z -> R := table (fun jF => - i_vpp jF * signgs).
  Definition m_toroidal_current : Z -> R := table (fun jF => (torcur jF + torcur (jF - 1)) / 2).
  Definition m_d_toroidal_current_d_s : Z -> R := table (fun jF => i_cur jF / vp_full jF).
  Definition m_pressure : Z -> R := table (fun jF => (x_presH d jF + x_presH d (jF - 1)%Z) / 2).
  Definition m_d_pressure_d_s : Z -> R := table (fun jF => i_pres jF / vp_full jF).
  (** Second table, 3182-3210. *)
  Definition m_Dshear : Z -> R := profile ns (fun jF => i_shear jF * i_shear jF / 4).
  Definition m_Dcurr : Z -> R := profile ns (fun jF => - i_shear jF * (i_tjb jF - i_cur jF * i_tbb jF)).
  Definition m_Dwell : Z -> R := profile ns (fun jF => i_pres jF * (i_vpp jF - i_pres jF * i_tpp jF) * i_tbb jF).
  Definition m_Dgeod : Z -> R := profile ns (fun jF => i_tjb jF * i_tjb jF - i_tbb jF * i_tjj jF).
  Definition m_DMerc : Z -> R := profile ns (fun jF => m_Dshear jF + m_Dcurr jF + m_Dwell jF + m_Dgeod jF).
End M.
