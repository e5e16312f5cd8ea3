(** The spectra of the derived quantities in the wout contents (Nyquist modes),
    vmec/output_quantities/output_quantities.cc:4550-4572 and 4712-5182.
    Exact arithmetic.  The seven half-grid quantities (Jacobian, |B|, covariant
    and contravariant field) and the full-grid B_s run through copies of the same
    statements; here one definition per kernel takes the field as an argument.
    Matrices (mode, surface) are functions of two indices; new ones are zero.
    Each array has its own loop.  The loops over surfaces run in parallel in the
    source; each iteration writes its own column (C10 covers such loops). *)
From Coq Require Import ZArith Bool Reals.
From Verif Require Import Base SizesModel FourierModel.
Open Scope R_scope.

(** xm_nyq, xn_nyq: common/fourier_basis/fourier_basis.cc:46-52,
    output_quantities.cc:4541-4542 *)
Definition nyq_modes (s : sizes) : (Z -> Z) * (Z -> Z) :=
  snd (computeConversionIndices (sz_nnyq s) (sz_mnyq s + 1) (sz_nfp s)).

Section N.
  Context (s : sizes) (t : basis_tables) (xm_nyq xn_nyq : Z -> Z).
  Local Notation nTR := (sz_nThetaReduced s).
  Local Notation nTE := (sz_nThetaEff s).
  Local Notation nZeta := (sz_nZeta s).

  (** 4551-4560 *)
  Definition nyq_cosmui : Z -> R :=
    let c := for_up 0 (nTR * (sz_mnyq2 s + 1)) (fun ml c => upd c ml (bt_cosmui t ml)) (fun _ => 0) in
    if negb (sz_mnyq s =? 0)%Z then
      for_up 0 nTR (fun l c => let ml := (sz_mnyq s * nTR + l)%Z in upd c ml (c ml / 2)) c
    else c.
  (** 4562-4572 *)
  Definition nyq_cosnv : Z -> R :=
    let c := for_up 0 ((sz_nnyq2 s + 1) * nZeta) (fun kn c => upd c kn (bt_cosnv t kn)) (fun _ => 0) in
    if negb (sz_nnyq s =? 0)%Z then
      for_up 0 nZeta (fun k c => let kn := (k * (sz_nnyq2 s + 1) + sz_nnyq s)%Z in upd c kn (c kn / 2)) c
    else c.

  (** The value of the field that goes into the sums at point (k, l) of surface
      [j]: the field itself, or in asymmetric runs its part of even
      ([even_ = true]) or odd parity, 4833-4900. *)
  Definition part (even_ : bool) (f : Z -> R) (j k l : Z) : R :=
    let g := f ((j * nZeta + k) * nTE + l)%Z in
    if sz_lasym s then
      let k_rev := Z.rem (nZeta - k) nZeta in
      let l_rev := Z.rem (nTE - l) nTE in
      let g_rev := f ((j * nZeta + k_rev) * nTE + l_rev)%Z in
      if even_ then 1 / 2 * (g + g_rev) else 1 / 2 * (g - g_rev)
    else g.

  (** Poloidal partial sums, 4800-4951. *)
  Definition partial_sums (tab : Z -> R) (val : Z -> Z -> R) : Z -> R :=
    for_up 0 (sz_mnyq s + 1) (fun m F => for_up 0 nZeta (fun k F =>
      upd F (m * nZeta + k)%Z (for_up 0 nTR (fun l acc => acc + tab (m * nTR + l)%Z * val k l) 0)) F) (fun _ => 0).

  (** 4955-4963 *)
  Definition dmult (m n : Z) : R :=
    let d := mscale m * nscale (Z.abs n) * (1 / 2) in
    if (m =? 0)%Z || (n =? 0)%Z then d * 2 else d.
  (** cos(mu - nv) kernel, 4970-4990, and sin(mu - nv) kernel, 4991-4993 *)
  Definition cos_coef (Fc Fs : Z -> R) (mn : Z) : R :=
    let m := xm_nyq mn in let n := Z.quot (xn_nyq mn) (sz_nfp s) in
    let acc := for_up 0 nZeta (fun k acc =>
      let kn := (k * (sz_nnyq2 s + 1) + Z.abs n)%Z in let mk := (m * nZeta + k)%Z in
      acc + (nyq_cosnv kn * Fc mk + IZR (signum n) * bt_sinnv t kn * Fs mk)) 0 in
    dmult m n * acc.
  Definition sin_coef (Fc Fs : Z -> R) (mn : Z) : R :=
    let m := xm_nyq mn in let n := Z.quot (xn_nyq mn) (sz_nfp s) in
    let acc := for_up 0 nZeta (fun k acc =>
      let kn := (k * (sz_nnyq2 s + 1) + Z.abs n)%Z in let mk := (m * nZeta + k)%Z in
      acc + (nyq_cosnv kn * Fs mk - IZR (signum n) * bt_sinnv t kn * Fc mk)) 0 in
    dmult m n * acc.

  (** One output matrix: [num] surfaces, stored with column offset [off] (1 on the
      half grid, 0 on the full grid). *)
  Definition spectrum (num off : Z) (coef : (Z -> R) -> (Z -> R) -> Z -> R) (val : Z -> Z -> Z -> R) : Z -> Z -> R :=
    for_up 0 num (fun j w =>
      let Fc := partial_sums nyq_cosmui (val j) in
      let Fs := partial_sums (bt_sinmui t) (val j) in
      for_up 0 (sz_mnmax_nyq s) (fun mn w => upd2 w mn (j + off)%Z (coef Fc Fs mn)) w) (fun _ _ => 0).

  Context (ns : Z).
  (** gmnc, bmnc, bsubumnc, bsubvmnc, bsupumnc, bsupvmnc of the half-grid field [f];
      gmns, ... in asymmetric runs *)
  Definition half_mnc (f : Z -> R) : Z -> Z -> R := spectrum (ns - 1) 1 cos_coef (part true f).
  Definition half_mns (f : Z -> R) : Z -> Z -> R := spectrum (ns - 1) 1 sin_coef (part false f).
  (** bsubsmns and, in asymmetric runs, bsubsmnc, with the column 0 of 5054-5064 *)
  Definition beyond_axis (w : Z -> Z -> R) : Z -> Z -> R :=
    for_up 0 (sz_mnmax_nyq s) (fun mn w => upd2 w mn 0%Z (2 * w mn 1%Z - w mn 2%Z)) w.
  Definition bsubsmns (bs : Z -> R) : Z -> Z -> R := beyond_axis (spectrum (ns - 1) 1 sin_coef (part false bs)).
  Definition bsubsmnc (bs : Z -> R) : Z -> Z -> R := beyond_axis (spectrum (ns - 1) 1 cos_coef (part true bs)).
  (** bsubsmns_full, bsubsmnc_full, 5076-5182 *)
  Definition bsubsmns_full (bs : Z -> R) : Z -> Z -> R := spectrum ns 0 sin_coef (part false bs).
  Definition bsubsmnc_full (bs : Z -> R) : Z -> Z -> R := spectrum ns 0 cos_coef (part true bs).
  (** |B|, 4697-4710 *)
  Definition modB (total_pressure presH : Z -> R) : Z -> R :=
    for_up 0 (ns - 1) (fun jH a => for_up 0 (sz_nZnT s) (fun kl a =>
      let i := (jH * sz_nZnT s + kl)%Z in upd a i (sqrt (2 * Rabs (total_pressure i - presH jH)))) a) (fun _ => 0).
End N.
