(** The FFT path of the toroidal transforms.
    Source: src/vmecpp/cpp/vmecpp/vmec/ideal_mhd_model/fft_toroidal.cc and the
    dispatch in ideal_mhd_model.cc:1193-1203, 2585-2597.
    Simplifications: [double] is [R] (exact arithmetic), [int] is [Z]; the
    thread-local buffers are functions of the flat index of the source (a
    complex entry takes two consecutive numbers) which keep their contents from
    surface to surface and from call to call; the vendored FFTX routines are the
    arguments [c2r], [r2c], called as run(output, input); [nfp] of the plans is
    that of the sizes (ideal_mhd_model.cc:277).  Resizing of the buffers is not
    represented. *)
From Coq Require Import ZArith List Bool Reals.
From Verif Require Import Base PartModel SizesModel FourierModel DftModel.
Open Scope Z_scope.

(** A batched transform: old output buffer, input buffer, new output buffer. *)
Definition kernel := (Z -> R) -> (Z -> R) -> Z -> R.

(** fft_toroidal.h:73 *)
Definition kBatch : Z := 12.

(** fft_toroidal.cc:213-226, 400-413: enum Slot. *)
Definition kRmkcc := 0. Definition kRmkss := 1. Definition kRmkccN := 2. Definition kRmkssN := 3.
Definition kZmksc := 4. Definition kZmkcs := 5. Definition kZmkscN := 6. Definition kZmkcsN := 7.
Definition kLmksc := 8. Definition kLmkcs := 9. Definition kLmkscN := 10. Definition kLmkcsN := 11.

Section Fft.
Variable s : sizes.
Variable t : basis_tables.
Variable p : rpart.
Variables xmpq sqrtSF : Z -> R.
Variables c2r r2c : kernel.
Local Notation mpol := (sz_mpol s).
Local Notation ntor := (sz_ntor s).
Local Notation nfp := (sz_nfp s).
Local Notation nZeta := (sz_nZeta s).
Local Notation nTR := (sz_nThetaReduced s).
Local Notation nTE := (sz_nThetaEff s).

(** fft_toroidal.cc:32: nhalf(n / 2 + 1), n = nZeta. *)
Definition nhalf : Z := Z.quot nZeta 2 + 1.

(** fft_toroidal.cc:230-235, 428-435: start of slot (m, q), in complex entries of
    the half-spectrum buffer and in entries of the real buffer. *)
Definition cslot (m q : Z) : Z := (m * kBatch + q) * nhalf.
Definition rslot (m q : Z) : Z := (m * kBatch + q) * nZeta.

(** [X[i][0] = re; X[i][1] = im;] *)
Definition setc (X : Z -> R) (i : Z) (re im : R) : Z -> R := upd (upd X (2 * i) re) (2 * i + 1) im.

(** fft_toroidal.cc:89-101; [ib] is the offset of [spec], [b] that of X. *)
Definition FillDct (spec : Z -> R) (ib b : Z) (X : Z -> R) : Z -> R :=
  let X := setc X b (spec ib * nscale 0)%R 0%R in
  let X := for_up 1 (ntor + 1) (fun n X => setc X (b + n) (spec (ib + n)%Z * nscale n * (1 / 2))%R 0%R) X in
  for_up (ntor + 1) nhalf (fun n X => setc X (b + n) 0%R 0%R) X.
(** fft_toroidal.cc:106-118 *)
Definition FillDst (spec : Z -> R) (ib b : Z) (X : Z -> R) : Z -> R :=
  let X := setc X b 0%R 0%R in
  let X := for_up 1 (ntor + 1) (fun n X => setc X (b + n) 0%R (- spec (ib + n)%Z * nscale n * (1 / 2))%R) X in
  for_up (ntor + 1) nhalf (fun n X => setc X (b + n) 0%R 0%R) X.
(** fft_toroidal.cc:124-136 *)
Definition FillDctDeriv (spec : Z -> R) (ib b : Z) (X : Z -> R) : Z -> R :=
  let X := setc X b 0%R 0%R in
  let X := for_up 1 (ntor + 1) (fun n X =>
    setc X (b + n) 0%R (spec (ib + n)%Z * IZR (n * nfp) * nscale n * (1 / 2))%R) X in
  for_up (ntor + 1) nhalf (fun n X => setc X (b + n) 0%R 0%R) X.
(** fft_toroidal.cc:142-154 *)
Definition FillDstDeriv (spec : Z -> R) (ib b : Z) (X : Z -> R) : Z -> R :=
  let X := setc X b 0%R 0%R in
  let X := for_up 1 (ntor + 1) (fun n X =>
    setc X (b + n) (spec (ib + n)%Z * IZR (n * nfp) * nscale n * (1 / 2))%R 0%R) X in
  for_up (ntor + 1) nhalf (fun n X => setc X (b + n) 0%R 0%R) X.

(** fft_toroidal.cc:239-274: all 12 * mpol half-spectra of surface jF. *)
Definition pack (x : coefs) (jF : Z) (X : Z -> R) : Z -> R :=
  for_up 0 mpol (fun m X =>
    let jMin := if (m =? 0) || (m =? 1) then 0 else 1 in
    if jF <? jMin then
      for_up 0 kBatch (fun q X => for_up 0 nhalf (fun n X => setc X (cslot m q + n) 0%R 0%R) X) X
    else
      let ib := ((jF - nsMinF1 p) * mpol + m) * (ntor + 1) in
      let X := FillDct (x cR b_cc) ib (cslot m kRmkcc) X in
      let X := FillDst (x cR b_ss) ib (cslot m kRmkss) X in
      let X := FillDctDeriv (x cR b_cc) ib (cslot m kRmkccN) X in
      let X := FillDstDeriv (x cR b_ss) ib (cslot m kRmkssN) X in
      let X := FillDct (x cZ b_sc) ib (cslot m kZmksc) X in
      let X := FillDst (x cZ b_cs) ib (cslot m kZmkcs) X in
      let X := FillDctDeriv (x cZ b_sc) ib (cslot m kZmkscN) X in
      let X := FillDstDeriv (x cZ b_cs) ib (cslot m kZmkcsN) X in
      let X := FillDct (x cL b_sc) ib (cslot m kLmksc) X in
      let X := FillDst (x cL b_cs) ib (cslot m kLmkcs) X in
      let X := FillDctDeriv (x cL b_sc) ib (cslot m kLmkscN) X in
      FillDstDeriv (x cL b_cs) ib (cslot m kLmkcsN) X) X.

(** fft_toroidal.cc:301-347: contribution of (m, k) of the transformed surface to
    point l. *)
Definition fft_v (Y : Z -> R) (m k : Z) (q : gq) (l : Z) : R :=
  let ml := m * nTR + l in
  let y i := Y (rslot m i + k)%Z in
  (match q with
   | G_ru => y kRmkcc * bt_sinmum t ml + y kRmkss * bt_cosmum t ml
   | G_zu => y kZmksc * bt_cosmum t ml + y kZmkcs * bt_sinmum t ml
   | G_lu => y kLmksc * bt_cosmum t ml + y kLmkcs * bt_sinmum t ml
   | G_rv => y kRmkccN * bt_cosmu t ml + y kRmkssN * bt_sinmu t ml
   | G_zv => y kZmkscN * bt_sinmu t ml + y kZmkcsN * bt_cosmu t ml
   | G_lv => - (y kLmkscN * bt_sinmu t ml + y kLmkcsN * bt_cosmu t ml)
   | G_r1 => y kRmkcc * bt_cosmu t ml + y kRmkss * bt_sinmu t ml
   | G_z1 => y kZmksc * bt_sinmu t ml + y kZmkcs * bt_cosmu t ml
   end)%R.

(** fft_toroidal.cc:281-365: poloidal accumulation of surface jF. *)
Definition fft_accumulate (Y : Z -> R) (jF : Z) (g : geom) : geom :=
  for_up 0 mpol (fun m g =>
    let jMin := if (m =? 0) || (m =? 1) then 0 else 1 in
    if jF <? jMin then g else
    let con_factor := if Z.even m then xmpq m else (xmpq m * sqrtSF (jF - nsMinF1 p)%Z)%R in
    for_up 0 nZeta (fun k g =>
      let base := ((jF - nsMinF1 p) * nZeta + k) * nTE in
      let gq' := fun q e => if Bool.eqb e (Z.even m)
                            then seg_add (g_q g q e) base nTR (fft_v Y m k q) else g_q g q e in
      if (nsMinF p <=? jF) && (jF <? nsMaxFIncludingLcfs p) then
        let bcon := ((jF - nsMinF p) * nZeta + k) * nTE in
        mkGeom gq'
          (seg_add (g_rCon g) bcon nTR (fun l => (fft_v Y m k G_r1 l * con_factor)%R))
          (seg_add (g_zCon g) bcon nTR (fun l => (fft_v Y m k G_z1 l * con_factor)%R))
      else mkGeom gq' (g_rCon g) (g_zCon g)) g) g.

(** fft_toroidal.cc:162-367: FourierToReal3DSymmFastPoloidalFft.  [X0], [Y0] are the
    buffers left from earlier calls; the result holds the buffers and the geometry. *)
Definition FourierToReal3DFft (x : coefs) (X0 Y0 : Z -> R) : (Z -> R) * (Z -> R) * geom :=
  for_up (nsMinF1 p) (nsMaxF1 p) (fun jF st =>
    let '(X, Y, g) := st in
    let X := pack x jF X in
    let Y := c2r Y X in
    (X, Y, fft_accumulate Y jF g))
    (X0, Y0, mkGeom (fun _ _ _ => 0%R) (fun _ => 0%R) (fun _ => 0%R)).

(** ** Forces *)
Variables (ns : Z) (lfreeb vacuum_on : bool).

(** fft_toroidal.cc:504-523 (and 631-634 for the last four): summands of the twelve
    sums over l for (jF, m, k). *)
Definition fft_term (d : forces) (jF m k : Z) (q l : Z) : R :=
  let e := Z.even m in
  let kl := ((jF - nsMinF p) * nZeta + k) * nTE + l in
  let ml := m * nTR + l in
  let cosmui := bt_cosmui t ml in let sinmui := bt_sinmui t ml in
  let cosmumi := bt_cosmumi t ml in let sinmumi := bt_sinmumi t ml in
  let tempR := (d F_ar e kl + xmpq m * d F_frcon e kl)%R in
  let tempZ := (d F_az e kl + xmpq m * d F_fzcon e kl)%R in
  (if q =? kRmkcc then tempR * cosmui + d F_br e kl * sinmumi
   else if q =? kRmkss then tempR * sinmui + d F_br e kl * cosmumi
   else if q =? kRmkccN then - (d F_cr e kl * cosmui)
   else if q =? kRmkssN then - (d F_cr e kl * sinmui)
   else if q =? kZmksc then tempZ * sinmui + d F_bz e kl * cosmumi
   else if q =? kZmkcs then tempZ * cosmui + d F_bz e kl * sinmumi
   else if q =? kZmkscN then - (d F_cz e kl * sinmui)
   else if q =? kZmkcsN then - (d F_cz e kl * cosmui)
   else if q =? kLmksc then d F_bl e kl * cosmumi
   else if q =? kLmkcs then d F_bl e kl * sinmumi
   else if q =? kLmkscN then - (d F_cl e kl * sinmui)
   else - (d F_cl e kl * cosmui))%R.

(** fft_toroidal.cc:448-538 (slots 0..11) and 600-643 (slots 8..11): fill the input
    slots [lo .. 11] of the poloidal modes m < mm. *)
Definition fill_in (d : forces) (jF mm lo : Z) (inb : Z -> R) : Z -> R :=
  for_up 0 mm (fun m inb =>
    for_up 0 nZeta (fun k inb =>
      for_up lo kBatch (fun q inb =>
        upd inb (rslot m q + k) (for_up 0 nTR (fun l acc => (acc + fft_term d jF m k q l)%R) 0%R)) inb) inb) inb.

(** fft_toroidal.cc:443-446: [std::fill] of the slots of m >= mmax. *)
Definition fill_zero (mmax : Z) (inb : Z -> R) : Z -> R :=
  if mmax <? mpol then for_up (mmax * kBatch * nZeta) (mpol * kBatch * nZeta) (fun i inb => upd inb i 0%R) inb else inb.

(** Real and imaginary part of entry n of slot (m, q). *)
Definition o_re (outb : Z -> R) (m q n : Z) : R := outb (2 * (cslot m q + n))%Z.
Definition o_im (outb : Z -> R) (m q n : Z) : R := outb (2 * (cslot m q + n) + 1)%Z.

(** fft_toroidal.cc:571-578, 586-590 (and 662-666): what is added to the entry n of
    each array. *)
Definition fft_force (outb : Z -> R) (m : Z) (c : comp) (b : bk) (n : Z) : R :=
  let nfp_n := (IZR n * IZR nfp)%R in
  (match c, b with
   | cR, b_cc => o_re outb m kRmkcc n + nfp_n * o_im outb m kRmkccN n
   | cR, b_ss => - o_im outb m kRmkss n + nfp_n * o_re outb m kRmkssN n
   | cZ, b_sc => o_re outb m kZmksc n + nfp_n * o_im outb m kZmkscN n
   | cZ, b_cs => - o_im outb m kZmkcs n + nfp_n * o_re outb m kZmkcsN n
   | cL, b_sc => o_re outb m kLmksc n + nfp_n * o_im outb m kLmkscN n
   | cL, b_cs => - o_im outb m kLmkcs n + nfp_n * o_re outb m kLmkcsN n
   | _, _ => 0
   end)%R.

(** fft_toroidal.cc:373-669: ForcesToFourier3DSymmFastPoloidalFft.  [inb0], [outb0] are the
    buffers left from earlier calls. *)
Definition ForcesToFourier3DFft (d : forces) (inb0 outb0 : Z -> R) : (Z -> R) * (Z -> R) * coefs :=
  let at_ jF m := ((jF - nsMinF p) * mpol + m) * (ntor + 1) in
  let jMaxRZ := if lfreeb && vacuum_on then Z.min (nsMaxF p) ns else Z.min (nsMaxF p) (ns - 1) in
  let st := for_up (nsMinF p) jMaxRZ (fun jF st =>
    let '(inb, outb, f) := st in
    let mmax := if jF =? 0 then 1 else mpol in
    let inb := fill_in d jF mmax 0 (fill_zero mmax inb) in
    let outb := r2c outb inb in
    (inb, outb, for_up 0 mmax (fun m f => fun c b =>
      if sym_kind c b && (negb (isL c) || (1 <=? jF))
      then seg_add (f c b) (at_ jF m) (ntor + 1) (fft_force outb m c b) else f c b) f))
    (inb0, outb0, fun _ _ _ => 0%R) in
  for_up jMaxRZ (nsMaxFIncludingLcfs p) (fun jF st =>
    let '(inb, outb, f) := st in
    let inb := fill_in d jF mpol 8 inb in
    let outb := r2c outb inb in
    (inb, outb, for_up 0 mpol (fun m f => fun c b =>
      if sym_kind c b && isL c
      then seg_add (f c b) (at_ jF m) (ntor + 1) (fft_force outb m c b) else f c b) f)) st.
End Fft.

(** ** Dispatch *)
(** ToroidalFftPlans (fft_toroidal.h:80-94, fft_toroidal.cc:31-50): the pair of routines
    for (nZeta, 12 * mpol), or None when one of them is missing from the tables
    ([kernels_available] is false). *)
Definition plans := option (kernel * kernel).
(** ideal_mhd_model.cc:1120-1135 with the call of dft_FourierToReal_3d_symm as in
    1193-1203; [X0], [Y0] are the old contents of the thread's buffers.  The
    asymmetric part always uses the plain transform. *)
Definition geometryFromFourierFft (pl : plans) (s : sizes) (t : basis_tables) (p : rpart) (xmpq sqrtSF : Z -> R)
  (x : coefs) (g0 ga0 : geom) (X0 Y0 : Z -> R) : geom :=
  let g := if sz_lthreed s
    then match pl with
         | Some (c2r, _) => snd (FourierToReal3DFft s t p xmpq sqrtSF c2r x X0 Y0)
         | None => FourierToReal3D s p xmpq sqrtSF (sym_v s t p x)
         end
    else FourierToReal2D s t p xmpq sqrtSF x src2_sym g0 in
  if sz_lasym s then
    let ga := if sz_lthreed s then FourierToReal3D s p xmpq sqrtSF (asym_v s t p x)
              else FourierToReal2D s t p xmpq sqrtSF x src2_asym ga0 in
    symrzl s p g ga
  else g.
(** ideal_mhd_model.cc:2538-2559 with the call of dft_ForcesToFourier_3d_symm as in
    2585-2597. *)
Definition forcesToFourierFft (pl : plans) (s : sizes) (t : basis_tables) (p : rpart) (xmpq : Z -> R)
  (ns : Z) (lfreeb vacuum_on : bool) (d da : forces) (inb0 outb0 : Z -> R) : coefs :=
  let '(d, da) := if sz_lasym s then symforce s p d da else (d, da) in
  let zero : coefs := fun _ _ _ => 0%R in
  let f := if sz_lthreed s
    then match pl with
         | Some (_, r2c) => snd (ForcesToFourier3DFft s t p xmpq r2c ns lfreeb vacuum_on d inb0 outb0)
         | None => ForcesToFourier3D s t p xmpq ns lfreeb vacuum_on d sym_kind zero
         end
    else ForcesToFourier2D s t p xmpq ns lfreeb vacuum_on d sym_kind zero in
  if sz_lasym s then
    let tgt c b := negb (sym_kind c b) in
    if sz_lthreed s then ForcesToFourier3D s t p xmpq ns lfreeb vacuum_on da tgt f
    else ForcesToFourier2D s t p xmpq ns lfreeb vacuum_on da tgt f
  else f.
