(** Splitting of the covariant magnetic field by symmetry, and the Fourier
    low-pass filter that also provides its derivatives in the angles,
    vmec/output_quantities/output_quantities.cc:2040-2479.  Exact arithmetic.
    Matrices are flat arrays (row = surface) as indexed by the source; new
    matrices are zero.  Simplification: each array has its own loop nest, where
    the source fills several arrays in one; no array is read while being
    filled by the others, and every entry receives its terms in the same order. *)
From Coq Require Import ZArith Bool Reals.
From Verif Require Import Base SizesModel FourierModel.
Open Scope R_scope.

Section F.
  Context (s : sizes) (t : basis_tables).
  Local Notation nZnT := (sz_nZnT s).
  Local Notation nZeta := (sz_nZeta s).
  Local Notation nTR := (sz_nThetaReduced s).
  Local Notation nT := (sz_nThetaEven s).
  Local Notation nTE := (sz_nThetaEff s).
  (** 1573 *)
  Definition nZnT_reduced : Z := (sz_nThetaReduced s * sz_nZeta s)%Z.
  Definition zeros : Z -> R := fun _ => 0.

  (** Index of the reflected point, 2071-2075 and 2096-2100. *)
  Definition kl_reversed (kl : Z) : Z :=
    (let k := Z.quot kl nTR in let l := Z.rem kl nTR in
     Z.rem (nZeta - k) nZeta * nT + Z.rem (nT - l) nT)%Z.

  (** 2064-2088: radial component, full grid, lasym.  Result: symmetric (sine)
      and antisymmetric (cosine) part. *)
  Definition decomposeS (num_full : Z) (bsubs : Z -> R) : (Z -> R) * (Z -> R) :=
    for_up 0 num_full (fun jF p =>
      for_up 0 nZnT_reduced (fun kl p =>
        let source_index := (jF * nZnT + kl)%Z in
        let source_index_reversed := (jF * nZnT + kl_reversed kl)%Z in
        let target_index := (jF * nZnT_reduced + kl)%Z in
        (upd (fst p) target_index (1 / 2 * (bsubs source_index - bsubs source_index_reversed)),
         upd (snd p) target_index (1 / 2 * (bsubs source_index + bsubs source_index_reversed)))) p) (zeros, zeros).
  (** 2089-2117: an angular component, half grid, lasym. *)
  Definition decomposeU (num_half : Z) (bsubu : Z -> R) : (Z -> R) * (Z -> R) :=
    for_up 0 num_half (fun jH p =>
      for_up 0 nZnT_reduced (fun kl p =>
        let k := Z.quot kl nTR in let l := Z.rem kl nTR in
        let source_index := (jH * nZnT + (k * nT + l))%Z in
        let source_index_reversed := (jH * nZnT + kl_reversed kl)%Z in
        let target_index := (jH * nZnT_reduced + kl)%Z in
        (upd (fst p) target_index (1 / 2 * (bsubu source_index + bsubu source_index_reversed)),
         upd (snd p) target_index (1 / 2 * (bsubu source_index - bsubu source_index_reversed)))) p) (zeros, zeros).
  (** 2120-2138: without lasym the data are copied; [n] is the upper end of the
      inner loop (nZnT_reduced for the full grid, nZnT for the half grid). *)
  Definition copyRows (num n : Z) (b : Z -> R) : Z -> R :=
    for_up 0 num (fun j p => for_up 0 n (fun kl p =>
      upd p (j * nZnT_reduced + kl)%Z (b (j * nZnT + kl)%Z)) p) zeros.
  Definition decomposedS (num_full : Z) (b : Z -> R) : (Z -> R) * (Z -> R) :=
    if sz_lasym s then decomposeS num_full b else (copyRows num_full nZnT_reduced b, zeros).
  Definition decomposedU (num_half : Z) (b : Z -> R) : (Z -> R) * (Z -> R) :=
    if sz_lasym s then decomposeU num_half b else (copyRows num_half nZnT b, zeros).

  (** 2187-2193 and 2270-2276. *)
  Definition dnorm1 (m n : Z) : R :=
    let d := if (m =? sz_mnyq s)%Z then 1 / 2 else 1 in
    if (n =? sz_nnyq s)%Z && negb (n =? 0)%Z then d / 2 else d.
  (** Fourier transform of one surface with the tables [pol] and [tor], 2203-2237
      and 2290-2331. *)
  Definition transform (pol tor src : Z -> R) (j m n : Z) : R :=
    for_up 0 nZeta (fun k acc => for_up 0 nTR (fun l acc =>
      acc + pol (m * nTR + l)%Z * tor (k * (sz_nnyq2 s + 1) + n)%Z * dnorm1 m n * src (j * nZnT_reduced + (k * nTR + l))%Z) acc) 0.
  (** Inverse transform of one mode, 2242-2273 and 2336-2389. *)
  Definition accumulate (p1 t1 p2 t2 : Z -> R) (c1 c2 : R) (j m n : Z) (a : Z -> R) : Z -> R :=
    for_up 0 nZeta (fun k a => for_up 0 nTR (fun l a =>
      let idx_kn := (k * (sz_nnyq2 s + 1) + n)%Z in let idx_ml := (m * nTR + l)%Z in
      let target_index := (j * nZnT_reduced + (k * nTR + l))%Z in
      upd a target_index (a target_index + (p1 idx_ml * t1 idx_kn * c1 + p2 idx_ml * t2 idx_kn * c2))) a) a.
  (** The loops over surfaces and modes, 2182-2185 and 2265-2268. *)
  Definition modes (num : Z) (body : Z -> Z -> Z -> (Z -> R) -> Z -> R) (a : Z -> R) : Z -> R :=
    for_up 0 num (fun j a => for_up 0 (sz_mpol s) (fun m a => for_up 0 (sz_ntor s + 1) (fun n a => body j m n a) a) a) a.

  (** 2182-2276: derivatives of the radial component. *)
  Definition filt_su_s (num : Z) (bs : Z -> R) : Z -> R := modes num (fun j m n =>
    accumulate (bt_cosmum t) (bt_cosnv t) (bt_sinmum t) (bt_sinnv t)
      (transform (bt_sinmui t) (bt_cosnv t) bs j m n) (transform (bt_cosmui t) (bt_sinnv t) bs j m n) j m n) zeros.
  Definition filt_sv_s (num : Z) (bs : Z -> R) : Z -> R := modes num (fun j m n =>
    accumulate (bt_sinmu t) (bt_sinnvn t) (bt_cosmu t) (bt_cosnvn t)
      (transform (bt_sinmui t) (bt_cosnv t) bs j m n) (transform (bt_cosmui t) (bt_sinnv t) bs j m n) j m n) zeros.
  Definition filt_su_a (num : Z) (bs : Z -> R) : Z -> R := modes num (fun j m n =>
    accumulate (bt_sinmum t) (bt_cosnv t) (bt_cosmum t) (bt_sinnv t)
      (transform (bt_cosmui t) (bt_cosnv t) bs j m n) (transform (bt_sinmui t) (bt_sinnv t) bs j m n) j m n) zeros.
  Definition filt_sv_a (num : Z) (bs : Z -> R) : Z -> R := modes num (fun j m n =>
    accumulate (bt_cosmu t) (bt_sinnvn t) (bt_sinmu t) (bt_cosnvn t)
      (transform (bt_cosmui t) (bt_cosnv t) bs j m n) (transform (bt_sinmui t) (bt_sinnv t) bs j m n) j m n) zeros.
  (** 2265-2389: filtered angular components ... *)
  Definition filt_s (num : Z) (bs : Z -> R) : Z -> R := modes num (fun j m n =>
    accumulate (bt_cosmu t) (bt_cosnv t) (bt_sinmu t) (bt_sinnv t)
      (transform (bt_cosmui t) (bt_cosnv t) bs j m n) (transform (bt_sinmui t) (bt_sinnv t) bs j m n) j m n) zeros.
  Definition filt_a (num : Z) (ba : Z -> R) : Z -> R := modes num (fun j m n =>
    accumulate (bt_sinmu t) (bt_cosnv t) (bt_cosmu t) (bt_sinnv t)
      (transform (bt_sinmui t) (bt_cosnv t) ba j m n) (transform (bt_cosmui t) (bt_sinnv t) ba j m n) j m n) zeros.
  (** ... and their derivatives: theta derivative (2349-2352, 2376-2379) and phi
      derivative (2354-2357, 2381-2384).  [p] holds the two parts of the source. *)
  Definition filt_dtheta (num : Z) (p : (Z -> R) * (Z -> R)) : Z -> R := modes num (fun j m n a =>
    let a := accumulate (bt_sinmum t) (bt_cosnv t) (bt_cosmum t) (bt_sinnv t)
      (transform (bt_cosmui t) (bt_cosnv t) (fst p) j m n) (transform (bt_sinmui t) (bt_sinnv t) (fst p) j m n) j m n a in
    if sz_lasym s then accumulate (bt_cosmum t) (bt_cosnv t) (bt_sinmum t) (bt_sinnv t)
      (transform (bt_sinmui t) (bt_cosnv t) (snd p) j m n) (transform (bt_cosmui t) (bt_sinnv t) (snd p) j m n) j m n a else a) zeros.
  Definition filt_dphi (num : Z) (p : (Z -> R) * (Z -> R)) : Z -> R := modes num (fun j m n a =>
    let a := accumulate (bt_cosmu t) (bt_sinnvn t) (bt_sinmu t) (bt_cosnvn t)
      (transform (bt_cosmui t) (bt_cosnv t) (fst p) j m n) (transform (bt_sinmui t) (bt_sinnv t) (fst p) j m n) j m n a in
    if sz_lasym s then accumulate (bt_sinmu t) (bt_sinnvn t) (bt_cosmu t) (bt_cosnvn t)
      (transform (bt_sinmui t) (bt_cosnv t) (snd p) j m n) (transform (bt_cosmui t) (bt_sinnv t) (snd p) j m n) j m n a else a) zeros.

  (** 2397-2429: extension of the two filtered parts to the full poloidal grid. *)
  Definition extendU (num : Z) (fs fa a0 : Z -> R) : Z -> R :=
    for_up 0 num (fun jH a => for_up 0 nZeta (fun k a =>
      let k_reversed := Z.rem (nZeta - k) nZeta in
      let a := for_up 0 nTR (fun l a =>
        let source_index := (jH * nZnT_reduced + (k * nTR + l))%Z in
        upd a (jH * nZnT + (k * nTE + l))%Z (fs source_index + fa source_index)) a in
      for_up nTR nT (fun l a =>
        let l_reversed := Z.rem (nT - l) nT in
        let source_index_reversed := (jH * nZnT_reduced + (k_reversed * nTR + l_reversed))%Z in
        upd a (jH * nZnT + (k * nTE + l))%Z (fs source_index_reversed - fa source_index_reversed)) a) a) a0.
  (** 2443-2470: same for the derivatives of the radial component, upper half
      first. *)
  Definition extendS (num : Z) (fs fa a0 : Z -> R) : Z -> R :=
    for_up 0 num (fun jF a => for_up 0 nZeta (fun k a =>
      let k_reversed := Z.rem (nZeta - k) nZeta in
      let a := for_up nTR nT (fun l a =>
        let l_reversed := Z.rem (nT - l) nT in
        let source_index_reversed := (jF * nZnT_reduced + (k_reversed * nTR + l_reversed))%Z in
        upd a (jF * nZnT + (k * nTE + l))%Z (fs source_index_reversed - fa source_index_reversed)) a in
      for_up 0 nTR (fun l a =>
        let source_index := (jF * nZnT_reduced + (k * nTR + l))%Z in
        upd a (jF * nZnT + (k * nTE + l))%Z (fs source_index + fa source_index)) a) a) a0.
  (** 2431-2438 and 2472-2478: without lasym a copy. *)
  Definition overwrite (num : Z) (f a0 : Z -> R) : Z -> R :=
    for_up 0 num (fun j a => for_up 0 nZnT (fun kl a => upd a (j * nZnT + kl)%Z (f (j * nZnT + kl)%Z)) a) a0.

  (** DecomposeCovariantBBySymmetry and LowPassFilterCovariantB together: the new
      contents of bsubu (same for bsubv) ... *)
  Definition filterU (num_half : Z) (b : Z -> R) : Z -> R :=
    let p := decomposedU num_half b in
    if sz_lasym s then extendU num_half (filt_s num_half (fst p)) (filt_a num_half (snd p)) b
    else overwrite num_half (filt_s num_half (fst p)) b.
  (** ... bsubvu from bsubv, bsubuv from bsubu (members of covariant_b_derivatives) ... *)
  Definition deriv_theta (num_half : Z) (b : Z -> R) : Z -> R := filt_dtheta num_half (decomposedU num_half b).
  Definition deriv_phi (num_half : Z) (b : Z -> R) : Z -> R := filt_dphi num_half (decomposedU num_half b).
  (** ... bsubsu and bsubsv from bsubs_full. *)
  Definition deriv_theta_s (num_full : Z) (b : Z -> R) : Z -> R :=
    let p := decomposedS num_full b in
    if sz_lasym s then extendS num_full (filt_su_s num_full (fst p)) (filt_su_a num_full (snd p)) zeros
    else overwrite num_full (filt_su_s num_full (fst p)) zeros.
  Definition deriv_phi_s (num_full : Z) (b : Z -> R) : Z -> R :=
    let p := decomposedS num_full b in
    if sz_lasym s then extendS num_full (filt_sv_s num_full (fst p)) (filt_sv_a num_full (snd p)) zeros
    else overwrite num_full (filt_sv_s num_full (fst p)) zeros.
End F.
