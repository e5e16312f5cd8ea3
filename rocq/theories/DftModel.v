(** Transforms between Fourier coefficients and the angular grid: geometry from
    coefficients, real-space forces to coefficients, and the parity handling of
    non-stellarator-symmetric (lasym) runs.
    Source: src/vmecpp/cpp/vmecpp/vmec/ideal_mhd_model/dft_toroidal.cc and
    ideal_mhd_model.cc (geometryFromFourier, dft_*_2d_*, symrzl, symforce,
    forcesToFourier).
    Simplifications: [double] is [R] (exact arithmetic), [int] is [Z]; arrays are
    functions of the flat index of the source; the arrays of one name family
    (r1_e, r1_o, ru_e, ...) are one function of a tag; the OpenMP barriers inside
    the 2D routines are not represented (every array here is thread-local).  In
    exact arithmetic [x -= y] is written [x + - y] and Eigen's dot products are
    left-to-right sums. *)
From Coq Require Import ZArith List Bool Reals.
From Verif Require Import Base PartModel SizesModel FourierModel.
Open Scope Z_scope.

(** Twelve coefficient arrays rmncc ... lmncs (fourier_geometry) and frcc ...
    flss (fourier_forces): component and kind of product basis function. *)
Inductive comp := cR | cZ | cL.
Inductive bk := b_cc | b_ss | b_sc | b_cs.
Definition coefs := comp -> bk -> Z -> R.

(** Real-space geometry: RealSpaceGeometry; the bool is [true] for the even-m
    array (_e) and [false] for the odd-m array (_o). *)
Inductive gq := G_r1 | G_ru | G_rv | G_z1 | G_zu | G_zv | G_lu | G_lv.
Record geom := mkGeom { g_q : gq -> bool -> Z -> R; g_rCon : Z -> R; g_zCon : Z -> R }.
(** Real-space forces: RealSpaceForces. *)
Inductive fq := F_ar | F_az | F_br | F_bz | F_bl | F_cr | F_cz | F_cl | F_frcon | F_fzcon.
Definition forces := fq -> bool -> Z -> R.

(** [a.segment(base, n) += v] *)
Definition seg_add (a : Z -> R) (base n : Z) (v : Z -> R) : Z -> R :=
  for_up 0 n (fun l a => let i := base + l in upd a i (a i + v l)%R) a.

Section Dft.
Variable s : sizes.
Variable t : basis_tables.
Variable p : rpart.
Variables xmpq sqrtSF : Z -> R.
Local Notation mpol := (sz_mpol s).
Local Notation ntor := (sz_ntor s).
Local Notation nZeta := (sz_nZeta s).
Local Notation nTR := (sz_nThetaReduced s).
Local Notation nTE := (sz_nThetaEff s).
Local Notation nT := (sz_nThetaEven s).
Local Notation nZnT := (sz_nZnT s).

(** ** Geometry from Fourier coefficients *)

(** dft_toroidal.cc:257-287 / 398-430: inner sums over n for fixed jF, m, k. *)
Definition dotn (a b : Z -> R) (ia ib : Z) : R :=
  for_up 0 (ntor + 1) (fun n acc => (acc + a (ia + n)%Z * b (ib + n)%Z)%R) 0%R.
Definition kdot (x : coefs) (jF m k : Z) (c : comp) (b : bk) (tb : basis_tables -> Z -> R) : R :=
  dotn (x c b) (tb t) (((jF - nsMinF1 p) * mpol + m) * (ntor + 1)) (k * (sz_nnyq2 s + 1)).

(** dft_toroidal.cc:289-331: contribution of (jF, m, k) to point l. *)
Definition sym_v (x : coefs) (jF m k : Z) (q : gq) (l : Z) : R :=
  let ml := m * nTR + l in
  let d := kdot x jF m k in
  (match q with
   | G_ru => d cR b_cc bt_cosnv * bt_sinmum t ml + d cR b_ss bt_sinnv * bt_cosmum t ml
   | G_zu => d cZ b_sc bt_cosnv * bt_cosmum t ml + d cZ b_cs bt_sinnv * bt_sinmum t ml
   | G_lu => d cL b_sc bt_cosnv * bt_cosmum t ml + d cL b_cs bt_sinnv * bt_sinmum t ml
   | G_rv => d cR b_cc bt_sinnvn * bt_cosmu t ml + d cR b_ss bt_cosnvn * bt_sinmu t ml
   | G_zv => d cZ b_sc bt_sinnvn * bt_sinmu t ml + d cZ b_cs bt_cosnvn * bt_cosmu t ml
   | G_lv => - (d cL b_sc bt_sinnvn * bt_sinmu t ml + d cL b_cs bt_cosnvn * bt_cosmu t ml)
   | G_r1 => d cR b_cc bt_cosnv * bt_cosmu t ml + d cR b_ss bt_sinnv * bt_sinmu t ml
   | G_z1 => d cZ b_sc bt_cosnv * bt_sinmu t ml + d cZ b_cs bt_sinnv * bt_cosmu t ml
   end)%R.

(** dft_toroidal.cc:434-482: the same for the asymmetric coefficients. *)
Definition asym_v (x : coefs) (jF m k : Z) (q : gq) (l : Z) : R :=
  let ml := m * nTR + l in
  let d := kdot x jF m k in
  (match q with
   | G_ru => d cR b_sc bt_cosnv * bt_cosmum t ml + d cR b_cs bt_sinnv * bt_sinmum t ml
   | G_zu => d cZ b_cc bt_cosnv * bt_sinmum t ml + d cZ b_ss bt_sinnv * bt_cosmum t ml
   | G_lu => d cL b_cc bt_cosnv * bt_sinmum t ml + d cL b_ss bt_sinnv * bt_cosmum t ml
   | G_rv => d cR b_sc bt_sinnvn * bt_sinmu t ml + d cR b_cs bt_cosnvn * bt_cosmu t ml
   | G_zv => d cZ b_cc bt_sinnvn * bt_cosmu t ml + d cZ b_ss bt_cosnvn * bt_sinmu t ml
   | G_lv => - (d cL b_cc bt_sinnvn * bt_cosmu t ml + d cL b_ss bt_cosnvn * bt_sinmu t ml)
   | G_r1 => d cR b_sc bt_cosnv * bt_sinmu t ml + d cR b_cs bt_sinnv * bt_cosmu t ml
   | G_z1 => d cZ b_cc bt_cosnv * bt_cosmu t ml + d cZ b_ss bt_sinnv * bt_sinmu t ml
   end)%R.

(** dft_toroidal.cc:177-336 (symmetric) and 345-487 (asymmetric): both routines
    have these loops; [v] is [sym_v x] or [asym_v x].  All arrays are cleared
    first (184-205, 353-374). *)
Definition FourierToReal3D (v : Z -> Z -> Z -> gq -> Z -> R) : geom :=
  for_up (nsMinF1 p) (nsMaxF1 p) (fun jF g =>
    for_up 0 mpol (fun m g =>
      let jMin := if (m =? 0) || (m =? 1) then 0 else 1 in
      if jF <? jMin then g else
      let con_factor := if Z.even m then xmpq m else (xmpq m * sqrtSF (jF - nsMinF1 p)%Z)%R in
      for_up 0 nZeta (fun k g =>
        let base := ((jF - nsMinF1 p) * nZeta + k) * nTE in
        let gq' := fun q e => if Bool.eqb e (Z.even m)
                              then seg_add (g_q g q e) base nTR (v jF m k q) else g_q g q e in
        if (nsMinF p <=? jF) && (jF <? nsMaxFIncludingLcfs p) then
          let bcon := ((jF - nsMinF p) * nZeta + k) * nTE in
          mkGeom gq'
            (seg_add (g_rCon g) bcon nTR (fun l => (v jF m k G_r1 l * con_factor)%R))
            (seg_add (g_zCon g) bcon nTR (fun l => (v jF m k G_z1 l * con_factor)%R))
        else mkGeom gq' (g_rCon g) (g_zCon g)) g) g)
    (mkGeom (fun _ _ _ => 0%R) (fun _ => 0%R) (fun _ => 0%R)).

(** 2D: source coefficient and table of each quantity, ideal_mhd_model.cc:1285-1317
    (symmetric) and 1440-1464 (asymmetric); rv, zv, lv are not touched. *)
Definition src2_sym (q : gq) : option (comp * bk * (basis_tables -> Z -> R)) :=
  match q with
  | G_r1 => Some (cR, b_cc, bt_cosmu) | G_ru => Some (cR, b_cc, bt_sinmum)
  | G_z1 => Some (cZ, b_sc, bt_sinmu) | G_zu => Some (cZ, b_sc, bt_cosmum)
  | G_lu => Some (cL, b_sc, bt_cosmum) | _ => None
  end.
Definition src2_asym (q : gq) : option (comp * bk * (basis_tables -> Z -> R)) :=
  match q with
  | G_r1 => Some (cR, b_sc, bt_sinmu) | G_ru => Some (cR, b_sc, bt_cosmum)
  | G_z1 => Some (cZ, b_cc, bt_cosmu) | G_zu => Some (cZ, b_cc, bt_sinmum)
  | G_lu => Some (cL, b_cc, bt_sinmum) | _ => None
  end.

(** ideal_mhd_model.cc:1230-1396 and 1403-1503: axisymmetric case.  Only the first
    (nsMaxF1 - nsMinF1) * nThetaEff entries are cleared; the stride between
    surfaces is nThetaEff. *)
Definition FourierToReal2D (x : coefs) (src : gq -> option (comp * bk * (basis_tables -> Z -> R)))
  (g0 : geom) : geom :=
  let num_realsp := (nsMaxF1 p - nsMinF1 p) * nTE in
  let num_con := (nsMaxFIncludingLcfs p - nsMinF p) * nTE in
  let g := mkGeom (fun q e => match src q with Some _ => fill0 num_realsp (g_q g0 q e) | None => g_q g0 q e end)
                  (fill0 num_con (g_rCon g0)) (fill0 num_con (g_zCon g0)) in
  let g := for_up (nsMinF1 p) (nsMaxF1 p) (fun jF g =>
    for_up 0 nTR (fun l g =>
      let num_m := if jF =? 0 then 2 else mpol in
      let idx := (jF - nsMinF1 p) * nTE + l in
      mkGeom (fun q e =>
        match src q with
        | Some (c, b, tb) =>
          upd (g_q g q e) idx (g_q g q e idx +
            for_up 0 num_m (fun m acc => if Bool.eqb e (Z.even m)
              then acc + x c b ((jF - nsMinF1 p) * sz_mnsize s + m)%Z * tb t (m * nTR + l)%Z else acc) 0%R)%R
        | None => g_q g q e
        end) (g_rCon g) (g_zCon g)) g) g in
  for_up (nsMinF p) (nsMaxFIncludingLcfs p) (fun jF g =>
    let num_m := if jF =? 0 then 2 else mpol in
    for_up 0 num_m (fun m g =>
      let scale := (xmpq m * (IZR (1 - m mod 2) + IZR (m mod 2) * sqrtSF (jF - nsMinF1 p)%Z))%R in
      let con q := fun l => match src q with
        | Some (c, b, tb) => (x c b ((jF - nsMinF1 p) * sz_mnsize s + m)%Z * tb t (m * nTR + l)%Z * scale)%R
        | None => 0%R end in
      mkGeom (g_q g) (seg_add (g_rCon g) ((jF - nsMinF p) * nTE) nTR (con G_r1))
                     (seg_add (g_zCon g) ((jF - nsMinF p) * nTE) nTR (con G_z1))) g) g.

(** ideal_mhd_model.cc:1512-1608, symrzl, on one pair of arrays; [ev] says whether
    the quantity is reflected with [+sym - asym] (else [-sym + asym]), [off] is
    the first surface of the array. *)
Definition symrzl1 (ev : bool) (off lo hi : Z) (a asym : Z -> R) : Z -> R :=
  for_up lo hi (fun jF a =>
    let base := (jF - off) * nZnT in
    let a := for_up 0 nZeta (fun k a =>
      let kRev := (nZeta - k) mod nZeta in
      for_up nTR nT (fun l a =>
        let jl := base + k * nTE + l in
        let jlRev := base + kRev * nTE + (nT - l) in
        upd a jl (if ev then a jlRev - asym jlRev else - a jlRev + asym jlRev)%R) a) a in
    for_up 0 nZeta (fun k a =>
      for_up 0 nTR (fun l a =>
        let jl := base + k * nTE + l in
        upd a jl (a jl + asym jl)%R) a) a) a.
Definition ev_q (q : gq) : bool :=
  match q with G_r1 | G_zu | G_lu | G_zv | G_lv => true | G_ru | G_z1 | G_rv => false end.
Definition is_v (q : gq) : bool := match q with G_rv | G_zv | G_lv => true | _ => false end.
Definition symrzl (g ga : geom) : geom :=
  mkGeom (fun q e => if negb (is_v q) || sz_lthreed s
                     then symrzl1 (ev_q q) (nsMinF1 p) (nsMinF1 p) (nsMaxF1 p) (g_q g q e) (g_q ga q e)
                     else g_q g q e)
    (symrzl1 true (nsMinF p) (nsMinF p) (nsMaxFIncludingLcfs p) (g_rCon g) (g_rCon ga))
    (symrzl1 false (nsMinF p) (nsMinF p) (nsMaxFIncludingLcfs p) (g_zCon g) (g_zCon ga)).

(** ideal_mhd_model.cc:1120-1135: [g0], [ga0] are the arrays left from the previous
    call. *)
Definition geometryFromFourier (x : coefs) (g0 ga0 : geom) : geom :=
  let g := if sz_lthreed s then FourierToReal3D (sym_v x) else FourierToReal2D x src2_sym g0 in
  if sz_lasym s then
    let ga := if sz_lthreed s then FourierToReal3D (asym_v x) else FourierToReal2D x src2_asym ga0 in
    symrzl g ga
  else g.

(** ideal_mhd_model.cc:1137-1148: ruFull ([q] = G_ru) and zuFull ([q] = G_zu). *)
Definition fullDeriv (g : geom) (q : gq) (a0 : Z -> R) : Z -> R :=
  for_up (nsMinF p) (nsMaxFIncludingLcfs p) (fun jF a =>
    for_up 0 nZnT (fun kl a =>
      let idx1 := (jF - nsMinF1 p) * nZnT + kl in
      upd a ((jF - nsMinF p) * nZnT + kl)
        (g_q g q true idx1 + sqrtSF (jF - nsMinF1 p)%Z * g_q g q false idx1)%R) a) a0.

(** ** Real-space forces to Fourier coefficients *)
Variables (ns : Z) (lfreeb vacuum_on : bool).

(** dft_toroidal.cc:25-32 (also 504-509, ideal_mhd_model.cc:2639-2645, 2791-2796);
    [vacuum_on]: the vacuum pressure state is kInitialized or kActive. *)
Definition f_jMaxRZ : Z :=
  if lfreeb && vacuum_on then Z.min (nsMaxF p) ns else Z.min (nsMaxF p) (ns - 1).

Definition suml (f : Z -> R) : R := for_up 0 nTR (fun l acc => (acc + f l)%R) 0%R.
Definition c_A (c : comp) : fq := match c with cR => F_ar | _ => F_az end.
Definition c_B (c : comp) : fq := match c with cR => F_br | cZ => F_bz | cL => F_bl end.
Definition c_C (c : comp) : fq := match c with cR => F_cr | cZ => F_cz | cL => F_cl end.
Definition c_con (c : comp) : fq := match c with cR => F_frcon | _ => F_fzcon end.

(** dft_toroidal.cc:57-95 and 531-585: the two inner sums over l which feed the
    coefficient of kind [b]: poloidal factor [ta] for A (none for lambda), its
    theta derivative [tm] for B, and [ta] for C. *)
Definition pol_a (b : bk) : basis_tables -> Z -> R :=
  match b with b_cc | b_cs => bt_cosmui | b_ss | b_sc => bt_sinmui end.
Definition pol_m (b : bk) : basis_tables -> Z -> R :=
  match b with b_cc | b_cs => bt_sinmumi | b_ss | b_sc => bt_cosmumi end.
Definition tor_a (b : bk) : basis_tables -> Z -> R :=
  match b with b_cc | b_sc => bt_cosnv | b_ss | b_cs => bt_sinnv end.
Definition tor_n (b : bk) : basis_tables -> Z -> R :=
  match b with b_cc | b_sc => bt_sinnvn | b_ss | b_cs => bt_cosnvn end.
Definition isL (c : comp) : bool := match c with cL => true | _ => false end.
Definition mk_p (d : forces) (jF m k : Z) (c : comp) (b : bk) : R :=
  let base := ((jF - nsMinF p) * nZeta + k) * nTE in
  let e := Z.even m in
  suml (fun l =>
    let kl := base + l in let ml := m * nTR + l in
    (if isL c then d F_bl e kl * pol_m b t ml
     else (d (c_A c) e kl + xmpq m * d (c_con c) e kl) * pol_a b t ml + d (c_B c) e kl * pol_m b t ml)%R).
Definition mk_n (d : forces) (jF m k : Z) (c : comp) (b : bk) : R :=
  let base := ((jF - nsMinF p) * nZeta + k) * nTE in
  suml (fun l => (- (d (c_C c) (Z.even m) (base + l)%Z * pol_a b t (m * nTR + l)%Z))%R).
(** dft_toroidal.cc:97-117, 587-616 *)
Definition force_v (d : forces) (jF m k : Z) (c : comp) (b : bk) (n : Z) : R :=
  let kn := k * (sz_nnyq2 s + 1) + n in
  (mk_p d jF m k c b * tor_a b t kn + mk_n d jF m k c b * tor_n b t kn)%R.

(** kinds of coefficients written by the symmetric routines; the asymmetric
    routines write the others. *)
Definition sym_kind (c : comp) (b : bk) : bool :=
  match c, b with
  | cR, b_cc | cR, b_ss => true | cR, _ => false
  | _, b_sc | _, b_cs => true | _, _ => false
  end.

(** dft_toroidal.cc:14-175 and 494-658 (without the initial setZero). *)
Definition ForcesToFourier3D (d : forces) (tgt : comp -> bk -> bool) (f : coefs) : coefs :=
  let at_ jF m := ((jF - nsMinF p) * mpol + m) * (ntor + 1) in
  let f := for_up (nsMinF p) f_jMaxRZ (fun jF f =>
    let mmax := if jF =? 0 then 1 else mpol in
    for_up 0 mmax (fun m f =>
      for_up 0 nZeta (fun k f => fun c b =>
        if tgt c b && (negb (isL c) || (1 <=? jF))
        then seg_add (f c b) (at_ jF m) (ntor + 1) (force_v d jF m k c b) else f c b) f) f) f in
  for_up f_jMaxRZ (nsMaxFIncludingLcfs p) (fun jF f =>
    for_up 0 mpol (fun m f =>
      for_up 0 nZeta (fun k f => fun c b =>
        if tgt c b && isL c
        then seg_add (f c b) (at_ jF m) (ntor + 1) (force_v d jF m k c b) else f c b) f) f) f.

(** ideal_mhd_model.cc:2628-2712 and 2790-2853 (without setZero): axisymmetric.
    Only the kinds with a cosine in zeta are written. *)
Definition tor_cos (b : bk) : bool := match b with b_cc | b_sc => true | _ => false end.
Definition force2_v (d : forces) (jF m : Z) (c : comp) (b : bk) (l : Z) : R :=
  let jl := (jF - nsMinF p) * nTE + l in let ml := m * nTR + l in let e := Z.even m in
  (if isL c then d F_bl e jl * pol_m b t ml
   else (d (c_A c) e jl + xmpq m * d (c_con c) e jl) * pol_a b t ml + d (c_B c) e jl * pol_m b t ml)%R.
Definition ForcesToFourier2D (d : forces) (tgt : comp -> bk -> bool) (f : coefs) : coefs :=
  let add jF m c b f := for_up 0 nTR (fun l a =>
    let jm := (jF - nsMinF p) * mpol + m in upd a jm (a jm + force2_v d jF m c b l)%R) f in
  let f := for_up (nsMinF p) f_jMaxRZ (fun jF f =>
    let num_m := if jF =? 0 then 1 else mpol in
    for_up 0 num_m (fun m f => fun c b =>
      if tgt c b && tor_cos b && negb (isL c) then add jF m c b (f c b) else f c b) f) f in
  for_up (Z.max 1 (nsMinF p)) (nsMaxFIncludingLcfs p) (fun jF f =>
    for_up 0 mpol (fun m f => fun c b =>
      if tgt c b && tor_cos b && isL c then add jF m c b (f c b) else f c b) f) f.

(** ideal_mhd_model.cc:2735-2757: [fold]; the state is the pair (f, fa). *)
Definition fold1 (std : bool) (lo hi : Z) (ffa : (Z -> R) * (Z -> R)) : (Z -> R) * (Z -> R) :=
  for_up lo hi (fun jF st =>
    let base := (jF - nsMinF p) * nZnT in
    let st := for_up 0 nZeta (fun k st =>
      let kRev := (nZeta - k) mod nZeta in
      for_up 0 nTR (fun l st =>
        let jl := base + k * nTE + l in
        let jlRev := base + kRev * nTE + ((nT - l) mod nT) in
        let f := fst st in
        (f, upd (snd st) jl (if std then 1 / 2 * (f jl - f jlRev) else 1 / 2 * (f jl + f jlRev))%R)) st) st in
    for_up 0 nZeta (fun k st =>
      for_up 0 nTR (fun l st =>
        let jl := base + k * nTE + l in
        (upd (fst st) jl (fst st jl - snd st jl)%R, snd st)) st) st) ffa.
(** ideal_mhd_model.cc:2759-2786 *)
Definition std_q (q : fq) : bool :=
  match q with F_ar | F_bz | F_bl | F_frcon | F_cz | F_cl => true | F_br | F_az | F_fzcon | F_cr => false end.
Definition lam_q (q : fq) : bool := match q with F_bl | F_cl => true | _ => false end.
Definition is_c (q : fq) : bool := match q with F_cr | F_cz | F_cl => true | _ => false end.
Definition symforce (d da : forces) : forces * forces :=
  let r q e := if negb (is_c q) || sz_lthreed s
    then fold1 (std_q q) (nsMinF p) (if lam_q q then nsMaxFIncludingLcfs p else nsMaxF p) (d q e, da q e)
    else (d q e, da q e) in
  (fun q e => fst (r q e), fun q e => snd (r q e)).

(** ideal_mhd_model.cc:2538-2559; setZero is in the symmetric routines
    (dft_toroidal.cc:23, ideal_mhd_model.cc:2632). *)
Definition forcesToFourier (d da : forces) : coefs :=
  let '(d, da) := if sz_lasym s then symforce d da else (d, da) in
  let zero : coefs := fun _ _ _ => 0%R in
  let f := if sz_lthreed s then ForcesToFourier3D d sym_kind zero else ForcesToFourier2D d sym_kind zero in
  if sz_lasym s then
    let tgt c b := negb (sym_kind c b) in
    if sz_lthreed s then ForcesToFourier3D da tgt f else ForcesToFourier2D da tgt f
  else f.
End Dft.
