(** Geometry, lambda and current density coefficients of the wout file,
    vmec/output_quantities/output_quantities.cc:4574-4703, 5183-5311 and 5313-5452,
    and the preparation of the coefficients for the geometry evaluation in the
    solver, ideal_mhd_model.cc:576-585 with fourier_coefficients.cc:123-200 and
    fourier_geometry.cc:310-351.  Exact arithmetic; an array is a function of its
    flat index, a matrix (mode, surface) of two indices; new matrices are zero. *)
From Coq Require Import ZArith List Bool Reals.
From Verif Require Import Base PartModel SizesModel FourierModel DftModel.
From Verif Require JxbModel.
Open Scope R_scope.

Section Prep.
  Context (s : sizes) (p : rpart) (ns : Z).
  Local Notation mpol := (sz_mpol s).
  Local Notation ntor := (sz_ntor s).
  (** arrays that exist, fourier_coefficients.cc:142-172 *)
  Definition has (c : comp) (b : bk) : bool :=
    match c, b with
    | cR, b_cc | cZ, b_sc | cL, b_sc => true
    | cR, b_ss | cZ, b_cs | cL, b_cs => sz_lthreed s
    | cR, b_sc | cZ, b_cc | cL, b_cc => sz_lasym s
    | cR, b_cs | cZ, b_ss | cL, b_ss => sz_lasym s && sz_lthreed s
    end.
  (** fourier_coefficients.cc:123-175 with nsMin_ = nsMinF1, nsMax_ = nsMaxF1;
      [m_x]: old contents of the target *)
  Definition decomposeInto (scalxc : Z -> R) (x m_x : coefs) : coefs :=
    let jMax := if (nsMaxF1 p =? ns)%Z then ns else nsMaxF1 p in
    for_up (nsMinF1 p) jMax (fun jF y => for_up 0 mpol (fun m y => for_up 0 (ntor + 1) (fun n y =>
      let idx_fc := (((jF - nsMinF1 p) * mpol + m) * (ntor + 1) + n)%Z in
      let scal := scalxc ((jF - nsMinF1 p) * 2 + Z.rem m 2)%Z in
      fun c b => if has c b then upd (y c b) idx_fc (x c b idx_fc * scal) else y c b) y) y) m_x.
  (** fourier_coefficients.cc:176-200 with scaling 1: one pair of arrays at one index *)
  Definition m1_pair (i : Z) (rz : (Z -> R) * (Z -> R)) : (Z -> R) * (Z -> R) :=
    let old := fst rz i in
    let r := upd (fst rz) i ((old + snd rz i) * 1) in
    (r, upd (snd rz) i ((old - snd rz i) * 1)).
  Definition set_ss_cs (ab : (Z -> R) * (Z -> R)) (x : coefs) : coefs :=
    fun c b => match c, b with cR, b_ss => fst ab | cZ, b_cs => snd ab | _, _ => x c b end.
  Definition set_sc_cc (ab : (Z -> R) * (Z -> R)) (x : coefs) : coefs :=
    fun c b => match c, b with cR, b_sc => fst ab | cZ, b_cc => snd ab | _, _ => x c b end.
  Definition undo_m1 (x : coefs) : coefs :=
    for_up (nsMinF1 p) (nsMaxF1 p) (fun jF x => for_up 0 (ntor + 1) (fun n x =>
      let idx_fc := (((jF - nsMinF1 p) * mpol + 1) * (ntor + 1) + n)%Z in
      let x := if sz_lthreed s then set_ss_cs (m1_pair idx_fc (x cR b_ss, x cZ b_cs)) x else x in
      if sz_lasym s then set_sc_cc (m1_pair idx_fc (x cR b_sc, x cZ b_cc)) x else x) x) x.
  (** fourier_geometry.cc:310-351 *)
  Definition extrapolateTowardsAxis (x : coefs) : coefs :=
    if (nsMinF1 p >? 0)%Z then x else
    for_up 0 (ntor + 1) (fun n x =>
      let axis0 := ((0 * mpol + 0) * (ntor + 1) + n)%Z in
      let axis1 := ((0 * mpol + 1) * (ntor + 1) + n)%Z in
      let first0 := ((1 * mpol + 0) * (ntor + 1) + n)%Z in
      let first1 := ((1 * mpol + 1) * (ntor + 1) + n)%Z in
      fun c b => if has c b then
          let a := upd (x c b) axis1 (x c b first1) in
          match c, b with
          | cL, b_cs | cL, b_cc => upd a axis0 (a first0)
          | _, _ => a end
        else x c b) x.
  (** ideal_mhd_model.cc:576-585 *)
  Definition prepare (scalxc : Z -> R) (x m_x : coefs) : coefs :=
    extrapolateTowardsAxis (undo_m1 (decomposeInto scalxc x m_x)).
End Prep.

Section Wout.
  Context (s : sizes) (ns : Z).
  Local Notation mpol := (sz_mpol s).
  Local Notation ntor := (sz_ntor s).
  (** position of a coefficient in the collected arrays, e.g. 4582 *)
  Definition gidx (jF m n : Z) : Z := ((jF * (ntor + 1) + n) * mpol + m)%Z.
  (** 4577-4590 and 5191-5203 *)
  Definition m1_physical (rz : (Z -> R) * (Z -> R)) : (Z -> R) * (Z -> R) :=
    for_up 0 ns (fun jF rz => for_up 0 (ntor + 1) (fun n rz =>
      let idx_fc := gidx jF 1 n in
      let old := fst rz idx_fc in
      let r := upd (fst rz) idx_fc (old + snd rz idx_fc) in
      (r, upd (snd rz) idx_fc (old - snd rz idx_fc))) rz) rz.
  Definition physical (X : coefs) : coefs :=
    let X := if sz_lthreed s then set_ss_cs (m1_physical (X cR b_ss, X cZ b_cs)) X else X in
    if sz_lasym s then set_sc_cc (m1_physical (X cR b_sc, X cZ b_cc)) X else X.

  Definition t1_ (m n : Z) : R := mscale m * nscale n.
  (** One surface of a cosine array (rmnc1, zmnc1, lmnc1), 4602-4662 and 5213-5260.
      The first component counts the entries (the code starts at -1 and increments
      before use); its final value is what the CHECK compares with mnmax. *)
  Definition cos_row (cc ss : Z -> R) (jF : Z) : Z * (Z -> R) :=
    let s1 := for_up 0 (ntor + 1) (fun n a =>
      ((fst a + 1)%Z, upd (snd a) (fst a) (t1_ 0 n * cc (gidx jF 0 n)))) (0%Z, fun _ => 0) in
    for_up 1 mpol (fun m a => for_up (- ntor) (ntor + 1) (fun n a =>
      let abs_n := Z.abs n in
      let idx_fc := gidx jF m abs_n in
      let t1 := t1_ m abs_n in
      ((fst a + 1)%Z,
       if (n =? 0)%Z then upd (snd a) (fst a) (t1 * cc idx_fc)
       else if (jF >? 0)%Z then
         let v := t1 * cc idx_fc / 2 in
         upd (snd a) (fst a) (if sz_lthreed s then v + t1 * IZR (signum n) * ss idx_fc / 2 else v)
       else snd a)) a) s1.
  (** One surface of a sine array (zmns1, lmns1, rmns1), same lines; [axis]: the
      extrapolation of lambda to the axis, 4620-4632 *)
  Definition sin_row (axis : bool) (sc cs : Z -> R) (jF : Z) : Z * (Z -> R) :=
    let s1 := for_up 0 (ntor + 1) (fun n a =>
      ((fst a + 1)%Z, if sz_lthreed s then upd (snd a) (fst a) (- t1_ 0 n * cs (gidx jF 0 n)) else snd a)) (0%Z, fun _ => 0) in
    let s1 := if axis && sz_lthreed s && (jF =? 0)%Z then
        (fst s1, snd (for_up 0 (ntor + 1) (fun n a =>
          ((fst a + 1)%Z, upd (snd a) (fst a) (- t1_ 0 n * (2 * cs (gidx 1 0 n) - cs (gidx 2 0 n))))) (0%Z, snd s1)))
      else s1 in
    for_up 1 mpol (fun m a => for_up (- ntor) (ntor + 1) (fun n a =>
      let abs_n := Z.abs n in
      let idx_fc := gidx jF m abs_n in
      let t1 := t1_ m abs_n in
      ((fst a + 1)%Z,
       if (n =? 0)%Z then upd (snd a) (fst a) (t1 * sc idx_fc)
       else if (jF >? 0)%Z then
         let v := t1 * sc idx_fc / 2 in
         upd (snd a) (fst a) (if sz_lthreed s then v - t1 * IZR (signum n) * cs idx_fc / 2 else v)
       else snd a)) a) s1.
  (** 4596-4601 with 4667-4672 and 5206-5212 with 5266-5271 *)
  Definition by_surface (row : Z -> Z * (Z -> R)) (scale : Z -> R -> R) : Z -> Z -> R :=
    for_up 0 ns (fun jF w => let r := row jF in
      for_up 0 (sz_mnmax s) (fun mn w => upd2 w mn jF (scale jF (snd r mn))) w) (fun _ _ => 0).
  Definition plain (jF : Z) (x : R) : R := x.
  Definition rmnc (X : coefs) := let X := physical X in by_surface (cos_row (X cR b_cc) (X cR b_ss)) plain.
  Definition zmns (X : coefs) := let X := physical X in by_surface (sin_row false (X cZ b_sc) (X cZ b_cs)) plain.
  Definition rmns (X : coefs) := let X := physical X in by_surface (sin_row false (X cR b_sc) (X cR b_cs)) plain.
  Definition zmnc (X : coefs) := let X := physical X in by_surface (cos_row (X cZ b_cc) (X cZ b_ss)) plain.
  Section Lambda.
    Context (phipF : Z -> R) (lamscale : R).
    Definition lam_scale (jF : Z) (x : R) : R := x / phipF jF * lamscale.
    Definition lmns_full (X : coefs) := by_surface (sin_row true (X cL b_sc) (X cL b_cs)) lam_scale.
    Definition lmnc_full (X : coefs) := by_surface (cos_row (X cL b_cc) (X cL b_ss)) lam_scale.
    (** 4674-4701 and 5278-5304 *)
    Context (xm : Z -> Z) (sm sp : Z -> R).
    Definition lam_half (full : Z -> Z -> R) : Z -> Z -> R :=
      for_up 0 (ns - 1) (fun jH w => let jFi := jH in let jFo := (jH + 1)%Z in
        for_up 0 (sz_mnmax s) (fun mn w =>
          let outside := full mn jFo in
          let inside := if (jFi =? 0)%Z && (xm mn <=? 1)%Z then outside else full mn jFi in
          upd2 w mn (jH + 1)%Z
            (if (Z.rem (xm mn) 2 =? 0)%Z then (outside + inside) / 2
             else (sm jH * outside + sp jH * inside) / 2)) w) (fun _ _ => 0).
  End Lambda.

  (** Current density coefficients, 5325-5452; [sg]: sign with which the radial
      component enters, -1 for currumnc and currvmnc, +1 for currumns and currvmns. *)
  Section Current.
    Context (mnmax_nyq : Z) (xm xn : Z -> Z) (deltaS : R) (sqrtSH sqrtSF : Z -> R) (sg : R).
    Definition reg_avg (b : Z -> Z -> R) (mn j : Z) : R :=
      if (Z.rem (xm mn) 2 =? 1)%Z
      then 1 / 2 * (sqrtSH j * b mn (j + 1)%Z + sqrtSH (j - 1)%Z * b mn j) / sqrtSF j
      else 1 / 2 * (b mn (j + 1)%Z + b mn j).
    Definition reg_diff (b : Z -> Z -> R) (mn j : Z) : R :=
      let ohs := 1 / deltaS in
      if (Z.rem (xm mn) 2 =? 1)%Z
      then let b0 := b mn j / sqrtSH (j - 1)%Z in
           let b1 := b mn (j + 1)%Z / sqrtSH j in
           ohs * (b1 - b0) * sqrtSF j + 1 / 4 * (b0 + b1) / sqrtSF j
      else ohs * (b mn (j + 1)%Z - b mn j).
    Definition curr_interior (v : Z -> Z -> R) : Z -> Z -> R :=
      for_up 1 (ns - 1) (fun j_f w => for_up 0 mnmax_nyq (fun mn w => upd2 w mn j_f (v mn j_f)) w) (fun _ _ => 0).
    Definition curr_axis (w : Z -> Z -> R) : Z -> Z -> R :=
      for_up 0 mnmax_nyq (fun mn w =>
        if (xm mn <=? 1)%Z then upd2 w mn 0%Z (2 * w mn 1%Z - w mn 2%Z) else w) w.
    Definition curr_edge (w : Z -> Z -> R) : Z -> Z -> R :=
      for_up 0 mnmax_nyq (fun mn w =>
        upd2 w mn (ns - 1)%Z (2 * w mn (ns - 2)%Z - w mn (ns - 3)%Z)) w.
    Definition curr (v : Z -> Z -> R) : Z -> Z -> R :=
      let w := curr_edge (curr_axis (curr_interior v)) in fun mn j => w mn j / JxbModel.MU_0.
    Definition curru (bsubs bsubv : Z -> Z -> R) : Z -> Z -> R :=
      curr (fun mn j => sg * IZR (xn mn) * reg_avg bsubs mn j - reg_diff bsubv mn j).
    Definition currv (bsubs bsubu : Z -> Z -> R) : Z -> Z -> R :=
      curr (fun mn j => sg * IZR (xm mn) * reg_avg bsubs mn j + reg_diff bsubu mn j).
  End Current.
End Wout.
