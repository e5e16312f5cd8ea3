(** The new guess for the magnetic axis after a bad initial Jacobian:
    src/vmecpp/cpp/vmecpp/vmec/boundaries/guess_magnetic_axis.cc.
    Simplifications: exact arithmetic; vectors of vectors are functions of (k, l),
    initially zero (std::vector::resize value-initialises). *)
From Coq Require Import ZArith List Bool Reals.
From Verif Require Import Base SizesModel FourierModel BoundaryModel.
Import ListNotations.
Open Scope R_scope.

(** Four Fourier coefficient tables of R or Z, indexed by (m, n): the parity that
    exists always, with lthreed, with lasym, with both. *)
Record quad := mkQ { q_a : Z -> Z -> R; q_3 : Z -> Z -> R; q_s : Z -> Z -> R; q_3s : Z -> Z -> R }.

Section Axis.
  Variables (s : sizes) (t : basis_tables) (b : bdy).
  Variables (raxis_c raxis_s zaxis_s zaxis_c : Z -> R).
  Variables (number_of_flux_surfaces sign_of_jacobian : Z).
  Let lasym := sz_lasym s.
  Let lthreed := sz_lthreed s.
  Let mpol := sz_mpol s.
  Let ntor := sz_ntor s.
  Let nZeta := sz_nZeta s.
  Let nThetaEven := sz_nThetaEven s.
  Let nThetaReduced := sz_nThetaReduced s.
  Let idx_mn (m n : Z) : Z := (m * (ntor + 1) + n)%Z.

  (** 82-92 *)
  Definition ns12 : Z := (Z.quot (number_of_flux_surfaces + 1) 2 - 1)%Z.
  Definition delta_s : R := IZR (number_of_flux_surfaces - 1 - ns12) / (IZR number_of_flux_surfaces - 1).
  Definition sqrtSF12 : R := sqrt (IZR ns12 / (IZR number_of_flux_surfaces - 1)).

  (** 118-158: undo the m=1 constraint *)
  Definition undo_p (x y : Z -> R) (m n : Z) : R := if (m =? 1)%Z then (x (idx_mn m n) + y (idx_mn m n)) * 1 else x (idx_mn m n).
  Definition undo_m (x y : Z -> R) (m n : Z) : R := if (m =? 1)%Z then (x (idx_mn m n) - y (idx_mn m n)) * 1 else y (idx_mn m n).
  Definition r_bdy : quad :=
    mkQ (fun m n => rbcc b (idx_mn m n)) (undo_p (rbss b) (zbcs b)) (undo_p (rbsc b) (zbcc b)) (fun m n => rbcs b (idx_mn m n)).
  Definition z_bdy : quad :=
    mkQ (fun m n => zbsc b (idx_mn m n)) (undo_m (rbss b) (zbcs b)) (undo_m (rbsc b) (zbcc b)) (fun m n => zbss b (idx_mn m n)).

  (** 160-227: coefficients at mid-radius. [ax] is the axis contribution to m = 0. *)
  Definition half1 (ax : Z -> R) (c : Z -> Z -> R) (m n : Z) : R :=
    if (m =? 0)%Z then let w := sqrtSF12 * sqrtSF12 in w * c m n + (1 - w) * ax n
    else sqrtSF12 ^ Z.to_nat m * c m n.
  Definition noax (_ : Z) : R := 0.
  Definition r_half_c : quad :=
    mkQ (half1 raxis_c (q_a r_bdy)) (half1 noax (q_3 r_bdy)) (half1 noax (q_s r_bdy)) (half1 (fun n => - raxis_s n) (q_3s r_bdy)).
  Definition z_half_c : quad :=
    mkQ (half1 noax (q_a z_bdy)) (half1 (fun n => - zaxis_s n) (q_3 z_bdy)) (half1 zaxis_c (q_s z_bdy)) (half1 noax (q_3s z_bdy)).

  (** 234-327: one inverse transform. R uses (P1, P2) = (cosmu, sinmu), Z uses
      (sinmu, cosmu), the derivatives the tables sinmum and cosmum. *)
  Definition transform (P1 P2 : Z -> R) (c : quad) (k l : Z) : R :=
    for_up 0 mpol (fun m acc => for_up 0 (ntor + 1) (fun n acc =>
      let idx_ml := (m * nThetaReduced + l)%Z in
      let idx_kn := (k * (sz_nnyq2 s + 1) + n)%Z in
      let bn := 1 / (mscale m * nscale n) in
      let acc := acc + bn * q_a c m n * P1 idx_ml * bt_cosnv t idx_kn in
      let acc := if lthreed then acc + bn * q_3 c m n * P2 idx_ml * bt_sinnv t idx_kn else acc in
      if lasym then
        let acc := acc + bn * q_s c m n * P2 idx_ml * bt_cosnv t idx_kn in
        if lthreed then acc + bn * q_3s c m n * P1 idx_ml * bt_sinnv t idx_kn else acc
      else acc) acc) 0.

  (** Storage for all k and l < nThetaReduced, zero elsewhere (28-59, 234-238). *)
  Definition on_grid (f : Z -> Z -> R) : Z -> Z -> R :=
    for_up 0 nZeta (fun k a => for_up 0 nThetaReduced (fun l a => upd2 a k l (f k l)) a) (fun _ _ => 0).

  (** 337-362: mirror into the other half; [sg] is +1 or -1. *)
  Definition mirror (sg : R) (a : Z -> Z -> R) : Z -> Z -> R :=
    if lasym then a else
    for_up 0 nZeta (fun k a =>
      let k_reversed := ((nZeta - k) mod nZeta)%Z in
      for_up 1 (nThetaReduced - 1) (fun l a =>
        let l_reversed := ((nThetaEven - l) mod nThetaEven)%Z in
        upd2 a k_reversed l_reversed (sg * a k l)) a) a.

  Definition r_lcfs : Z -> Z -> R := mirror 1 (on_grid (transform (bt_cosmu t) (bt_sinmu t) r_bdy)).
  Definition z_lcfs : Z -> Z -> R := mirror (-1) (on_grid (transform (bt_sinmu t) (bt_cosmu t) z_bdy)).
  Definition r_half : Z -> Z -> R := mirror 1 (on_grid (transform (bt_cosmu t) (bt_sinmu t) r_half_c)).
  Definition z_half : Z -> Z -> R := mirror (-1) (on_grid (transform (bt_sinmu t) (bt_cosmu t) z_half_c)).
  (** the average of 328-332 is taken before mirroring *)
  Definition ru_half : Z -> Z -> R := mirror (-1) (on_grid (fun k l =>
    (transform (bt_sinmum t) (bt_cosmum t) r_bdy k l + transform (bt_sinmum t) (bt_cosmum t) r_half_c k l) / 2)).
  Definition zu_half : Z -> Z -> R := mirror 1 (on_grid (fun k l =>
    (transform (bt_cosmum t) (bt_sinmum t) z_bdy k l + transform (bt_cosmum t) (bt_sinmum t) z_half_c k l) / 2)).

  (** 364-386: current axis *)
  Definition r_axis (k : Z) : R := for_up 0 (ntor + 1) (fun n acc =>
    let idx_kn := (k * (sz_nnyq2 s + 1) + n)%Z in
    let bn := 1 / (mscale 0 * nscale n) in
    let acc := acc + raxis_c n * bt_cosnv t idx_kn * bn in
    if lasym then acc - raxis_s n * bt_sinnv t idx_kn * bn else acc) 0.
  Definition z_axis (k : Z) : R := for_up 0 (ntor + 1) (fun n acc =>
    let idx_kn := (k * (sz_nnyq2 s + 1) + n)%Z in
    let bn := 1 / (mscale 0 * nscale n) in
    let acc := acc - zaxis_s n * bt_sinnv t idx_kn * bn in
    if lasym then acc + zaxis_c n * bt_cosnv t idx_kn * bn else acc) 0.

  (** *std::min_element, *std::max_element over l in [0, nThetaEven) *)
  Definition min_elem (f : Z -> R) : R := for_up 1 nThetaEven (fun l acc => if Rlt_dec (f l) acc then f l else acc) (f 0%Z).
  Definition max_elem (f : Z -> R) : R := for_up 1 nThetaEven (fun l acc => if Rlt_dec acc (f l) then f l else acc) (f 0%Z).

  Definition min_r (k : Z) : R := min_elem (r_lcfs k).
  Definition max_r (k : Z) : R := max_elem (r_lcfs k).
  Definition min_z (k : Z) : R := min_elem (z_lcfs k).
  Definition max_z (k : Z) : R := max_elem (z_lcfs k).
  (** 401-402, kNumberOfGridPoints = 61 *)
  Definition delta_r (k : Z) : R := (max_r k - min_r k) / (61 - 1).
  Definition delta_z (k : Z) : R := (max_z k - min_z k) / (61 - 1).

  (** 408-417: static part of the Jacobian *)
  Definition tau0 (k l : Z) : R :=
    let rs := (r_lcfs k l - r_half k l) / delta_s + r_axis k in
    let zs := (z_lcfs k l - z_half k l) / delta_s + z_axis k in
    ru_half k l * zs - zu_half k l * rs.

  (** 437-444: smallest value of the Jacobian in plane k with the axis at (r, z) *)
  Definition tau_min (k : Z) (r z : R) : R :=
    min_elem (fun l => IZR sign_of_jacobian * (tau0 k l - ru_half k l * z + zu_half k l * r)).

  (** 421-459: the search in one plane. State: min_tau, new_r, new_z. *)
  Definition sym_plane (k : Z) : bool := negb lasym && ((k =? 0)%Z || (k =? Z.quot nZeta 2)%Z).
  Definition visit (k : Z) (r z : R) (st : R * (R * R)) : R * (R * R) :=
    let '(best, (nr, nz)) := st in
    let v := tau_min k r z in
    if Rlt_dec best v then (v, (r, z))
    else if Req_EM_T v best then (if Rlt_dec (Rabs z) (Rabs nz) then (best, (nr, z)) else st)
    else st.
  Definition search (k : Z) : R * (R * R) :=
    for_up 0 (if sym_plane k then 1 else 61) (fun iz st =>
      let z := if sym_plane k then 0 else min_z k + IZR iz * delta_z k in
      for_up 0 61 (fun ir st => visit k (min_r k + IZR ir * delta_r k) z st) st)
    (0, ((max_r k + min_r k) / 2, (max_z k + min_z k) / 2)).

  (** 388-473: the positions in the planes *)
  Definition planes (f : Z -> R) : Z -> R := for_up 0 (Z.quot nZeta 2 + 1) (fun k a => upd a k (f k)) (fun _ => 0).
  Definition flip_planes (sg : R) (a : Z -> R) : Z -> R :=
    if lasym then a else for_up 1 (Z.quot nZeta 2) (fun k a => upd a ((nZeta - k) mod nZeta)%Z (sg * a k)) a.
  Definition new_r_axis : Z -> R := flip_planes 1 (planes (fun k => fst (snd (search k)))).
  Definition new_z_axis : Z -> R := flip_planes (-1) (planes (fun k => snd (snd (search k)))).

  (** 475-511: Fourier coefficients of the new axis *)
  Definition accumulate (sg : R) (tb : Z -> R) (x : Z -> R) : Z -> R :=
    for_up 0 nZeta (fun k a => for_up 0 (ntor + 1) (fun n a =>
      upd a n (a n + sg * (2 / IZR nZeta * tb (k * (sz_nnyq2 s + 1) + n)%Z * x k / nscale n))) a) (fun _ => 0).
  Definition fixup (a : Z -> R) : Z -> R :=
    let a := upd a 0%Z (a 0%Z / 2) in
    if (ntor >? 0)%Z && (ntor >=? Z.quot nZeta 2)%Z then upd a (Z.quot nZeta 2) (a (Z.quot nZeta 2) / 2) else a.
  Definition new_raxis_c : Z -> R := fixup (accumulate 1 (bt_cosnv t) new_r_axis).
  Definition new_zaxis_s : Z -> R := accumulate (-1) (bt_sinnv t) new_z_axis.
  Definition new_raxis_s : Z -> R := accumulate (-1) (bt_sinnv t) new_r_axis.
  Definition new_zaxis_c : Z -> R := fixup (accumulate 1 (bt_cosnv t) new_z_axis).
End Axis.
