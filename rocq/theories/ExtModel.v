(** Model of ExternalMagneticField,
    free_boundary/external_magnetic_field/external_magnetic_field.cc.
    [double] is modelled by [R] (exact arithmetic; 1.0e-7 is 1/10^7), [int] by
    [Z], arrays by functions of the flat index. The coil field interpolated from
    the mgrid file (mgrid_.interpolate, line 57) enters as three arrays. The
    branch kUseAbscabForAxisCurrent is a compile-time constant [false]
    (external_magnetic_field.h:65), so AddAxisCurrentFieldAbscab is dead code and
    not modelled. *)
From Coq Require Import ZArith Reals Bool.
From Verif Require Import Base SizesModel SurfModel.
Open Scope R_scope.

Record ext := mkExt {
  e_axis : Z -> R;       (* axisXYZ, interleaved *)
  e_surf : Z -> R;       (* surfaceXYZ, interleaved *)
  e_coil : Z -> R;       (* bCoilsXYZ, interleaved *)
  e_curr : R;            (* axis_current *)
  e_curR : Z -> R; e_curP : Z -> R; e_curZ : Z -> R;  (* curtorBr, curtorBp, curtorBz *)
  e_bSubU : Z -> R; e_bSubV : Z -> R; e_bDotN : Z -> R }.

Section EXT.
Variable s : sizes.
Variables ztMin ztMax : Z.
Variable g : surf.     (* sg_ *)
Local Notation nz := (sz_nZeta s).

(** external_magnetic_field.cc:24 and external_magnetic_field.h:72 *)
Definition nvper : Z := if (nz =? 1)%Z then 64%Z else sz_nfp s.

(** external_magnetic_field.cc:167-171: first module *)
Definition axis_first (rAxis zAxis : Z -> R) (ax : Z -> R) : Z -> R :=
  for_up 0 nz (fun k ax =>
    let ax := upd ax (k * 3 + 0)%Z (rAxis k * cos_phi s k) in
    let ax := upd ax (k * 3 + 1)%Z (rAxis k * sin_phi s k) in
    upd ax (k * 3 + 2)%Z (zAxis k)) ax.

(** external_magnetic_field.cc:176-187: the other modules *)
Definition axis_copies (zAxis : Z -> R) (ax : Z -> R) : Z -> R :=
  let omega_per := 2 * PI / IZR nvper in
  for_up 1 nvper (fun p ax =>
    let cos_per := cos (omega_per * IZR p) in
    let sin_per := sin (omega_per * IZR p) in
    for_up 0 nz (fun k ax =>
      let ax := upd ax ((p * nz + k) * 3 + 0)%Z (cos_per * ax (k * 3 + 0)%Z - sin_per * ax (k * 3 + 1)%Z) in
      let ax := upd ax ((p * nz + k) * 3 + 1)%Z (sin_per * ax (k * 3 + 0)%Z + cos_per * ax (k * 3 + 1)%Z) in
      upd ax ((p * nz + k) * 3 + 2)%Z (zAxis k)) ax) ax.

(** external_magnetic_field.cc:190-192: close the loop *)
Definition axis_close (ax : Z -> R) : Z -> R :=
  let ax := upd ax (nz * nvper * 3 + 0)%Z (ax 0%Z) in
  let ax := upd ax (nz * nvper * 3 + 1)%Z (ax 1%Z) in
  upd ax (nz * nvper * 3 + 2)%Z (ax 2%Z).

(** external_magnetic_field.cc:200-205 *)
Definition surface_points (sx : Z -> R) : Z -> R :=
  for_up ztMin ztMax (fun kl sx =>
    let k := (kl mod nz)%Z in
    let sx := upd sx ((kl - ztMin) * 3 + 0)%Z (sf_sym g R1 kl * cos_phi s k) in
    let sx := upd sx ((kl - ztMin) * 3 + 1)%Z (sf_sym g R1 kl * sin_phi s k) in
    upd sx ((kl - ztMin) * 3 + 2)%Z (sf_sym g Z1 kl)) sx.

(** external_magnetic_field.cc:252-259: the denominator *)
Definition segment_denominator (r_i r_f segment_length : R) : R :=
  let r_i_plus_r_f := r_i + r_f in
  r_i * r_f * (r_i_plus_r_f * r_i_plus_r_f - segment_length * segment_length).

(** external_magnetic_field.cc:222-271: sum over the segments. bCoilsXYZ is
    zeroed before (line 216). *)
Definition filament_field (netToroidalCurrent : R) (ax sx : Z -> R) (bc : Z -> R) : Z -> R :=
  let magnetic_field_scale := 1 / 10 ^ 7 * netToroidalCurrent * 2 in
  for_up 0 (nz * nvper) (fun i bc =>
    let segment_dx := ax ((i + 1) * 3 + 0)%Z - ax (i * 3 + 0)%Z in
    let segment_dy := ax ((i + 1) * 3 + 1)%Z - ax (i * 3 + 1)%Z in
    let segment_dz := ax ((i + 1) * 3 + 2)%Z - ax (i * 3 + 2)%Z in
    let segment_length := sqrt (segment_dx * segment_dx + segment_dy * segment_dy + segment_dz * segment_dz) in
    for_up ztMin ztMax (fun kl bc =>
      let j := (kl - ztMin)%Z in
      let r_i_x := sx (j * 3 + 0)%Z - ax (i * 3 + 0)%Z in
      let r_i_y := sx (j * 3 + 1)%Z - ax (i * 3 + 1)%Z in
      let r_i_z := sx (j * 3 + 2)%Z - ax (i * 3 + 2)%Z in
      let r_i := sqrt (r_i_x * r_i_x + r_i_y * r_i_y + r_i_z * r_i_z) in
      let r_f_x := sx (j * 3 + 0)%Z - ax ((i + 1) * 3 + 0)%Z in
      let r_f_y := sx (j * 3 + 1)%Z - ax ((i + 1) * 3 + 1)%Z in
      let r_f_z := sx (j * 3 + 2)%Z - ax ((i + 1) * 3 + 2)%Z in
      let r_f := sqrt (r_f_x * r_f_x + r_f_y * r_f_y + r_f_z * r_f_z) in
      let magnetic_field_magnitude :=
        magnetic_field_scale * (r_i + r_f) / segment_denominator r_i r_f segment_length in
      let bc := upd bc (j * 3 + 0)%Z (bc (j * 3 + 0)%Z + magnetic_field_magnitude * (segment_dy * r_i_z - segment_dz * r_i_y)) in
      let bc := upd bc (j * 3 + 1)%Z (bc (j * 3 + 1)%Z + magnetic_field_magnitude * (segment_dz * r_i_x - segment_dx * r_i_z)) in
      upd bc (j * 3 + 2)%Z (bc (j * 3 + 2)%Z + magnetic_field_magnitude * (segment_dx * r_i_y - segment_dy * r_i_x))) bc) bc.

(** external_magnetic_field.cc:278-291: to cylindrical coordinates *)
Definition to_cylindrical (bc : Z -> R) (c : (Z -> R) * (Z -> R) * (Z -> R)) : (Z -> R) * (Z -> R) * (Z -> R) :=
  for_up ztMin ztMax (fun kl '(cr, cp, cz) =>
    let k := (kl mod nz)%Z in
    let j := (kl - ztMin)%Z in
    let bX := bc (3 * j + 0)%Z in
    let bY := bc (3 * j + 1)%Z in
    let bZ := bc (3 * j + 2)%Z in
    let bR := cos_phi s k * bX + sin_phi s k * bY in
    let bP := cos_phi s k * bY - sin_phi s k * bX in
    (upd cr j bR, upd cp j bP, upd cz j bZ)) c.

(** external_magnetic_field.cc:161-292: AddAxisCurrentFieldSimple *)
Definition add_axis_current (rAxis zAxis : Z -> R) (netToroidalCurrent : R) (e : ext) : ext :=
  let ax := axis_close (axis_copies zAxis (axis_first rAxis zAxis (e_axis e))) in
  let sx := surface_points (e_surf e) in
  let bc := filament_field netToroidalCurrent ax sx (fun _ => 0) in
  let '(cr, cp, cz) := to_cylindrical bc (e_curR e, e_curP e, e_curZ e) in
  mkExt ax sx bc netToroidalCurrent cr cp cz (e_bSubU e) (e_bSubV e) (e_bDotN e).

(** external_magnetic_field.cc:296-330: covariantAndNormalComponents *)
Definition covariant_and_normal (interpBr interpBp interpBz : Z -> R) (e : ext) : ext :=
  let dO := derivOffset s ztMin in
  let '(bu, bv, bn) := for_up ztMin ztMax (fun kl '(bu, bv, bn) =>
    let j := (kl - ztMin)%Z in
    let fullBr := interpBr j + e_curR e j in
    let fullBp := interpBp j + e_curP e j in
    let fullBz := interpBz j + e_curZ e j in
    (upd bu j (fullBr * sf_sym g Ru (kl - dO)%Z + fullBz * sf_sym g Zu (kl - dO)%Z),
     upd bv j (fullBr * sf_sym g Rv (kl - dO)%Z + fullBz * sf_sym g Zv (kl - dO)%Z + fullBp * sf_sym g R1 kl),
     upd bn j (- (fullBr * sf_der g Snr j + fullBp * sf_der g Snv j + fullBz * sf_der g Snz j))))
    (e_bSubU e, e_bSubV e, e_bDotN e) in
  mkExt (e_axis e) (e_surf e) (e_coil e) (e_curr e) (e_curR e) (e_curP e) (e_curZ e) bu bv bn.

(** external_magnetic_field.cc:50-78: update *)
Definition ext_update (rAxis zAxis : Z -> R) (netToroidalCurrent : R) (interpBr interpBp interpBz : Z -> R) (e : ext) : ext :=
  covariant_and_normal interpBr interpBp interpBz (add_axis_current rAxis zAxis netToroidalCurrent e).
End EXT.
