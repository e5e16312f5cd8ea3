(** Cross-section shape and parallel-current profiles of the output:
    vmec/output_quantities/output_quantities.cc:3717-3752 (intermediate) and 3937-4066 (result).
    Exact arithmetic; [big] is DBL_MAX and [eps] is DBL_EPSILON. *)
From Coq Require Import ZArith List Bool Reals.
From Verif Require Import Base SizesModel JxbModel GeoModel.
Open Scope R_scope.

Section Shape.
  Variables (s : sizes) (ns : Z) (big : R).
  Variables (g : full_geo) (sqrtSF : Z -> R).

  (** 4007-4018: minimum_z, maximum_z, minimum_x, maximum_x, rzmax *)
  Record scan := mkScan { minimum_z : R; maximum_z : R; minimum_x : R; maximum_x : R; rzmax : R }.
  Definition scan_start : scan := mkScan big (- big) big (- big) 0.
  (** 4041-4062: one point *)
  Definition scan_point (yr1u yz1u : R) (st : scan) : scan :=
    let '(minz, maxz, rz) :=
      if Rle_dec (maximum_z st) yz1u then (minimum_z st, Rabs yz1u, yr1u)
      else if Rle_dec yz1u (minimum_z st) then (yz1u, maximum_z st, rzmax st)
      else (minimum_z st, maximum_z st, rzmax st) in
    let '(minx, maxx) :=
      if Rle_dec (maximum_x st) yr1u then (minimum_x st, yr1u)
      else if Rle_dec yr1u (minimum_x st) then (yr1u, maximum_x st)
      else (minimum_x st, maximum_x st) in
    mkScan minz maxz minx maxx rz.
  Definition pos (jF k l : Z) : Z := ((jF * sz_nZeta s + k) * sz_nThetaEff s + l)%Z.
  Definition yr (jF k l : Z) : R := r_e g (pos jF k l) + sqrtSF jF * r_o g (pos jF k l).
  Definition yz (jF k l : Z) : R := z_e g (pos jF k l) + sqrtSF jF * z_o g (pos jF k l).
  (** 4022-4064: both passes; the reflected plane is (nZeta - k) % nZeta *)
  Definition reflected (k : Z) : Z := Z.rem (sz_nZeta s - k) (sz_nZeta s).
  Definition scan_section (k jF : Z) : scan :=
    for_up 0 2 (fun icount st =>
      let '(k1, t1) := if (icount =? 1)%Z then (reflected k, -1) else (k, 1) in
      for_up 0 (sz_nThetaReduced s) (fun l st => scan_point (yr jF k1 l) (t1 * yz jF k1 l) st) st) scan_start.

  (** 3994-4002: toroidal index of the plane, None if the loop over planes has ended *)
  Definition plane (nplanes : Z) : option Z :=
    if (nplanes >? 0)%Z then if (sz_nZeta s =? 1)%Z then None else Some (Z.quot (sz_nZeta s) 2) else Some 0%Z.

  (** 4067-4097 *)
  Definition xmida (k jF : Z) : R := yr jF k (sz_nThetaReduced s - 1).
  Definition xmidb (k jF : Z) : R := yr jF k 0.
  Definition rgeo (k jF : Z) : R := (xmidb k jF + xmida k jF) / 2.
  Definition width (k jF : Z) : R := maximum_x (scan_section k jF) - minimum_x (scan_section k jF).
  Definition ygeo_at (k jF : Z) : R := (xmidb k jF - xmida k jF) / 2.
  Definition yinden_at (k jF : Z) : R := (xmida k jF - minimum_x (scan_section k jF)) / width k jF.
  Definition yellip_at (k jF : Z) : R := (maximum_z (scan_section k jF) - minimum_z (scan_section k jF)) / width k jF.
  Definition ytrian_at (k jF : Z) : R := (rgeo k jF - rzmax (scan_section k jF)) / width k jF.
  Definition yshift_at (k jF : Z) : R := (r_e g (k * sz_nThetaEff s + 0)%Z - rgeo k jF) / width k jF.
  (** the five output arrays of length 2 ns *)
  Definition shape_array (f : Z -> Z -> R) : Z -> R :=
    for_up 0 2 (fun nplanes a =>
      match plane nplanes with
      | None => a
      | Some k => for_up 1 ns (fun jF a => upd a (nplanes * ns + jF)%Z (f k jF)) a
      end) (fun _ => 0).
End Shape.

Section Currents.
  Variables (ns : Z) (eps : R).
  Variables (jpar2 jperp2 jdotb bdotb dVdsH : Z -> R).
  (** 3717-3743 *)
  Definition jPS2 : Z -> R :=
    for_up 1 (ns - 1) (fun jF a => upd a jF (jpar2 jF - jdotb jF * jdotb jF / bdotb jF)) (fun _ => 0).
  Definition two_dVds_full (jF : Z) : R := dVdsH jF + dVdsH (jF - 1)%Z.
  Definition jpar_perp_sum : R := for_up 1 (ns - 1) (fun jF a => a + jpar2 jF * two_dVds_full jF) 0.
  Definition jparPS_perp_sum : R := for_up 1 (ns - 1) (fun jF a => a + jPS2 jF * two_dVds_full jF) 0.
  Definition s2 : R := for_up 1 (ns - 1) (fun jF a => a + jperp2 jF * two_dVds_full jF) 0.
  (** 3935-3941 *)
  Definition jpar_perp : R := if Req_EM_T s2 0 then jpar_perp_sum else jpar_perp_sum / s2.
  Definition jparPS_perp : R := if Req_EM_T s2 0 then jparPS_perp_sum else jparPS_perp_sum / s2.
  (** 3956-3976 *)
  Definition jperp2_or_eps (jF : Z) : R := if Req_EM_T (jperp2 jF) 0 then eps else jperp2 jF.
  Definition loc_jpar_perp : Z -> R := for_up 1 ns (fun jF a => upd a jF (jpar2 jF / jperp2_or_eps jF)) (fun _ => 0).
  Definition loc_jparPS_perp : Z -> R :=
    for_up 1 ns (fun jF a => upd a jF (if (jF <? ns - 1)%Z then jPS2 jF / jperp2_or_eps jF else 0)) (fun _ => 0).
End Currents.

(** 3745-3752 and 3948-3953 *)
Definition r3v (deltaS sign_of_jacobian : R) (phipH iotaH : Z -> R) (jH : Z) : R :=
  2 * PI * deltaS * sign_of_jacobian * phipH jH * iotaH jH.
Definition psi (ns : Z) (deltaS sign_of_jacobian : R) (phipH iotaH : Z -> R) : Z -> R :=
  for_up 1 ns (fun jF a => upd a jF (a (jF - 1)%Z + r3v deltaS sign_of_jacobian phipH iotaH (jF - 1)%Z)) (fun _ => 0).
