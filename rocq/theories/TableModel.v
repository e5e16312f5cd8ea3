(** Radial profile table of the threed1 output:
    vmec/output_quantities/output_quantities.cc:3201-3443 (ComputeIntermediateThreed1FirstTableQuantities,
    without beta_vol and overr, which are in GeoModel) and 3445-3536 (ComputeThreed1FirstTable,
    the copied columns omitted). Exact arithmetic; arrays start as zero (VectorXd::Zero) and
    are written in the order of the code. A C++ read outside an array is excluded by ns >= 3. *)
From Coq Require Import ZArith Reals.
From Verif Require Import Base SizesModel JxbModel.
Open Scope R_scope.

Section Table.
  Variables (s : sizes) (ns : Z) (sign_of_jacobian deltaS : R).
  Variables (presH phipH iotaH dVdsH chipF phipF : Z -> R).
  Variables (bsubu bsubv : Z -> R).
  Local Notation zero := (fun _ : Z => 0).

  (** 3273-3309: presf, phipf_loc *)
  Definition to_full (H : Z -> R) (c : R -> R -> R) : Z -> R :=
    let a := upd zero 0 (c (15 / 10 * H 0%Z) (- (5 / 10 * H 1%Z))) in
    let a := for_up 1 (ns - 1) (fun jF a => upd a jF (c (H jF / 2) (H (jF - 1)%Z / 2))) a in
    upd a (ns - 1) (c (15 / 10 * H (ns - 2)%Z) (- (5 / 10 * H (ns - 3)%Z))).
  Definition presf : Z -> R := to_full presH (fun x y => x + y).
  Definition phipf_loc : Z -> R := to_full phipH (fun x y => 2 * PI * sign_of_jacobian * (x + y)).

  (** 3312-3329 *)
  Definition fluxes : (Z -> R) * (Z -> R) * (Z -> R) :=
    for_up 1 ns (fun jF st =>
      let '(phi1, chi1, chi) := st in
      let phi1 := upd phi1 jF (phi1 (jF - 1)%Z + phipH (jF - 1)%Z * deltaS) in
      let chi1 := upd chi1 jF (chi1 (jF - 1)%Z + phipH (jF - 1)%Z * iotaH (jF - 1)%Z * deltaS) in
      (phi1, chi1, upd chi jF (2 * PI * chi1 jF))) (upd zero 0 0, upd zero 0 0, zero).
  Definition phi1 : Z -> R := fst (fst fluxes).
  Definition chi1 : Z -> R := snd (fst fluxes).
  Definition chi : Z -> R := snd fluxes.

  (** 3333-3349 *)
  Definition co (bsub : Z -> R) (jH : Z) : R :=
    for_up 0 (sz_nZnT s) (fun kl acc => acc + bsub (jH * sz_nZnT s + kl)%Z * sz_wInt s (kl mod sz_nThetaEff s)%Z) 0.
  Definition bucoH : Z -> R := co bsubu.
  Definition bvcoH : Z -> R := co bsubv.

  (** 3351-3385 *)
  Definition signByDeltaS : R := sign_of_jacobian / deltaS.
  Definition jcurv0 : Z -> R := for_up 1 (ns - 1) (fun jF a => upd a jF (signByDeltaS * (bucoH jF - bucoH (jF - 1)%Z))) zero.
  Definition jcuru0 : Z -> R := for_up 1 (ns - 1) (fun jF a => upd a jF (- signByDeltaS * (bvcoH jF - bvcoH (jF - 1)%Z))) zero.
  Definition presgrad0 : Z -> R := for_up 1 (ns - 1) (fun jF a => upd a jF ((presH jF - presH (jF - 1)%Z) / deltaS)) zero.
  Definition vpphi0 : Z -> R := for_up 1 (ns - 1) (fun jF a => upd a jF (5 / 10 * (dVdsH jF + dVdsH (jF - 1)%Z))) zero.
  Definition equif00 : Z -> R :=
    for_up 1 (ns - 1) (fun jF a => upd a jF ((chipF jF * jcurv0 jF - phipF jF * jcuru0 jF) / vpphi0 jF + presgrad0 jF)) zero.

  (** 3390-3421 *)
  Definition equif0 : Z -> R :=
    for_up 1 (ns - 1) (fun jF a => upd a jF (a jF * (vpphi0 jF /
      (Rabs (jcurv0 jF * chipF jF) + Rabs (jcuru0 jF * phipF jF) + Rabs (presgrad0 jF * vpphi0 jF))))) equif00.
  Definition bvcof : Z -> R := to_full bvcoH (fun x y => x + y).
  Definition bucof : Z -> R :=
    let a := upd zero 0 0 in
    let a := for_up 1 (ns - 1) (fun jF a => upd a jF ((bucoH jF + bucoH (jF - 1)%Z) / 2)) a in
    upd a (ns - 1) (15 / 10 * bucoH (ns - 2)%Z - 5 / 10 * bucoH (ns - 3)%Z).

  (** 3424-3440: the axis entry is written before the edge entry *)
  Definition ends (a : Z -> R) : Z -> R :=
    let a := upd a 0 (2 * a 1%Z - a 2%Z) in
    upd a (ns - 1) (2 * a (ns - 2)%Z - a (ns - 3)%Z).
  Definition equif : Z -> R := ends equif0.
  Definition jcurv : Z -> R := ends jcurv0.
  Definition jcuru : Z -> R := ends jcuru0.
  Definition presgrad : Z -> R := ends presgrad0.
  Definition vpphi : Z -> R := ends vpphi0.

  (** 3474-3530 *)
  Definition fac : R := 2 * PI * sign_of_jacobian.
  Definition t_s (jF : Z) : R := IZR jF * deltaS.
  Definition radial_force (jF : Z) : R := equif jF.
  Definition toroidal_flux (jF : Z) : R := fac * phi1 jF.
  Definition avg_jsupu (jF : Z) : R := jcuru jF / vpphi jF / MU_0.
  Definition avg_jsupv (jF : Z) : R := jcurv jF / vpphi jF / MU_0.
  Definition d_volume_d_phi (jF : Z) : R := fac * vpphi jF * 2 * PI / phipf_loc jF.
  Definition d_pressure_d_phi (jF : Z) : R := presgrad jF / phipf_loc jF / MU_0.
  Definition pressure (jF : Z) : R := presf jF / MU_0.
End Table.
