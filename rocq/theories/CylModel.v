(** Remaining metric elements, cylindrical field components and the radial
    covariant field component, vmec/output_quantities/output_quantities.cc:1904-2038
    and 2481-2499.  Exact arithmetic.  The members of VmecInternalResults are
    passed as one record per grid point ([geo], [jacp] and [vecp] of KernelModel);
    new arrays are zero. *)
From Coq Require Import ZArith Reals.
From Verif Require Import Base Num KernelModel.
Open Scope R_scope.

Record cylp := mkCyl { rv12 : R; zv12 : R; rs12 : R; zs12 : R; gsu : R; gsv : R }.
Definition cyl0 : cylp := mkCyl 0 0 0 0 0 0.
Local Notation geoR := (@geo num_R).
Local Notation jacR := (@jacp num_R).
Local Notation vecR := (@vecp num_R).

Section C.
  Context (ns nZnT : Z).
  (** 1926-1967: body of the loop of ComputeRemainingMetric; [i], [o]: inside and
      outside surface *)
  Definition metric_point (sqrtSH : R) (i o : geoR) (j : jacR) : cylp :=
    let rv_e12 := ((rve o : R) + rve i) / 2 in
    let rv_o12 := ((rvo o : R) + rvo i) / 2 in
    let rv12 := rv_e12 + sqrtSH * rv_o12 in
    let zv_e12 := ((zve o : R) + zve i) / 2 in
    let zv_o12 := ((zvo o : R) + zvo i) / 2 in
    let zv12 := zv_e12 + sqrtSH * zv_o12 in
    let r_o12 := ((r1o o : R) + r1o i) / 2 in
    let z_o12 := ((z1o o : R) + z1o i) / 2 in
    let rs12 := (rs j : R) + r_o12 / (2 * sqrtSH) in
    let zs12 := (zs j : R) + z_o12 / (2 * sqrtSH) in
    mkCyl rv12 zv12 rs12 zs12
      (rs12 * (ru12 j : R) + zs12 * (zu12 j : R)) (rs12 * rv12 + zs12 * zv12).
  (** 1924-1969 *)
  Definition remaining_metric (sqrtSH : Z -> R) (g : Z -> geoR) (jac : Z -> jacR) : Z -> cylp :=
    for_up 0 (ns - 1) (fun jH a => for_up 0 nZnT (fun kl a =>
      let idxH := (jH * nZnT + kl)%Z in
      let idxFi := idxH in
      let idxFo := ((jH + 1) * nZnT + kl)%Z in
      upd a idxH (metric_point (sqrtSH jH) (g idxFi) (g idxFo) (jac idxH))) a) (fun _ => cyl0).

  (** one half-grid array, filled point by point *)
  Definition half_array (v : Z -> R) : Z -> R :=
    for_up 0 (ns - 1) (fun jH a => for_up 0 nZnT (fun kl a =>
      let idxH := (jH * nZnT + kl)%Z in upd a idxH (v idxH)) a) (fun _ => 0).
  (** BCylindricalComponents, 1974-1997 *)
  Definition b_r (bsup : Z -> vecR) (jac : Z -> jacR) (rm : Z -> cylp) : Z -> R :=
    half_array (fun i => (vu (bsup i) : R) * (ru12 (jac i) : R) + (vv (bsup i) : R) * rv12 (rm i)).
  Definition b_phi (bsup : Z -> vecR) (jac : Z -> jacR) : Z -> R :=
    half_array (fun i => (vv (bsup i) : R) * (r12 (jac i) : R)).
  Definition b_z (bsup : Z -> vecR) (jac : Z -> jacR) (rm : Z -> cylp) : Z -> R :=
    half_array (fun i => (vu (bsup i) : R) * (zu12 (jac i) : R) + (vv (bsup i) : R) * zv12 (rm i)).
  (** ComputeBSubSOnHalfGrid, 1999-2016 *)
  Definition bsubs_half (bsup : Z -> vecR) (rm : Z -> cylp) : Z -> R :=
    half_array (fun i => (vu (bsup i) : R) * gsu (rm i) + (vv (bsup i) : R) * gsv (rm i)).

  (** PutBSubSOnFullGrid, 2018-2038 *)
  Definition bsubs_interior (bs : Z -> R) : Z -> R :=
    for_up 1 (ns - 1) (fun jF a => for_up 0 nZnT (fun kl a =>
      let jHi := (jF - 1)%Z in let jHo := jF in
      upd a (jF * nZnT + kl)%Z ((bs (jHo * nZnT + kl)%Z + bs (jHi * nZnT + kl)%Z) / 2)) a) (fun _ => 0).
  (** ExtrapolateBSubS, 2481-2499 *)
  Definition extrapolate_bsubs (a : Z -> R) : Z -> R :=
    for_up 0 nZnT (fun kl a =>
      let index_0 := (0 * nZnT + kl)%Z in
      let index_1 := (1 * nZnT + kl)%Z in
      let index_2 := (2 * nZnT + kl)%Z in
      let a := upd a index_0 (2 * a index_1 - a index_2) in
      let index_ns_1 := ((ns - 1) * nZnT + kl)%Z in
      let index_ns_2 := ((ns - 2) * nZnT + kl)%Z in
      let index_ns_3 := ((ns - 3) * nZnT + kl)%Z in
      upd a index_ns_1 (2 * a index_ns_2 - a index_ns_3)) a.
  Definition bsubs_full (bs : Z -> R) : Z -> R := extrapolate_bsubs (bsubs_interior bs).
End C.
