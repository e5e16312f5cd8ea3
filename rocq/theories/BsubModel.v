(** The toroidal covariant field on the half grid that goes to the output,
    vmec/output_quantities/output_quantities.cc:1830-1885. Exact arithmetic.
    Matrices are flat arrays, row = surface. *)
From Coq Require Import ZArith Reals.
From Verif Require Import Base SizesModel.
Open Scope R_scope.

Section B.
  Context (s : sizes) (ns : Z).
  Local Notation nZnT := (sz_nZnT s).

  (** MeshBledingBSubZeta, 1830-1846. *)
  Definition meshBlending (bsubvF bsubv : Z -> R) : Z -> R :=
    for_down (ns - 3) 0 (fun jH b =>
      let jF := (jH + 1)%Z in
      for_up 0 nZnT (fun kl b =>
        let idx_sourceH := ((jH + 1) * nZnT + kl)%Z in
        let idx_sourceF := (jF * nZnT + kl)%Z in
        let idx_targetH := (jH * nZnT + kl)%Z in
        upd b idx_targetH (2 * bsubvF idx_sourceF - b idx_sourceH)) b) bsubv.

  (** Surface average as all output routines compute it, e.g. 1856-1862:
      sum over kl of a[kl] * wInt[kl % nThetaEff]. *)
  Definition surfSum (a : Z -> R) (jH : Z) : R :=
    for_up 0 nZnT (fun kl acc => acc + a (jH * nZnT + kl)%Z * sz_wInt s (kl mod sz_nThetaEff s)) 0.

  (** ComputePoloidalCurrentToFixBSubV, 1848-1870; num_half = ns - 1. *)
  Definition poloidalCurrentDeviation (bsubv bvcoH : Z -> R) : Z -> R :=
    for_up 0 (ns - 1) (fun jH d => upd d jH (surfSum bsubv jH - bvcoH jH)) (fun _ => 0).

  (** FixupPoloidalCurrent, 1872-1885. *)
  Definition fixupPoloidalCurrent (dev bsubv : Z -> R) : Z -> R :=
    for_up 0 (ns - 1) (fun jH b =>
      for_up 0 nZnT (fun kl b =>
        let iHalf := (jH * nZnT + kl)%Z in
        upd b iHalf (b iHalf - dev jH)) b) bsubv.

  (** ComputeOutputQuantities, 1386-1395. *)
  Definition outputBSubV (bsubvF bsubv bvcoH : Z -> R) : Z -> R :=
    let b := meshBlending bsubvF bsubv in
    fixupPoloidalCurrent (poloidalCurrentDeviation b bvcoH) b.
End B.
