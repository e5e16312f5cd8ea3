(** What the shape numbers of a cross-section mean. *)
From Coq Require Import ZArith Reals.
From Verif Require Import Base SizesModel DftSpec GeoModel.
Open Scope R_scope.

(** M is the largest / smallest of f 0, ..., f (n-1) *)
Definition largest (n : Z) (f : Z -> R) (M : R) : Prop := (exists j, (0 <= j < n)%Z /\ M = f j) /\ forall j, (0 <= j < n)%Z -> f j <= M.
Definition smallest (n : Z) (f : Z -> R) (M : R) : Prop := (exists j, (0 <= j < n)%Z /\ M = f j) /\ forall j, (0 <= j < n)%Z -> M <= f j.

(** the stored geometry of surface jF samples the functions Rf and Zf of (theta, phi) *)
Definition sampled (s : sizes) (g : full_geo) (sqrtSF : Z -> R) (jF : Z) (Rf Zf : R -> R -> R) : Prop :=
  forall k l, (0 <= k < sz_nZeta s)%Z -> (0 <= l < sz_nThetaEff s)%Z ->
    let i := ((jF * sz_nZeta s + k) * sz_nThetaEff s + l)%Z in
    r_e g i + sqrtSF jF * r_o g i = Rf (theta_pt s l) (phi_pt s k) /\
    z_e g i + sqrtSF jF * z_o g i = Zf (theta_pt s l) (phi_pt s k).
Definition periodic (nfp : Z) (f : R -> R -> R) : Prop :=
  forall t p, f (t + 2 * PI) p = f t p /\ f t (p + 2 * PI / IZR nfp) = f t p.
Definition stellarator_symmetric (Rf Zf : R -> R -> R) : Prop :=
  forall t p, Rf (- t) (- p) = Rf t p /\ Zf (- t) (- p) = - Zf t p.
