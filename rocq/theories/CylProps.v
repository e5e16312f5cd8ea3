(** Property theorems C107 and C108: the radial covariant field component. *)
From Coq Require Import ZArith List Bool Reals Lia Lra.
From Verif Require Import Base SumLemmas Num KernelModel SizesModel FourierModel FourierSpec DftModel DftTables SurfSpec
  NyqModel NyqProofs NyqFinal NyqCases CylModel CylProofs.
Import ListNotations.
Open Scope R_scope.
Local Notation tables s b0 :=
  (computeFourierBasis FastPoloidal (sz_nfp s) (sz_nZeta s) (sz_nThetaEven s) (sz_nThetaReduced s) (sz_mnyq2 s) (sz_nnyq2 s) b0).
Local Notation xm_ s := (fst (nyq_modes s)).
Local Notation xn_ s := (snd (nyq_modes s)).

(** C107, as claimed: a radial component linear in s on the half grid is reproduced
    on every surface of the full grid, axis and edge included.  [_partial]: proved
    for at least four surfaces; false for three, which the input check accepts. *)
Theorem C107_linear_partial ns nZnT bs a b kl : (4 <= ns)%Z -> (0 <= kl < nZnT)%Z ->
  (forall jH, (0 <= jH < ns - 1)%Z -> bs (jH * nZnT + kl)%Z = a + b * (IZR jH + 1 / 2)) ->
  forall jF, (0 <= jF < ns)%Z -> bsubs_full ns nZnT bs (jF * nZnT + kl)%Z = a + b * IZR jF.
Proof.
  intros Hn Hk H jF Hj. unfold bsubs_full. rewrite extra_at by assumption.
  assert (I : forall j, (1 <= j < ns - 1)%Z -> bsubs_interior ns nZnT bs (j * nZnT + kl)%Z = a + b * IZR j).
  { intros j Hj'. rewrite interior_at by assumption. rewrite !H by lia. rewrite minus_IZR. field. }
  destruct (Z.eqb_spec jF 0) as [-> | J0]; [rewrite !I by lia; ring|].
  destruct (Z.eqb_spec jF (ns - 1)) as [-> | J1]; [rewrite !I by lia; rewrite !minus_IZR; ring|].
  apply I; lia.
Qed.
Print Assumptions C107_linear_partial.
(** A constant component 1 on three surfaces becomes 2, 1, 0. *)
Theorem C107_refuted : exists bs, (forall i, bs i = 1) /\
  bsubs_full 3 1 bs 0%Z = 2 /\ bsubs_full 3 1 bs 1%Z = 1 /\ bsubs_full 3 1 bs 2%Z = 0.
Proof.
  exists (fun _ => 1). split; [reflexivity|].
  unfold bsubs_full, extrapolate_bsubs, bsubs_interior. repeat split; cbv -[Rplus Rminus Rmult Rdiv IZR]; field.
Qed.
Print Assumptions C107_refuted.
(** On the interior surfaces the full-grid coefficients of the output are the
    averages of the neighbouring half-grid coefficients, of either parity, for
    every field; half-grid surface j is stored in column j + 1. *)
Theorem C107_spectrum lasym nfp mpol ntor ntheta nzeta mg ng s b0 ns bs m n j :
  make_sizes lasym nfp mpol ntor ntheta nzeta mg ng = Some s -> (3 <= ns)%Z ->
  valid_mode (sz_mnyq s + 1) (sz_nnyq s) m n -> (1 <= j < ns - 1)%Z ->
  let full := bsubs_full ns (sz_nZnT s) bs in
  let mn := mode_pos (sz_nnyq s) m n in
  let smns := bsubsmns s (tables s b0) (xm_ s) (xn_ s) ns bs in
  let smnc := bsubsmnc s (tables s b0) (xm_ s) (xn_ s) ns bs in
  bsubsmns_full s (tables s b0) (xm_ s) (xn_ s) ns full mn j = 1 / 2 * (smns mn (j + 1)%Z + smns mn j) /\
  bsubsmnc_full s (tables s b0) (xm_ s) (xn_ s) ns full mn j = 1 / 2 * (smnc mn (j + 1)%Z + smnc mn j).
Proof.
  intros HS Hn V Hj full mn smns smnc.
  assert (OK := make_sizes_ok _ _ _ _ _ _ _ _ _ HS). assert (NY := make_sizes_nyq_ok _ _ _ _ _ _ _ _ _ HS).
  assert (A : forall kl, (0 <= kl < sz_nZnT s)%Z -> full (j * sz_nZnT s + kl)%Z = (bs (j * sz_nZnT s + kl)%Z + bs ((j - 1) * sz_nZnT s + kl)%Z) / 2).
  { intros kl Hk. unfold full, bsubs_full. rewrite extra_mid by assumption. apply interior_at; assumption. }
  split.
  - exact (spectrum_avg s OK NY b0 false ns full bs m n j V Hj A).
  - exact (spectrum_avg s OK NY b0 true ns full bs m n j V Hj A).
Qed.
Print Assumptions C107_spectrum.
Example C107_modes : exists s, make_sizes false 5 4 2 0 0 0 0 = Some s /\ valid_mode (sz_mnyq s + 1) (sz_nnyq s) 3 (-2).
Proof. eexists. split; [reflexivity|]. unfold valid_mode. cbn. lia. Qed.

(** The surfaces at [si] and [si + ds]; the geometry between them, with even and
    odd harmonics linear in s, the odd ones times the root of s. *)
Definition between (si ds e_i e_o o_i o_o x : R) : R :=
  (e_i + (e_o - e_i) * (x - si) / ds) + sqrt x * (o_i + (o_o - o_i) * (x - si) / ds).

(** C108: at the midpoint the computed radial derivatives are the derivatives of
    that geometry, and the toroidal derivatives are its values. *)
Theorem C108_geometry (c : @kcfg num_R) ns nZnT sqrtSH g jac si jH kl :
  (0 <= jH < ns - 1)%Z -> (0 <= kl < nZnT)%Z ->
  let ds := kdeltaS c in
  let sH := si + ds / 2 in
  let i := g (jH * nZnT + kl)%Z in
  let o := g ((jH + 1) * nZnT + kl)%Z in
  0 <= si -> 0 < ds -> sqrtSH jH = sqrt sH ->
  jac (jH * nZnT + kl)%Z = jac_point c (sqrtSH jH) i o ->
  let m := remaining_metric ns nZnT sqrtSH g jac (jH * nZnT + kl)%Z in
  derivable_pt_lim (between si ds (r1e i) (r1e o) (r1o i) (r1o o)) sH (rs12 m) /\
  derivable_pt_lim (between si ds (z1e i) (z1e o) (z1o i) (z1o o)) sH (zs12 m) /\
  rv12 m = between si ds (rve i) (rve o) (rvo i) (rvo o) sH /\
  zv12 m = between si ds (zve i) (zve o) (zvo i) (zvo o) sH.
Proof.
  intros Hj Hk ds sH i o Hs Hd HS HJ m.
  assert (PS : 0 < sH) by (unfold sH; lra). assert (RS : sqrt sH <> 0) by (apply Rgt_not_eq; apply sqrt_lt_R0; exact PS).
  unfold m. rewrite rm_at by assumption. fold i o. rewrite HJ, HS. unfold metric_point, jac_point. cbn [rs12 zs12 rv12 zv12 rs zs].
  repeat split.
  - exact (root_profile (r1e i) (r1e o) (r1o i) (r1o o) si ds Hs Hd).
  - exact (root_profile (z1e i) (z1e o) (z1o i) (z1o o) si ds Hs Hd).
  - unfold between. replace (sH - si) with (ds / 2) by (unfold sH; lra). field. lra.
  - unfold between. replace (sH - si) with (ds / 2) by (unfold sH; lra). field. lra.
Qed.
Print Assumptions C108_geometry.

(** With the tangent vectors e_s, e_u, e_v in (R, phi, Z) components and the
    cylindrical field of the output: the radial component is B . e_s, the
    field is tangential to the surface, and its contravariant components are
    recovered from it. *)
Theorem C108_field ns nZnT sqrtSH g (jac : Z -> @jacp num_R) (bsup : Z -> @vecp num_R) jH kl :
  (0 <= jH < ns - 1)%Z -> (0 <= kl < nZnT)%Z ->
  let x := (jH * nZnT + kl)%Z in
  let rm := remaining_metric ns nZnT sqrtSH g jac in
  let e_s := SurfSpec.mkVec (rs12 (rm x)) 0 (zs12 (rm x)) in
  let e_u := SurfSpec.mkVec (ru12 (jac x)) 0 (zu12 (jac x)) in
  let e_v := SurfSpec.mkVec (rv12 (rm x)) (r12 (jac x)) (zv12 (rm x)) in
  let B := SurfSpec.mkVec (b_r ns nZnT bsup jac rm x) (b_phi ns nZnT bsup jac x) (b_z ns nZnT bsup jac rm x) in
  bsubs_half ns nZnT bsup rm x = dot B e_s /\
  dot B (cross e_u e_v) = 0 /\
  dot B (cross e_v e_s) = (vu (bsup x) : R) * dot e_s (cross e_u e_v) /\
  dot B (cross e_s e_u) = (vv (bsup x) : R) * dot e_s (cross e_u e_v).
Proof.
  intros Hj Hk x rm e_s e_u e_v B. unfold B, e_s, e_u, e_v, b_r, b_phi, b_z, bsubs_half. unfold x.
  rewrite !half_array_at by assumption. unfold rm. rewrite !rm_at by assumption.
  unfold metric_point, dot, cross. cbn [rs12 zs12 rv12 zv12 gsu gsv vx vy vz]. repeat split; ring.
Qed.
Print Assumptions C108_field.
(** A case: a torus R = 3 + sqrt(s) cos(u), Z = sqrt(s) sin(u) on three surfaces,
    at the outboard point: at s = 1/4 the derivative of R is 1. *)
Theorem C108_case :
  let c := @mkKcfg num_R 3 false false false 1 1 2 0 1 (fun _ => 1) (1 / 2) (1 / 4) 1 (-1) 0 0 0 0 0 in
  let gp := @mkGeo num_R 3 1 0 0 0 0 0 1 0 0 0 0 in
  let sq := fun jH => sqrt (1 / 4 + IZR jH / 2) in
  let jac := fun x => jac_point c (sq x) gp gp in
  let m := remaining_metric 3 1 sq (fun _ => gp) jac (0 * 1 + 0)%Z in
  derivable_pt_lim (between 0 (1 / 2) 3 3 1 1) (0 + 1 / 2 / 2) (rs12 m) /\ rs12 m = 1.
Proof.
  intros c gp sq jac m. split.
  - apply (C108_geometry c 3 1 sq (fun _ => gp) jac 0 0 0); try lia; try (cbn; lra).
    unfold sq. cbn. f_equal. field.
    reflexivity.
  - unfold m. rewrite rm_at by lia. unfold metric_point, jac, jac_point, sq. cbn [rs12 rs r1e r1o gp kdeltaS c].
    replace (1 / 4 + IZR 0 / 2) with (1 / 2 * (1 / 2)) by (cbn; field). rewrite sqrt_square by lra. unfold num_R, nadd, nsub, nmul, ndiv. cbn. field.
Qed.
Print Assumptions C108_case.
