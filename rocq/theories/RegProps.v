(** C85: the regularised integrals of the vacuum solver. Division in the model
    and in the statements is that of the reals; where two of the points named
    coincide the statements say nothing about the machine. *)
From Coq Require Import ZArith Reals Bool Lia Lra.
From Verif Require Import Base SumLemmas SizesModel FourierModel DftTables VacTables SurfModel SurfSpec SurfFinal
  RegModel RegSpec RegFinal.
Open Scope R_scope.

(** With toroidal grid points: the stored kernel at field point [kl] and source
    point [klp] is 2 pi / nfp times the potential of the normal dipoles at all
    field-period images of [klp], except the field point itself, minus the
    second-order expansion of the nearest one. *)
Theorem C85_kernel :
  forall lasym nfp mpol ntor ntheta nzeta mg ng s,
  make_sizes lasym nfp mpol ntor ntheta nzeta mg ng = Some s ->
  forall b0 ztMin ztMax, (0 <= ztMin <= ztMax)%Z -> (ztMax <= sz_nZnT s)%Z ->
  (sz_nThetaEven s < 2 ^ 31)%Z -> (sz_nZeta s < 2 ^ 31)%Z ->
  forall X sg g bDotN st klp kl,
  let F := boundary lasym nfp mpol ntor X in
  let t kl := 2 * PI * IZR (kl / sz_nZeta s) / IZR (sz_nThetaEven s) in
  let p kl := 2 * PI * IZR (kl mod sz_nZeta s) / (IZR nfp * IZR (sz_nZeta s)) in
  let r := reg_update s ztMin ztMax (update s ztMin ztMax true (vtab s b0) X sg g) bDotN st in
  let TN := (sz_nThetaEven s * sz_nZeta s)%Z in
  sz_nZeta s <> 1%Z -> (ztMin <= klp < ztMax)%Z -> (0 <= kl < TN)%Z ->
  dot (F (t klp) (p klp)) (e_R (p klp)) <> 0 ->
  rg_greenp r ((klp - ztMin) * TN + kl)%Z =
  2 * PI / IZR nfp *
    (zsum 0 nfp (fun q => if ((q =? 0)%Z && (kl =? klp)%Z)%bool then 0 else
       dipole (IZR sg) F (t kl) (p kl) (t klp) (p klp + 2 * PI / IZR nfp * IZR q))
     - (if (kl =? klp)%Z then 0 else
       near_dipole (IZR sg) F (IZR nfp) (t klp) (p klp) (hat (t kl - t klp)) (hat (IZR nfp * (p kl - p klp))))).
Proof. exact kernel_3d_sizes. Qed.
Print Assumptions C85_kernel.

(** The stored source at [kl] is the same construction for point charges,
    summed over the source points of the thread with strength B.N and the
    integration weight. *)
Theorem C85_source :
  forall lasym nfp mpol ntor ntheta nzeta mg ng s,
  make_sizes lasym nfp mpol ntor ntheta nzeta mg ng = Some s ->
  forall b0 ztMin ztMax, (0 <= ztMin <= ztMax)%Z -> (ztMax <= sz_nZnT s)%Z ->
  (sz_nThetaEven s < 2 ^ 31)%Z -> (sz_nZeta s < 2 ^ 31)%Z ->
  forall X sg g bDotN st kl,
  let F := boundary lasym nfp mpol ntor X in
  let t kl := 2 * PI * IZR (kl / sz_nZeta s) / IZR (sz_nThetaEven s) in
  let p kl := 2 * PI * IZR (kl mod sz_nZeta s) / (IZR nfp * IZR (sz_nZeta s)) in
  let r := reg_update s ztMin ztMax (update s ztMin ztMax true (vtab s b0) X sg g) bDotN st in
  let TN := (sz_nThetaEven s * sz_nZeta s)%Z in
  sz_nZeta s <> 1%Z -> (0 <= kl < TN)%Z ->
  (forall klp, (ztMin <= klp < ztMax)%Z -> dot (F (t klp) (p klp)) (e_R (p klp)) <> 0) ->
  rg_gstore r kl =
  zsum ztMin ztMax (fun klp => bDotN (klp - ztMin)%Z * sz_wInt s (klp / sz_nZeta s) * (2 * PI / IZR nfp *
    (zsum 0 nfp (fun q => if ((q =? 0)%Z && (kl =? klp)%Z)%bool then 0 else
       charge F (t kl) (p kl) (t klp) (p klp + 2 * PI / IZR nfp * IZR q))
     - (if (kl =? klp)%Z then 0 else
       near_charge F (IZR nfp) (t klp) (p klp) (hat (t kl - t klp)) (hat (IZR nfp * (p kl - p klp))))))).
Proof. exact source_3d_sizes. Qed.
Print Assumptions C85_source.

(** Without toroidal grid points the sum runs over 64 images around the torus,
    each with its own expansion. *)
Theorem C85_axisymmetric_kernel :
  forall lasym nfp mpol ntor ntheta nzeta mg ng s,
  make_sizes lasym nfp mpol ntor ntheta nzeta mg ng = Some s ->
  forall b0 ztMin ztMax, (0 <= ztMin <= ztMax)%Z -> (ztMax <= sz_nZnT s)%Z -> (sz_nThetaEven s < 2 ^ 31)%Z ->
  forall X sg g bDotN st klp kl,
  let F := boundary lasym nfp mpol ntor X in
  let t kl := 2 * PI * IZR (kl / sz_nZeta s) / IZR (sz_nThetaEven s) in
  let p kl := 2 * PI * IZR (kl mod sz_nZeta s) / (IZR nfp * IZR (sz_nZeta s)) in
  let r := reg_update s ztMin ztMax (update s ztMin ztMax true (vtab s b0) X sg g) bDotN st in
  let TN := (sz_nThetaEven s * sz_nZeta s)%Z in
  sz_nZeta s = 1%Z -> (ztMin <= klp < ztMax)%Z -> (0 <= kl < TN)%Z ->
  dot (F (t klp) (p klp)) (e_R (p klp)) <> 0 ->
  rg_greenp r ((klp - ztMin) * TN + kl)%Z =
  2 * PI / 64 *
    zsum 0 64 (fun q => if ((q =? 0)%Z && (kl =? klp)%Z)%bool then 0 else
      dipole (IZR sg) F (t kl) (p kl) (t klp) (p klp + 2 * PI / 64 * IZR q)
      - near_dipole (IZR sg) F (IZR nfp) (t klp) (p klp) (hat (t kl - t klp)) (hat (2 * PI / 64 * IZR q))).
Proof. exact kernel_axi_sizes. Qed.
Print Assumptions C85_axisymmetric_kernel.

Theorem C85_axisymmetric_source :
  forall lasym nfp mpol ntor ntheta nzeta mg ng s,
  make_sizes lasym nfp mpol ntor ntheta nzeta mg ng = Some s ->
  forall b0 ztMin ztMax, (0 <= ztMin <= ztMax)%Z -> (ztMax <= sz_nZnT s)%Z -> (sz_nThetaEven s < 2 ^ 31)%Z ->
  forall X sg g bDotN st kl,
  let F := boundary lasym nfp mpol ntor X in
  let t kl := 2 * PI * IZR (kl / sz_nZeta s) / IZR (sz_nThetaEven s) in
  let p kl := 2 * PI * IZR (kl mod sz_nZeta s) / (IZR nfp * IZR (sz_nZeta s)) in
  let r := reg_update s ztMin ztMax (update s ztMin ztMax true (vtab s b0) X sg g) bDotN st in
  let TN := (sz_nThetaEven s * sz_nZeta s)%Z in
  sz_nZeta s = 1%Z -> (0 <= kl < TN)%Z ->
  (forall klp, (ztMin <= klp < ztMax)%Z -> dot (F (t klp) (p klp)) (e_R (p klp)) <> 0) ->
  rg_gstore r kl =
  zsum ztMin ztMax (fun klp => bDotN (klp - ztMin)%Z * sz_wInt s (klp / sz_nZeta s) * (2 * PI / 64 *
    zsum 0 64 (fun q => if ((q =? 0)%Z && (kl =? klp)%Z)%bool then 0 else
      charge F (t kl) (p kl) (t klp) (p klp + 2 * PI / 64 * IZR q)
      - near_charge F (IZR nfp) (t klp) (p klp) (hat (t kl - t klp)) (hat (2 * PI / 64 * IZR q))))).
Proof. exact source_axi_sizes. Qed.
Print Assumptions C85_axisymmetric_source.

(** A circular torus with five field periods, with and without toroidal grid
    points: the major radius vanishes nowhere. *)
Example C85_case :
  option_map sz_nZeta (make_sizes false 5 2 0 0 4 0 0) = Some 4%Z /\
  option_map sz_nZnT (make_sizes false 5 2 0 0 4 0 0) = Some 24%Z /\
  option_map sz_nZeta (make_sizes false 5 2 0 0 1 0 0) = Some 1%Z /\
  forall t p, dot (boundary false 5 2 0 torus t p) (e_R p) <> 0.
Proof. repeat split. intros t p. apply torus_R. Qed.
