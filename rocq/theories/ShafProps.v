(** Property theorems C132: the Shafranov integrals of the output. *)
From Coq Require Import ZArith Reals.
From Verif Require Import Base SizesModel GeoModel ShafModel ShafSpec ShafProofs ShafCase ShafUniform.
Open Scope R_scope.

(** C132, units: with all lengths multiplied by L and all fields by t the dimensionless
    numbers are the same, and the radii are multiplied by L; fixed boundary and active
    vacuum field. *)
Theorem C132_units s ns g h sg ds d vac L t : 0 < L -> t <> 0 ->
  let g' := geo_units L g in let h' := half_units L t h in let d' := hand_units L t d in
  factor s ns g' h' d' vac = / (t * t * (L * L * L)) * factor s ns g h d vac /\
  r_lao s ns g' = L * r_lao s ns g /\ rshaf s ns h' sg d' = L * rshaf s ns h sg d /\
  scaling_ratio s ns g' h' d' vac = scaling_ratio s ns g h d vac /\
  f_lao s ns g' h' sg d' = f_lao s ns g h sg d /\ f_geo s ns h' sg d' = f_geo s ns h sg d /\
  smaleli s ns g' h' sg ds d' vac = smaleli s ns g h sg ds d vac /\
  betai s ns g' h' ds d' vac = betai s ns g h ds d vac /\
  musubi s ns g' h' sg ds d' vac = musubi s ns g h sg ds d vac /\
  lambda s ns g' h' sg ds d' vac = lambda s ns g h sg ds d vac /\
  s11 s ns g' h' sg d' vac = s11 s ns g h sg d vac /\
  s12 s ns g' h' d' vac = s12 s ns g h d vac /\
  s13 s ns g' h' d' vac = s13 s ns g h d vac /\
  s2 s ns g' h' sg d' vac = s2 s ns g h sg d vac /\
  s3 s ns g' h' d' vac = s3 s ns g h d vac /\
  betstr s ns g' h' sg ds = betstr s ns g h sg ds.
Proof. exact (fun HL Ht => units_all s ns g h sg ds d vac L t HL Ht). Qed.
Print Assumptions C132_units.

(** C132, relations: the three S1 belong to the same integrals, for the three major
    radii, and beta_i is beta_pol times l_i. *)
Theorem C132_relations s ns g h sg ds d vac : rshaf s ns h sg d <> 0 -> rcen d <> 0 -> r_lao s ns g <> 0 -> sumbpol s ns h sg ds <> 0 ->
  s12 s ns g h d vac = s11 s ns g h sg d vac + s2 s ns g h sg d vac * (1 - / f_geo s ns h sg d) /\
  s13 s ns g h d vac = s11 s ns g h sg d vac + s2 s ns g h sg d vac * (1 - / f_lao s ns g h sg d) /\
  betai s ns g h ds d vac = betapol s ns h sg ds * smaleli s ns g h sg ds d vac.
Proof. exact (relations s ns g h sg ds d vac). Qed.
Print Assumptions C132_relations.

(** C132, vacuum field: the poloidal field and the pressure difference of every grid
    point are made from the vacuum field at that point, although the two arrays have
    different orders. *)
Theorem C132_vacuum_order s ns g h d k l : (0 <= k < sz_nZeta s)%Z -> (0 <= l < sz_nThetaEff s)%Z ->
  let kl := (k * sz_nThetaEff s + l)%Z in let lk := (l * sz_nZeta s + k)%Z in
  bpol2vac s ns g h d true kl = 2 * vac_p d lk - vac_b_phi d lk * vac_b_phi d lk /\
  phat s ns g h d true kl = vac_p d lk - / 2 * (bSubVVac d / redge s ns g kl) * (bSubVVac d / redge s ns g kl).
Proof. exact (vacuum_order s ns g h d k l). Qed.
Print Assumptions C132_vacuum_order.

(** C132, values: with a uniform squared poloidal field b and pressure difference p at
    the edge, l_i is the volume average of the squared poloidal field over b, beta_i
    twice the average pressure over b, S2 is p/b times the ratio of the major radii and
    S1 + S2 - S3 (S3 in the output is half of Lao's) is 2 p/b. *)
Theorem C132_uniform s ns g h sg ds d vac b p :
  (forall kl, (0 <= kl < sz_nZnT s)%Z -> bpol2vac s ns g h d vac kl = b) -> b <> 0 ->
  volume_p s ns g <> 0 -> surf_area_p s ns g <> 0 ->
  (forall kl, (0 <= kl < sz_nZnT s)%Z -> phat s ns g h d vac kl = p) ->
  (forall kl, (0 <= kl < sz_nZnT s)%Z -> let i := ((ns - 1) * sz_nZnT s + kl)%Z in zuFull g i = zu_e g i + zu_o g i) ->
  0 <= fst (sums s ns g) /\ 0 <= snd (sums s ns g) -> cross_area_p s ns g <> 0 -> rshaf s ns h sg d <> 0 ->
  smaleli s ns g h sg ds d vac = sumbpol s ns h sg ds / volume_p s ns g / b /\
  betai s ns g h ds d vac = 2 * pavg s ns g h ds / b /\
  s2 s ns g h sg d vac = f_lao s ns g h sg d * p / b /\
  s11 s ns g h sg d vac + s2 s ns g h sg d vac - s3 s ns g h d vac = 2 * p / b.
Proof. exact (fun H1 H2 H3 H4 H5 H6 H7 H8 H9 => uniform s ns g h sg ds d vac b p H1 H2 H3 H4 H5 H6 H7 H8 H9). Qed.
Print Assumptions C132_uniform.
Theorem C132_uniform_case : (forall kl, (0 <= kl < sz_nZnT s0)%Z -> bpol2vac s0 3 g0 h0 d1 true kl = 9) /\
  (forall kl, (0 <= kl < sz_nZnT s0)%Z -> phat s0 3 g0 h0 d1 true kl = 9 / 2) /\
  0 < fst (sums s0 3 g0) /\ 0 < snd (sums s0 3 g0) /\ surf_area_p s0 3 g0 <> 0.
Proof. exact case_u. Qed.
Print Assumptions C132_uniform_case.

(** Case: R = 2, three surfaces, two poloidal points. *)
Theorem C132_case : rshaf s0 3 h0 (-1) d0 = 2 /\ rcen d0 <> 0 /\ r_lao s0 3 g0 = 1 /\ sumbpol s0 3 h0 (-1) 1 <> 0 /\
  bpol2vac s0 3 g0 h0 d0 true 1 = 11 /\ betapol s0 3 h0 (-1) 1 = / 2.
Proof. exact case_ok. Qed.
Print Assumptions C132_case.
