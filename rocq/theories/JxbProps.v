(** Property theorems C97 to C100: the current density of the jxbout output. *)
From Coq Require Import ZArith List Bool Reals Lia Lra.
From Verif Require Import Base BaseLemmas SumLemmas SizesModel FourierModel DftModel DftSpec DftTables DftFold DftProofs
  BsubModel BsubSpec BsubProps FiltModel FiltSpec FiltProofs FiltProps SurfSpec JxbModel JxbSpec JxbProofs JxbFinal JxbMain JxbPerp JxbCases.
Open Scope R_scope.
Local Notation surface := FiltSpec.surface.
Local Notation tables s b0 :=
  (computeFourierBasis FastPoloidal (sz_nfp s) (sz_nZeta s) (sz_nThetaEven s) (sz_nThetaReduced s) (sz_mnyq2 s) (sz_nnyq2 s) b0).

(** C97: Ampere's law for the surface averages.  [b] is the radial covariant field;
    its angular derivatives come from the filter ([b0]: arbitrary old contents of
    its tables), the two angular components are arbitrary. *)
Theorem C97_ampere lasym nfp mpol ntor ntheta nzeta mg ng s b0 ns deltaS d b j :
  make_sizes lasym nfp mpol ntor ntheta nzeta mg ng = Some s -> deltaS <> 0 -> (1 <= j < ns - 1)%Z ->
  x_bsubsu d = deriv_theta_s s (tables s b0) ns b -> x_bsubsv d = deriv_phi_s s (tables s b0) ns b ->
  grid_avg s (surface s (o_izeta s ns deltaS d) j) =
    (grid_avg s (surface s (x_bsubu d) j) - grid_avg s (surface s (x_bsubu d) (j - 1))) / (MU_0 * deltaS) /\
  grid_avg s (surface s (o_itheta s ns deltaS d) j) =
    - (grid_avg s (surface s (x_bsubv d) j) - grid_avg s (surface s (x_bsubv d) (j - 1))) / (MU_0 * deltaS).
Proof.
  intros HS HD Hj EU EV. destruct (make_sizes_nyq _ _ _ _ _ _ _ _ _ HS) as [N1 N2].
  assert (OK := make_sizes_ok _ _ _ _ _ _ _ _ _ HS).
  destruct (avg_ds s OK N1 N2 b0 ns b j ltac:(lia)) as [A B].
  split; [apply (izeta_avg s OK); auto|apply (itheta_avg s OK); auto]; [rewrite EU; exact A|rewrite EV; exact B].
Qed.
Print Assumptions C97_ampere.
(** Summed over the surfaces: the net currents between the innermost and the
    outermost half-grid surface are the differences of the averaged components. *)
Theorem C97_enclosed lasym nfp mpol ntor ntheta nzeta mg ng s b0 ns deltaS d b :
  make_sizes lasym nfp mpol ntor ntheta nzeta mg ng = Some s -> deltaS <> 0 -> (2 <= ns)%Z ->
  x_bsubsu d = deriv_theta_s s (tables s b0) ns b -> x_bsubsv d = deriv_phi_s s (tables s b0) ns b ->
  MU_0 * zsum 1 (ns - 1) (fun j => deltaS * grid_avg s (surface s (o_izeta s ns deltaS d) j)) =
    grid_avg s (surface s (x_bsubu d) (ns - 2)) - grid_avg s (surface s (x_bsubu d) 0) /\
  MU_0 * zsum 1 (ns - 1) (fun j => deltaS * grid_avg s (surface s (o_itheta s ns deltaS d) j)) =
    - (grid_avg s (surface s (x_bsubv d) (ns - 2)) - grid_avg s (surface s (x_bsubv d) 0)).
Proof.
  intros HS HD Hn EU EV. pose proof mu_pos as MP. rewrite <- !zsum_scale. split.
  - rewrite <- (tele ns (fun j => grid_avg s (surface s (x_bsubu d) j)) Hn). apply zsum_ext. intros j Hj.
    rewrite (proj1 (C97_ampere _ _ _ _ _ _ _ _ s b0 ns deltaS d b j HS HD Hj EU EV)). field. split; (exact HD || lra).
  - rewrite <- (tele ns (fun j => grid_avg s (surface s (x_bsubv d) j)) Hn).
    match goal with |- _ = - ?z => replace (- z) with ((-1) * z) by ring end. rewrite <- zsum_scale. apply zsum_ext. intros j Hj.
    rewrite (proj2 (C97_ampere _ _ _ _ _ _ _ _ s b0 ns deltaS d b j HS HD Hj EU EV)). field. split; (exact HD || lra).
Qed.
Print Assumptions C97_enclosed.
(** With the field that the output really uses (adjusted on the half grid, then
    filtered), the averaged poloidal current density is the radial derivative of
    the poloidal current function of the force balance. *)
Theorem C97_poloidal lasym nfp mpol ntor ntheta nzeta mg ng s b0 b1 ns deltaS d b bsubvF bsubv bvcoH j :
  make_sizes lasym nfp mpol ntor ntheta nzeta mg ng = Some s -> deltaS <> 0 -> (1 <= j < ns - 1)%Z ->
  x_bsubsu d = deriv_theta_s s (tables s b0) ns b -> x_bsubsv d = deriv_phi_s s (tables s b0) ns b ->
  x_bsubv d = filterU s (tables s b1) (ns - 1) (outputBSubV s ns bsubvF bsubv bvcoH) ->
  grid_avg s (surface s (o_itheta s ns deltaS d) j) = - (bvcoH j - bvcoH (j - 1)%Z) / (MU_0 * deltaS).
Proof.
  intros HS HD Hj EU EV EB. assert (OK := make_sizes_ok _ _ _ _ _ _ _ _ _ HS).
  rewrite (proj2 (C97_ampere _ _ _ _ _ _ _ _ s b0 ns deltaS d b j HS HD Hj EU EV)), EB.
  rewrite !(C95_average _ _ _ _ _ _ _ _ s b1 (ns - 1) _ _ HS) by lia.
  destruct (C94_bsubv _ _ _ _ _ _ _ _ s ns bsubvF bsubv bvcoH HS ltac:(lia)) as [A _].
  assert (E : forall i, (0 <= i < ns - 1)%Z -> grid_avg s (surface s (outputBSubV s ns bsubvF bsubv bvcoH) i) = bvcoH i).
  { intros i Hi. rewrite <- (A i Hi), grid_average. unfold average. apply zsum_ext. intros k _. apply zsum_ext. intros l _.
    rewrite (surf_flat s OK). unfold row. f_equal. }
  rewrite !E by lia. reflexivity.
Qed.
Print Assumptions C97_poloidal.

(** C98: the averages are consistent with each other.  [sign]: all values of the
    Jacobian next to the surface have the assumed sign and |B|^2 is positive. *)
Theorem C98_cauchy_schwarz lasym nfp mpol ntor ntheta nzeta mg ng s ns deltaS d j :
  make_sizes lasym nfp mpol ntor ntheta nzeta mg ng = Some s -> (1 <= j < ns - 1)%Z ->
  x_sign_of_jacobian d = 1 \/ x_sign_of_jacobian d = -1 -> 0 < x_dVdsH d j + x_dVdsH d (j - 1)%Z ->
  (forall i kl, (i = j \/ i = j - 1)%Z -> (0 <= kl < sz_nZnT s)%Z ->
     0 < x_sign_of_jacobian d * x_gsqrt d (i * sz_nZnT s + kl)%Z /\ x_presH d i < x_total_pressure d (i * sz_nZnT s + kl)%Z) ->
  o_jdotb s ns deltaS d j * o_jdotb s ns deltaS d j <= o_bdotb s ns d j * o_jpar2 s ns deltaS d j /\
  0 < o_bdotb s ns d j /\ 0 <= o_jpar2 s ns deltaS d j.
Proof.
  intros HS Hj SG DV H. assert (OK := make_sizes_ok _ _ _ _ _ _ _ _ _ HS).
  exact (cs_ineq s OK ns deltaS d j Hj SG DV (q_from s d j H)).
Qed.
Print Assumptions C98_cauchy_schwarz.
Theorem C98_bdotb lasym nfp mpol ntor ntheta nzeta mg ng s ns d j lo hi :
  make_sizes lasym nfp mpol ntor ntheta nzeta mg ng = Some s -> (1 <= j < ns - 1)%Z ->
  0 < x_dVdsH d j + x_dVdsH d (j - 1)%Z ->
  (forall i, (i = j \/ i = j - 1)%Z -> x_dVdsH d i = x_sign_of_jacobian d * grid_avg s (surface s (x_gsqrt d) i)) ->
  (forall i kl, (i = j \/ i = j - 1)%Z -> (0 <= kl < sz_nZnT s)%Z ->
     0 < x_sign_of_jacobian d * x_gsqrt d (i * sz_nZnT s + kl)%Z /\
     lo <= 2 * (x_total_pressure d (i * sz_nZnT s + kl)%Z - x_presH d i) <= hi) ->
  lo <= o_bdotb s ns d j <= hi.
Proof.
  intros HS Hj DV HV H. assert (OK := make_sizes_ok _ _ _ _ _ _ _ _ _ HS).
  apply (bdotb_range s OK ns d j Hj DV lo hi); [|exact H]. intros i Hi. rewrite (HV i Hi). unfold sgn. f_equal.
  rewrite <- (accum_sum s OK (fun kl w => x_gsqrt d (i * sz_nZnT s + kl)%Z * w)).
  rewrite (accum_grid s OK (fun kl => x_gsqrt d (i * sz_nZnT s + kl)%Z)). apply grid_ext. intros. apply (surf_flat s OK).
Qed.
Print Assumptions C98_bdotb.
Theorem C98_jperp2 lasym nfp mpol ntor ntheta nzeta mg ng s ns deltaS d j :
  make_sizes lasym nfp mpol ntor ntheta nzeta mg ng = Some s -> (1 <= j < ns - 1)%Z ->
  0 < x_dVdsH d j + x_dVdsH d (j - 1)%Z ->
  (forall i kl, (i = j \/ i = j - 1)%Z -> (0 <= kl < sz_nZnT s)%Z -> let p := (i * sz_nZnT s + kl)%Z in
     0 < x_sign_of_jacobian d * x_gsqrt d p /\ 0 <= x_guu d p /\ 0 <= x_gvv d p /\ x_guv d p * x_guv d p <= x_guu d p * x_gvv d p) ->
  0 <= o_jperp2 s ns deltaS d j.
Proof. intros HS Hj DV H. exact (jperp2_nonneg s (make_sizes_ok _ _ _ _ _ _ _ _ _ HS) ns deltaS d j Hj DV H). Qed.
Print Assumptions C98_jperp2.
Example C98_case : (1 <= 1 < 3 - 1)%Z /\ x_sign_of_jacobian jd = -1 /\ 0 < x_dVdsH jd 1 + x_dVdsH jd 0 /\
  (forall p, 0 < x_sign_of_jacobian jd * x_gsqrt jd p /\ 0 <= x_guu jd p /\ 0 <= x_gvv jd p /\ x_guv jd p * x_guv jd p <= x_guu jd p * x_gvv jd p) /\
  (forall i kl, (0 <= kl < sz_nZnT js)%Z -> x_presH jd i < x_total_pressure jd (i * sz_nZnT js + kl)%Z) /\
  x_dVdsH jd 1 = x_sign_of_jacobian jd * grid_avg js (surface js (x_gsqrt jd) 1).
Proof.
  cbn [x_sign_of_jacobian x_dVdsH x_gsqrt x_guu x_gvv x_guv x_presH x_total_pressure jd].
  split; [lia|]. split; [reflexivity|]. split; [lra|]. split; [intros; lra|]. split.
  - intros i kl H. rewrite jd_row by exact H. lra.
  - rewrite (grid_ext js _ (fun _ _ => -1)) by (intros; reflexivity). rewrite (grid_const js js_ok). lra.
Qed.

(** C99, as claimed: jperp2 is the flux surface average of the square of the
    current density across the field that balances the pressure gradient.
    [_partial]: proved where one of the covariant components or the metric element
    between the angles vanishes; false in general, see below. *)
Theorem C99_jperp2_partial lasym nfp mpol ntor ntheta nzeta mg ng s ns deltaS d j L :
  make_sizes lasym nfp mpol ntor ntheta nzeta mg ng = Some s -> (1 <= j < ns - 1)%Z -> deltaS <> 0 ->
  x_dVdsH d j + x_dVdsH d (j - 1)%Z <> 0 -> describes s d j L ->
  (forall k l, (0 <= k < sz_nZeta s)%Z -> (0 <= l < sz_nThetaEff s)%Z -> let f := ls_F L k l in let B := ls_B L k l in
     jac f <> 0 /\ dot B B <> 0 /\ dot B (eu f) * dot B (ev f) * dot (eu f) (ev f) = 0) ->
  o_jperp2 s ns deltaS d j =
  fsa s (x_sign_of_jacobian d) ((x_dVdsH d j + x_dVdsH d (j - 1)%Z) / 2) (ls_F L) (fun k l =>
    let J := j_perp (ls_F L k l) (ls_B L k l) ((x_presH d j - x_presH d (j - 1)%Z) / (MU_0 * deltaS)) in dot J J).
Proof.
  intros HS Hj HD DV HL NZ.
  rewrite (jperp2_value s (make_sizes_ok _ _ _ _ _ _ _ _ _ HS) ns deltaS d j Hj HD DV L HL) by (intros k l Hk Hl; destruct (NZ k l Hk Hl) as (A & B & _); auto).
  unfold fsa. f_equal. apply grid_ext. intros k l Hk Hl. destruct (NZ k l Hk Hl) as (_ & _ & E). cbv zeta in *. rewrite E. unfold dp. ring.
Qed.
Print Assumptions C99_jperp2_partial.
(** What it is in general. *)
Theorem C99_jperp2_value lasym nfp mpol ntor ntheta nzeta mg ng s ns deltaS d j L :
  make_sizes lasym nfp mpol ntor ntheta nzeta mg ng = Some s -> (1 <= j < ns - 1)%Z -> deltaS <> 0 ->
  x_dVdsH d j + x_dVdsH d (j - 1)%Z <> 0 -> describes s d j L ->
  (forall k l, (0 <= k < sz_nZeta s)%Z -> (0 <= l < sz_nThetaEff s)%Z ->
     jac (ls_F L k l) <> 0 /\ dot (ls_B L k l) (ls_B L k l) <> 0) ->
  let p := (x_presH d j - x_presH d (j - 1)%Z) / (MU_0 * deltaS) in
  o_jperp2 s ns deltaS d j =
  fsa s (x_sign_of_jacobian d) ((x_dVdsH d j + x_dVdsH d (j - 1)%Z) / 2) (ls_F L) (fun k l =>
    let f := ls_F L k l in let B := ls_B L k l in let J := j_perp f B p in
    dot J J + 4 * (dot B (eu f) * dot B (ev f) * dot (eu f) (ev f)) * (p / (jac f * dot B B)) * (p / (jac f * dot B B))).
Proof. intros HS Hj HD DV HL NZ. exact (jperp2_value s (make_sizes_ok _ _ _ _ _ _ _ _ _ HS) ns deltaS d j Hj HD DV L HL NZ). Qed.
Print Assumptions C99_jperp2_value.
(** False where the angular coordinate lines are not orthogonal. *)
Theorem C99_jperp2_refuted : exists s ns deltaS d j L,
  make_sizes false 1 2 0 0 0 0 0 = Some s /\ (1 <= j < ns - 1)%Z /\ deltaS <> 0 /\
  x_dVdsH d j + x_dVdsH d (j - 1)%Z <> 0 /\ describes s d j L /\
  (forall k l, jac (ls_F L k l) <> 0 /\ dot (ls_B L k l) (ls_B L k l) <> 0) /\
  o_jperp2 s ns deltaS d j <>
  fsa s (x_sign_of_jacobian d) ((x_dVdsH d j + x_dVdsH d (j - 1)%Z) / 2) (ls_F L) (fun k l =>
    let J := j_perp (ls_F L k l) (ls_B L k l) ((x_presH d j - x_presH d (j - 1)%Z) / (MU_0 * deltaS)) in dot J J).
Proof.
  exists js, 3%Z, (1 / 2), jd, 1%Z, jL. split; [exact js_make|]. split; [lia|]. split; [lra|]. split; [cbn; lra|].
  split; [exact jd_describes|]. split; [intros k l; split; [exact (proj1 jd_regular)|exact (proj2 jd_regular k l)]|exact jd_perp].
Qed.
Print Assumptions C99_jperp2_refuted.
(** The vector [j_perp] is what the statement says it is. *)
Theorem C99_j_perp f bu bv p : jac f <> 0 -> let B := field f bu bv in dot B B <> 0 ->
  let J := j_perp f B p in dot J B = 0 /\ cross J B = scale p (grad_s f).
Proof.
  intros HJ B HB J.
  assert (HN : dot B (grad_s f) = 0).
  { unfold B, grad_s, field, vplus, scale, dot, cross. cbn [vx vy vz]. ring. }
  unfold J, j_perp. set (N := grad_s f) in *. set (q := dot B B) in *. split.
  - unfold scale, dot, cross. cbn [vx vy vz]. ring.
  - assert (E : cross (scale (p / q) (cross B N)) B = scale (p / q) (vplus (scale q N) (scale (- dot B N) B))).
    { unfold q, scale, vplus, cross, dot. cbn [vx vy vz]. f_equal; ring. }
    rewrite E, HN. unfold scale, vplus. cbn [vx vy vz]. f_equal; field; exact HB.
Qed.
Print Assumptions C99_j_perp.
(** A state meeting the hypotheses of the partial theorem: orthogonal coordinates. *)
Example C99_case : let f := mkFrame (mkVec 0 0 (-1)) (mkVec 1 0 0) (mkVec 0 2 0) in let B := field f 1 1 in
  jac f = -2 /\ dot B B = 5 /\ dot B (eu f) * dot B (ev f) <> 0 /\ dot (eu f) (ev f) = 0.
Proof. cbv zeta. unfold field, jac, vplus, scale, dot, cross. cbn [es eu ev vx vy vz]. repeat split; lra. Qed.

(** C100, as claimed: the values at the axis and at the boundary continue the
    interior values linearly.  [_partial]: needs four surfaces. *)
Theorem C100_extrapolation_partial s ns deltaS d p q j : (4 <= ns)%Z -> (0 <= j < ns)%Z ->
  (forall o, o = o_pprim s ns deltaS d \/ o = o_jdotb s ns deltaS d \/ o = o_bdotb s ns d \/ o = o_bdotgradv ns d ->
    (forall i, (1 <= i < ns - 1)%Z -> o i = p + q * IZR i) -> o j = p + q * IZR j).
Proof.
  intros Hns Hj o Ho H.
  destruct Ho as [-> | [-> | [-> | ->]]]; unfold o_pprim, o_jdotb, o_bdotb, o_bdotgradv in *;
    (apply extrapolate_linear; [exact Hns| |exact Hj]); intros i Hi; rewrite <- (H i Hi); rewrite extrapolate_mid by exact Hi; reflexivity.
Qed.
Print Assumptions C100_extrapolation_partial.
Theorem C100_izeta_partial lasym nfp mpol ntor ntheta nzeta mg ng s ns deltaS d p q j k l :
  make_sizes lasym nfp mpol ntor ntheta nzeta mg ng = Some s -> (4 <= ns)%Z -> (0 <= j < ns)%Z ->
  (0 <= k < sz_nZeta s)%Z -> (0 <= l < sz_nThetaEff s)%Z ->
  (forall i, (1 <= i < ns - 1)%Z -> surface s (o_izeta s ns deltaS d) i k l = p + q * IZR i) ->
  surface s (o_izeta s ns deltaS d) j k l = p + q * IZR j.
Proof.
  intros HS Hns Hj Hk Hl H. assert (OK := make_sizes_ok _ _ _ _ _ _ _ _ _ HS). pose proof (kl_range s OK k l Hk Hl).
  rewrite (surf_flat s OK). unfold o_izeta. rewrite (extrapolateRows_at s) by (exact OK || lia).
  apply extrapolate_linear; [exact Hns| |exact Hj]. intros i Hi. rewrite <- (H i Hi), (surf_flat s OK). unfold o_izeta.
  rewrite (extrapolateRows_at s) by (exact OK || lia). rewrite extrapolate_mid by exact Hi. reflexivity.
Qed.
Print Assumptions C100_izeta_partial.
(** On three surfaces a state that is the same at every radius gets twice the
    interior value at the axis and zero at the boundary. *)
Theorem C100_extrapolation_refuted : exists d,
  (forall i j, x_dVdsH d i = x_dVdsH d j /\ x_phipH d i = x_phipH d j) /\
  o_bdotgradv 3 d 1 = -1 /\ o_bdotgradv 3 d 0 = -2 /\ o_bdotgradv 3 d 2 = 0.
Proof. exists ud. split; [intros; split; reflexivity|]. destruct ud_axis as (A & B & C). rewrite A, C. repeat split; lra || exact B. Qed.
Print Assumptions C100_extrapolation_refuted.
(** The covariant components of the output on the half grid: as computed, except on
    the outermost of the ns - 1 surfaces, which stays zero. *)
Theorem C100_half_grid_partial lasym nfp mpol ntor ntheta nzeta mg ng s ns d j k l :
  make_sizes lasym nfp mpol ntor ntheta nzeta mg ng = Some s -> (0 <= j < ns - 2)%Z ->
  (0 <= k < sz_nZeta s)%Z -> (0 <= l < sz_nThetaEff s)%Z ->
  surface s (o_bsubu3 s ns d true) j k l = surface s (x_bsubu d) j k l /\
  surface s (o_bsubv3 s ns d true) j k l = surface s (x_bsubv d) j k l.
Proof.
  intros HS Hj Hk Hl. assert (OK := make_sizes_ok _ _ _ _ _ _ _ _ _ HS). pose proof (kl_range s OK k l Hk Hl).
  rewrite !(surf_flat s OK). unfold o_bsubu3, o_bsubv3. rewrite !half_at by assumption. split; reflexivity.
Qed.
Print Assumptions C100_half_grid_partial.
Theorem C100_half_grid_refuted lasym nfp mpol ntor ntheta nzeta mg ng s ns d done_ k l :
  make_sizes lasym nfp mpol ntor ntheta nzeta mg ng = Some s ->
  (0 <= k < sz_nZeta s)%Z -> (0 <= l < sz_nThetaEff s)%Z ->
  surface s (o_bsubu3 s ns d done_) (ns - 2) k l = 0 /\ surface s (o_bsubv3 s ns d done_) (ns - 2) k l = 0 /\
  surface s (o_jsups3 s ns d done_) (ns - 2) k l = 0.
Proof.
  intros HS Hk Hl. assert (OK := make_sizes_ok _ _ _ _ _ _ _ _ _ HS). pose proof (kl_range s OK k l Hk Hl).
  rewrite !(surf_flat s OK). unfold o_bsubu3, o_bsubv3, o_jsups3. rewrite !half_last by assumption. repeat split; reflexivity.
Qed.
Print Assumptions C100_half_grid_refuted.
Example C100_case : o_bdotgradv 4 ud 1 = o_bdotgradv 4 ud 2 /\ x_bsubu ud 0 <> 0.
Proof.
  split; [|cbn; lra]. unfold o_bdotgradv. rewrite !extrapolate_mid, !profile_at by lia. reflexivity.
Qed.
