(** Property theorems C101 to C103: the Mercier stability criterion. *)
From Coq Require Import ZArith List Bool Reals Lia Lra.
From Verif Require Import Base BaseLemmas SumLemmas SizesModel DftSpec DftTables SurfSpec
  JxbModel JxbSpec JxbProofs JxbMain JxbCases MercModel MercSpec MercProofs MercFinal.
Open Scope R_scope.

(** C101: the criterion is the sum of its four terms ... *)
Theorem C101_sum s ns deltaS d y bdotk j : (1 <= j < ns - 1)%Z ->
  m_DMerc s ns deltaS d y bdotk j =
  m_Dshear ns deltaS d y j + m_Dcurr s ns deltaS d y bdotk j + m_Dwell s ns deltaS d y j + m_Dgeod s ns deltaS d y bdotk j.
Proof. intros Hj. exact (merc_sum s ns deltaS d y bdotk j Hj). Qed.
Print Assumptions C101_sum.
(** ... the shear term is a quarter of the square of the derivative of the
    rotational transform in the toroidal flux, so it never destabilises ... *)
Theorem C101_shear ns deltaS d y j : (1 <= j < ns - 1)%Z -> deltaS <> 0 ->
  x_sign_of_jacobian d * (x_phipH d j + x_phipH d (j - 1)%Z) <> 0 ->
  let dphi := 2 * PI * x_sign_of_jacobian d * ((x_phipH d j + x_phipH d (j - 1)%Z) / 2) * deltaS in
  m_Dshear ns deltaS d y j = / 4 * ((y_iotaH y j - y_iotaH y (j - 1)%Z) / dphi) ^ 2 /\ 0 <= m_Dshear ns deltaS d y j.
Proof.
  intros Hj HD HP dphi. pose proof PI_RGT_0 as PP.
  assert (E : phip_realF d j * deltaS = dphi). { unfold phip_realF, phip_realH, dphi. field. }
  assert (HF : phip_realF d j <> 0).
  { intros Z. apply HP. unfold phip_realF, phip_realH in Z. apply (Rmult_eq_reg_l PI); [|lra]. lra. }
  assert (V : m_Dshear ns deltaS d y j = / 4 * ((y_iotaH y j - y_iotaH y (j - 1)%Z) / dphi) ^ 2).
  { rewrite (shear_eq ns deltaS d y j Hj HF HD), <- E. field. split; assumption. }
  split; [exact V|]. rewrite V. apply Rmult_le_pos; [lra|]. simpl. rewrite Rmult_1_r. apply Rle_0_sqr.
Qed.
Print Assumptions C101_shear.
(** ... and the geodesic term never stabilises. *)
Theorem C101_geodesic lasym nfp mpol ntor ntheta nzeta mg ng s ns deltaS d y bdotk j :
  make_sizes lasym nfp mpol ntor ntheta nzeta mg ng = Some s -> (1 <= j < ns - 1)%Z ->
  x_phipH d j + x_phipH d (j - 1)%Z <> 0 ->
  (forall i kl, (i = j \/ i = j - 1)%Z -> (0 <= kl < sz_nZnT s)%Z ->
     0 < x_sign_of_jacobian d * x_gsqrt d (i * sz_nZnT s + kl)%Z /\ x_presH d i < x_total_pressure d (i * sz_nZnT s + kl)%Z) ->
  (forall kl es0, (0 <= kl < sz_nZnT s)%Z -> let f := surf_frame s deltaS y es0 j kl in
     dot (cross (eu f) (ev f)) (cross (eu f) (ev f)) <> 0) ->
  m_Dgeod s ns deltaS d y bdotk j <= 0 /\
  m_DMerc s ns deltaS d y bdotk j <= m_Dshear ns deltaS d y j + m_Dcurr s ns deltaS d y bdotk j + m_Dwell s ns deltaS d y j.
Proof.
  intros HS Hj HP HG HA. assert (OK := make_sizes_ok _ _ _ _ _ _ _ _ _ HS). pose proof PI_RGT_0 as PP.
  assert (SGN : x_sign_of_jacobian d <> 0).
  { intros E. destruct (HG j 0%Z (or_introl eq_refl) ltac:(pose proof (nZnT_pos s OK); lia)) as [A _]. rewrite E, Rmult_0_l in A. lra. }
  assert (G : m_Dgeod s ns deltaS d y bdotk j <= 0).
  { apply (geod_le s OK ns deltaS d y bdotk j Hj).
    - intros kl Hk. destruct (HG j kl (or_introl eq_refl) Hk) as [A _]. destruct (HG (j - 1)%Z kl (or_intror eq_refl) Hk) as [B _].
      unfold gsqrt_mean, outside, inside. lra.
    - unfold phip_realF, phip_realH. intros E. apply HP. apply (Rmult_eq_reg_l (PI * x_sign_of_jacobian d)); [lra|].
      apply Rmult_integral_contrapositive_currified; [lra|exact SGN].
    - intros kl Hk. destruct (HG j kl (or_introl eq_refl) Hk) as [_ A]. destruct (HG (j - 1)%Z kl (or_intror eq_refl) Hk) as [_ B].
      unfold b2i, b2. lra.
    - intros kl Hk E. apply (HA kl (mkVec 0 0 0) Hk). rewrite <- E.
      unfold area2, surf_frame, full_value, geo, s_full, dot, cross. cbn [eu ev vx vy vz]. ring. }
  split; [exact G|]. rewrite (merc_sum s ns deltaS d y bdotk j Hj). lra.
Qed.
Print Assumptions C101_geodesic.

(** C102: what has no direction does not depend on the direction of the field.
    [reverse d] is the state with B, its fluxes and their derivatives negated. *)
Theorem C102_reverse_jxb lasym nfp mpol ntor ntheta nzeta mg ng s ns deltaS d j :
  make_sizes lasym nfp mpol ntor ntheta nzeta mg ng = Some s ->
  o_jdotb s ns deltaS (reverse d) j = o_jdotb s ns deltaS d j /\ o_bdotb s ns (reverse d) j = o_bdotb s ns d j /\
  o_jpar2 s ns deltaS (reverse d) j = o_jpar2 s ns deltaS d j /\ o_jperp2 s ns deltaS (reverse d) j = o_jperp2 s ns deltaS d j /\
  o_avforce s ns deltaS (reverse d) j = o_avforce s ns deltaS d j /\ o_pprim s ns deltaS (reverse d) j = o_pprim s ns deltaS d j /\
  o_bdotgradv ns (reverse d) j = - o_bdotgradv ns d j.
Proof. intros HS. exact (jxb_reverse s (make_sizes_ok _ _ _ _ _ _ _ _ _ HS) ns deltaS d j). Qed.
Print Assumptions C102_reverse_jxb.
Theorem C102_reverse_mercier lasym nfp mpol ntor ntheta nzeta mg ng s ns deltaS d y j :
  make_sizes lasym nfp mpol ntor ntheta nzeta mg ng = Some s ->
  let k := o_bdotk s ns deltaS d in let d' := reverse d in let k' := o_bdotk s ns deltaS d' in
  m_Dshear ns deltaS d' y j = m_Dshear ns deltaS d y j /\ m_Dcurr s ns deltaS d' y k' j = m_Dcurr s ns deltaS d y k j /\
  m_Dwell s ns deltaS d' y j = m_Dwell s ns deltaS d y j /\ m_Dgeod s ns deltaS d' y k' j = m_Dgeod s ns deltaS d y k j /\
  m_DMerc s ns deltaS d' y k' j = m_DMerc s ns deltaS d y k j.
Proof.
  intros HS k d' k'. exact (merc_reverse s (make_sizes_ok _ _ _ _ _ _ _ _ _ HS) ns deltaS d y k k' (rev_bdotk_all s ns deltaS d) j).
Qed.
Print Assumptions C102_reverse_mercier.
Example C102_case : o_bdotgradv 3 (reverse ud) 1 = 1 /\ o_bdotgradv 3 ud 1 = -1.
Proof.
  destruct ud_axis as (_ & _ & A). split; [|exact A].
  rewrite (proj2 (proj2 (proj2 (proj2 (proj2 (proj2 (C102_reverse_jxb _ _ _ _ _ _ _ _ js 3 (1 / 2) ud 1 js_make))))))), A. ring.
Qed.

(** C103: the weight of the surface integrals is the inverse square of the gradient
    of the toroidal flux, [es0] being the tangent vector across the surface. *)
Theorem C103_weight s deltaS d y j kl es0 :
  let f := surf_frame s deltaS y es0 j kl in
  let dphi := 2 * PI * x_sign_of_jacobian d * ((x_phipH d j + x_phipH d (j - 1)%Z) / 2) in
  jac f = (x_gsqrt d (j * sz_nZnT s + kl)%Z + x_gsqrt d ((j - 1) * sz_nZnT s + kl)%Z) / 2 -> jac f <> 0 -> dphi <> 0 ->
  let G := scale dphi (grad_s f) in dot G G <> 0 /\ gpp s deltaS d y j kl = / dot G G.
Proof.
  intros f dphi HJ HN HP. assert (E : phip_realF d j = dphi) by (unfold phip_realF, phip_realH, dphi; field).
  pose proof (gpp_grad s deltaS d y j kl es0) as G. cbv zeta in G. rewrite E in G. exact (G HJ HN HP).
Qed.
Print Assumptions C103_weight.

(** C104, as claimed: the toroidal flux column of the Mercier table is the flux
    through the surface, the midpoint sum of its derivative on the half grid.
    [_partial]: proved where the derivative is the same at the axis and at the
    surface. *)
Definition flux_through (deltaS : R) (d : jxb_in) (j : Z) : R :=
  zsum 0 j (fun i => 2 * PI * x_sign_of_jacobian d * x_phipH d i * deltaS).
Theorem C104_flux_value ns deltaS d j : (1 <= j < ns - 1)%Z ->
  x_dVdsH d j / x_phipH d j + x_dVdsH d (j - 1)%Z / x_phipH d (j - 1)%Z <> 0 -> x_phipH d j <> 0 -> x_phipH d (j - 1)%Z <> 0 ->
  x_sign_of_jacobian d * x_sign_of_jacobian d = 1 ->
  m_toroidal_flux ns deltaS d j =
  flux_through deltaS d j + PI * x_sign_of_jacobian d * (x_phipH d j - x_phipH d 0%Z) * deltaS.
Proof.
  intros Hj HV H1 H2 SG. exact (flux_value ns deltaS d j Hj HV H1 H2 SG).
Qed.
Print Assumptions C104_flux_value.
Theorem C104_flux_partial ns deltaS d j : (1 <= j < ns - 1)%Z ->
  x_dVdsH d j / x_phipH d j + x_dVdsH d (j - 1)%Z / x_phipH d (j - 1)%Z <> 0 -> x_phipH d j <> 0 -> x_phipH d (j - 1)%Z <> 0 ->
  x_sign_of_jacobian d * x_sign_of_jacobian d = 1 -> x_phipH d j = x_phipH d 0%Z ->
  m_toroidal_flux ns deltaS d j = flux_through deltaS d j.
Proof. intros Hj HV H1 H2 SG E. rewrite (C104_flux_value ns deltaS d j Hj HV H1 H2 SG), E. ring. Qed.
Print Assumptions C104_flux_partial.
Theorem C104_flux_refuted : exists ns deltaS d j, (1 <= j < ns - 1)%Z /\ 0 < deltaS /\
  (forall i, (0 <= i < ns - 1)%Z -> 0 < x_phipH d i /\ 0 < x_dVdsH d i) /\ x_sign_of_jacobian d = -1 /\
  m_toroidal_flux ns deltaS d j <> flux_through deltaS d j.
Proof.
  exists 3%Z, (1 / 2), fd, 1%Z. split; [lia|]. split; [lra|]. split.
  - intros i Hi. cbn [fd x_phipH x_dVdsH]. split; [|lra]. apply (IZR_lt 0). lia.
  - split; [reflexivity|].
    assert (E1 : x_phipH fd 1 = 2) by reflexivity. assert (E0 : x_phipH fd (1 - 1)%Z = 1) by reflexivity.
    assert (V1 : x_dVdsH fd 1 = 1) by reflexivity. assert (V0 : x_dVdsH fd (1 - 1)%Z = 1) by reflexivity.
    rewrite C104_flux_value; rewrite ?E1, ?E0, ?V1, ?V0; [|lia|lra|lra|lra|cbn [fd x_sign_of_jacobian]; lra].
    change (x_phipH fd 0) with 1. cbn [fd x_sign_of_jacobian]. pose proof PI_RGT_0. lra.
Qed.
Print Assumptions C104_flux_refuted.

(** A surface and a state meeting the hypotheses of C101 and C103: a torus of major
    radius 3. *)
Definition ty : merc_in :=
  mkMercIn (fun j => IZR j) (fun _ => 3) (fun _ => 0) (fun _ => 1) (fun _ => 0) (fun _ => 0) (fun _ => 0) (fun _ => 0) (fun _ => 0) (fun _ => 0) (fun _ => 0).
Example C101_case : (forall kl es0, let f := surf_frame js (1 / 2) ty es0 1 kl in dot (cross (eu f) (ev f)) (cross (eu f) (ev f)) = 9) /\
  m_Dshear 3 (1 / 2) jd ty 1 <> 0 /\ jac (surf_frame js (1 / 2) ty (mkVec 0 0 (- / 3)) 1 0) = (x_gsqrt jd 1 + x_gsqrt jd 0) / 2.
Proof.
  split; [|split].
  - intros kl es0. unfold surf_frame, full_value, dot, cross. cbn [eu ev vx vy vz ty y_r_e y_r_o y_ru_e y_ru_o y_zu_e y_zu_o y_rv_e y_rv_o y_zv_e y_zv_o]. ring.
  - rewrite (proj1 (C101_shear 3 (1 / 2) jd ty 1 ltac:(lia) ltac:(lra) ltac:(cbn; lra))). cbn [y_iotaH ty x_sign_of_jacobian x_phipH jd].
    pose proof PI_RGT_0 as PP. change (IZR (1 - 1)) with 0. replace (2 * PI * -1 * ((1 + 1) / 2) * (1 / 2)) with (- PI) by field.
    intros E. assert (Z : ((1 - 0) / - PI) ^ 2 = 0) by lra. replace (((1 - 0) / - PI) ^ 2) with ((/ PI) * (/ PI)) in Z by (field; lra).
    pose proof (Rinv_0_lt_compat _ PP) as I. pose proof (Rmult_lt_0_compat _ _ I I). lra.
  - unfold jac, surf_frame, full_value, dot, cross. cbn [es eu ev vx vy vz ty y_r_e y_r_o y_ru_e y_ru_o y_zu_e y_zu_o y_rv_e y_rv_o y_zv_e y_zv_o x_gsqrt jd]. field.
Qed.
