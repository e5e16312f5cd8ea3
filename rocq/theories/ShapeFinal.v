From Coq Require Import ZArith List Bool Reals Lia Lra Psatz.
From Verif Require Import Base BaseLemmas SumLemmas SizesModel DftTables DftSpec GeoModel ShapeModel ShapeSpec ShapeProofs ShapeMain TableProofs JxbModel JxbProps TableModel TableMain AxisProofs FluxProofs.
Open Scope R_scope.

Lemma theta0 s : sz_ok s -> theta_pt s 0 = 0.
Proof. intros OK. pose proof (nT_pos s OK). unfold theta_pt. field. lra. Qed.
Lemma theta_pi s : sz_ok s -> theta_pt s (sz_nThetaReduced s - 1) = PI.
Proof.
  intros OK. pose proof (nT_pos s OK) as P. pose proof (so_nT s OK) as E. unfold theta_pt.
  assert (Q : IZR (sz_nThetaEven s) = 2 * IZR (sz_nThetaReduced s - 1)) by (rewrite E, mult_IZR; reflexivity). rewrite Q in *. field. lra.
Qed.
Lemma exists_extremes n (f : Z -> R) : (1 <= n)%Z -> (exists M, largest n f M) /\ (exists M, smallest n f M).
Proof.
  intros N. replace n with (n - 1 + 1)%Z by lia. assert (0 <= n - 1)%Z as H by lia. revert H. generalize (n - 1)%Z. apply natlike_ind.
  - split; exists (f 0%Z); (split; [exists 0%Z; split; [lia|reflexivity]|]); intros j Hj; assert (j = 0%Z) as -> by lia; lra.
  - intros m Hm ((M & (j & J & E) & A) & (L & (i & I & E2) & B)). split.
    + destruct (Rle_dec M (f (m + 1)%Z)) as [G|G]; [exists (f (m + 1)%Z)|exists M]; split.
      * exists (m + 1)%Z. split; [lia|reflexivity].
      * intros x Hx. destruct (Z.eq_dec x (m + 1)) as [->|]; [lra|]. specialize (A x ltac:(lia)). lra.
      * exists j. split; [lia|exact E].
      * intros x Hx. destruct (Z.eq_dec x (m + 1)) as [->|]; [lra|]. apply A. lia.
    + destruct (Rle_dec (f (m + 1)%Z) L) as [G|G]; [exists (f (m + 1)%Z)|exists L]; split.
      * exists (m + 1)%Z. split; [lia|reflexivity].
      * intros x Hx. destruct (Z.eq_dec x (m + 1)) as [->|]; [lra|]. specialize (B x ltac:(lia)). lra.
      * exists i. split; [lia|exact E2].
      * intros x Hx. destruct (Z.eq_dec x (m + 1)) as [->|]; [lra|]. apply B. lia.
Qed.
Lemma largest_unique n f M M' : largest n f M -> largest n f M' -> M = M'.
Proof. intros ((j & J & E) & A) ((i & I & E') & A'). pose proof (A i I). pose proof (A' j J). lra. Qed.
Lemma smallest_unique n f M M' : smallest n f M -> smallest n f M' -> M = M'.
Proof. intros ((j & J & E) & A) ((i & I & E') & A'). pose proof (A i I). pose proof (A' j J). lra. Qed.

(** shape of one section of a stellarator-symmetric surface *)
Lemma shape_ok s big g sqrtSF k jF Rf Zf : sz_ok s -> sampled s g sqrtSF jF Rf Zf -> (0 <= k < sz_nZeta s)%Z ->
  periodic (sz_nfp s) Rf -> periodic (sz_nfp s) Zf -> stellarator_symmetric Rf Zf -> 0 <= Zf 0 (phi_pt s k) ->
  (forall j, (0 <= j < sz_nThetaEven s)%Z -> Rabs (Rf (theta_pt s j) (phi_pt s k)) < big /\ Rabs (Zf (theta_pt s j) (phi_pt s k)) < big) ->
  (exists l, (0 <= l < sz_nThetaReduced s)%Z /\ Rf (theta_pt s l) (phi_pt s k) <> Rf 0 (phi_pt s k)) ->
  (exists l, (0 <= l < sz_nThetaReduced s)%Z /\ Zf (theta_pt s l) (phi_pt s k) <> Zf 0 (phi_pt s k)) ->
  exists Rmin Rmax Zmin Zmax jz,
    smallest (sz_nThetaEven s) (fun j => Rf (theta_pt s j) (phi_pt s k)) Rmin /\ largest (sz_nThetaEven s) (fun j => Rf (theta_pt s j) (phi_pt s k)) Rmax /\
    smallest (sz_nThetaEven s) (fun j => Zf (theta_pt s j) (phi_pt s k)) Zmin /\ largest (sz_nThetaEven s) (fun j => Zf (theta_pt s j) (phi_pt s k)) Zmax /\
    (0 <= jz < sz_nThetaEven s)%Z /\ Zf (theta_pt s jz) (phi_pt s k) = Zmax /\ Rmin < Rmax /\
    ygeo_at s g sqrtSF k jF = (Rf 0 (phi_pt s k) - Rf PI (phi_pt s k)) / 2 /\
    yellip_at s big g sqrtSF k jF = (Zmax - Zmin) / (Rmax - Rmin) /\
    yinden_at s big g sqrtSF k jF = (Rf PI (phi_pt s k) - Rmin) / (Rmax - Rmin) /\ 0 <= yinden_at s big g sqrtSF k jF <= 1 /\
    ytrian_at s big g sqrtSF k jF = ((Rf 0 (phi_pt s k) + Rf PI (phi_pt s k)) / 2 - Rf (theta_pt s jz) (phi_pt s k)) / (Rmax - Rmin) /\
    yshift_at s big g sqrtSF k jF = (r_e g (k * sz_nThetaEff s)%Z - (Rf 0 (phi_pt s k) + Rf PI (phi_pt s k)) / 2) / (Rmax - Rmin).
Proof.
  intros OK SMP HK PR PZ Y Z0 BD NR NZ. pose proof (so_nTR s OK) as TR. pose proof (so_nT s OK) as NT.
  assert (YR : forall t p, Rf (- t) (- p) = Rf t p) by (intros; apply Y). assert (YZ : forall t p, Zf (- t) (- p) = - Zf t p) by (intros; apply Y).
  destruct (section_R s big g sqrtSF k jF Rf Zf OK SMP HK PR YR (fun j H => proj1 (BD j H)) NR) as (R1 & R2).
  destruct (section_Z s big g sqrtSF k jF Rf Zf OK SMP HK PZ YZ Z0 (fun j H => proj2 (BD j H)) NZ) as (Z1 & Z2).
  destruct (section_top s big g sqrtSF k jF Rf Zf OK SMP HK PR YR PZ YZ Z0 (fun j H => proj2 (BD j H))) as (jz & J & E1 & E2).
  assert (B : xmidb s g sqrtSF k jF = Rf 0 (phi_pt s k)) by (unfold xmidb; rewrite (yr1 s g sqrtSF k jF Rf Zf OK SMP HK) by lia; rewrite theta0 by exact OK; reflexivity).
  assert (A : xmida s g sqrtSF k jF = Rf PI (phi_pt s k)) by (unfold xmida; rewrite (yr1 s g sqrtSF k jF Rf Zf OK SMP HK) by lia; rewrite theta_pi by exact OK; reflexivity).
  assert (W : minimum_x (scan_section s big g sqrtSF k jF) < maximum_x (scan_section s big g sqrtSF k jF)).
  { destruct NR as (l & L & D). destruct R1 as (_ & R1). destruct R2 as (_ & R2). pose proof (R1 l ltac:(lia)). pose proof (R2 l ltac:(lia)).
    pose proof (R1 0%Z ltac:(lia)) as U1. pose proof (R2 0%Z ltac:(lia)) as U2. cbv beta in *. rewrite theta0 in U1, U2 by exact OK. destruct (Rdichotomy _ _ D); lra. }
  exists (minimum_x (scan_section s big g sqrtSF k jF)), (maximum_x (scan_section s big g sqrtSF k jF)), (minimum_z (scan_section s big g sqrtSF k jF)), (maximum_z (scan_section s big g sqrtSF k jF)), jz.
  split; [exact R2|]. split; [exact R1|]. split; [exact Z2|]. split; [exact Z1|]. split; [exact J|]. split; [exact E2|]. split; [exact W|].
  assert (I : yinden_at s big g sqrtSF k jF = (Rf PI (phi_pt s k) - minimum_x (scan_section s big g sqrtSF k jF)) / (maximum_x (scan_section s big g sqrtSF k jF) - minimum_x (scan_section s big g sqrtSF k jF))).
  { unfold yinden_at, width. rewrite A. reflexivity. }
  split; [unfold ygeo_at; rewrite A, B; reflexivity|]. split; [reflexivity|]. split; [exact I|]. split.
  - rewrite I. destruct R1 as (_ & R1). destruct R2 as (_ & R2). pose proof (R1 (sz_nThetaReduced s - 1)%Z ltac:(lia)) as U1. pose proof (R2 (sz_nThetaReduced s - 1)%Z ltac:(lia)) as U2.
    cbv beta in *. rewrite theta_pi in U1, U2 by exact OK. set (mx := maximum_x _) in *. set (mn := minimum_x _) in *. split.
    + apply Rmult_le_pos; [lra|]. apply Rlt_le, Rinv_0_lt_compat. lra.
    + apply Rmult_le_reg_r with (mx - mn); [lra|]. unfold Rdiv. rewrite Rmult_assoc, Rinv_l by lra. lra.
  - unfold ytrian_at, yshift_at, rgeo, width. rewrite A, B, E1, Z.add_0_r. split; reflexivity.
Qed.
Lemma plane_zero s Rf Zf k : sz_ok s -> periodic (sz_nfp s) Zf -> stellarator_symmetric Rf Zf -> (k = 0 \/ 2 * k = sz_nZeta s)%Z -> Zf 0 (phi_pt s k) = 0.
Proof.
  intros OK P Y H. pose proof (so_nZeta s OK). pose proof (so_nfp s OK).
  assert (A : IZR (sz_nZeta s) <> 0) by (apply not_0_IZR; lia). assert (B : IZR (sz_nfp s) <> 0) by (apply not_0_IZR; lia).
  assert (E : Zf 0 (- phi_pt s k) = Zf 0 (phi_pt s k)).
  { destruct H as [-> | H]; [f_equal; unfold phi_pt; field; auto|]. rewrite <- (proj2 (P 0 (- phi_pt s k))). f_equal. unfold phi_pt.
    assert (Q : IZR (sz_nZeta s) = 2 * IZR k) by (rewrite <- H, mult_IZR; reflexivity). rewrite Q in *. field. repeat split; try assumption. intros N. rewrite N in A. lra. }
  pose proof (proj2 (Y 0 (phi_pt s k))) as Q. rewrite Ropp_0, E in Q. lra.
Qed.

(** the arrays *)
Lemma offset_loop (v : Z -> R) c lo hi a i : for_up lo hi (fun j a => upd a (c + j)%Z (v j)) a i = if ((lo <=? i - c) && (i - c <? hi))%Z then v (i - c)%Z else a i.
Proof.
  destruct ((lo <=? i - c) && (i - c <? hi))%Z eqn:E.
  - apply andb_prop in E. destruct E as (E1 & E2). apply Z.leb_le in E1. apply Z.ltb_lt in E2.
    apply (LapMain.for_up_set (fun a : Z -> R => a i) (fun j a => upd a (c + j)%Z (v j)) lo hi (i - c)%Z); [lia|intros b; replace (c + (i - c))%Z with i by lia; apply upd_eq|].
    intros x b Hx N. apply upd_neq. lia.
  - apply (LapMain.for_up_keep (fun a : Z -> R => a i) (fun j a => upd a (c + j)%Z (v j))). intros x b Hx. apply upd_neq.
    apply andb_false_iff in E. destruct E as [E|E]; [apply Z.leb_gt in E|apply Z.ltb_ge in E]; lia.
Qed.
Lemma arrays s ns f : (1 <= ns)%Z ->
  (forall jF, (1 <= jF < ns)%Z -> shape_array s ns f jF = f 0%Z jF /\ shape_array s ns f (ns + jF) = if (sz_nZeta s =? 1)%Z then 0 else f (sz_nZeta s ÷ 2)%Z jF) /\
  shape_array s ns f 0 = 0 /\ shape_array s ns f ns = 0.
Proof.
  intros N.
  assert (E : forall i, (0 <= i)%Z -> shape_array s ns f i =
    let a := for_up 1 ns (fun jF a => upd a (0 * ns + jF)%Z (f 0%Z jF)) (fun _ => 0) in
    if (sz_nZeta s =? 1)%Z then a i else for_up 1 ns (fun jF a => upd a (1 * ns + jF)%Z (f (Z.quot (sz_nZeta s) 2) jF)) a i).
  { intros i _. unfold shape_array. change (for_up 0 2 ?b ?a) with (b 1%Z (b 0%Z a)). cbv beta. unfold plane. change (0 >? 0)%Z with false. change (1 >? 0)%Z with true. cbv iota zeta.
    destruct (sz_nZeta s =? 1)%Z; reflexivity. }
  split; [intros jF H; split|split]; rewrite E by lia; cbv zeta; destruct (sz_nZeta s =? 1)%Z; rewrite !offset_loop.
  - replace (jF - 0 * ns)%Z with jF by lia. rewrite in_range by lia. reflexivity.
  - rewrite out_range by lia. replace (jF - 0 * ns)%Z with jF by lia. rewrite in_range by lia. reflexivity.
  - rewrite out_range by lia. reflexivity.
  - replace (ns + jF - 1 * ns)%Z with jF by lia. rewrite in_range by lia. reflexivity.
  - rewrite out_range by lia. reflexivity.
  - rewrite !out_range by lia. reflexivity.
  - rewrite out_range by lia. reflexivity.
  - rewrite !out_range by lia. reflexivity.
Qed.

(** currents *)
Section J.
Variables (ns : Z) (eps : R) (jpar2 jperp2 jdotb bdotb dVdsH : Z -> R).
Hypothesis B : forall jF, (1 <= jF < ns - 1)%Z -> 0 < bdotb jF /\ jdotb jF * jdotb jF <= bdotb jF * jpar2 jF /\ 0 <= jperp2 jF /\ 0 < dVdsH jF + dVdsH (jF - 1)%Z.
Lemma jps_in jF : (1 <= jF < ns - 1)%Z -> jPS2 ns jpar2 jdotb bdotb jF = jpar2 jF - jdotb jF * jdotb jF / bdotb jF.
Proof. intros H. unfold jPS2. rewrite (for_up_upd (fun j => jpar2 j - jdotb j * jdotb j / bdotb j)), in_range by lia. reflexivity. Qed.
Lemma jps_bounds jF : (1 <= jF < ns - 1)%Z -> 0 <= jPS2 ns jpar2 jdotb bdotb jF <= jpar2 jF.
Proof.
  intros H. rewrite jps_in by exact H. destruct (B jF H) as (P & Q & _).
  assert (jdotb jF * jdotb jF / bdotb jF <= jpar2 jF) by (apply Rmult_le_reg_r with (1 := P); unfold Rdiv; rewrite Rmult_assoc, Rinv_l, Rmult_1_r by lra; lra).
  assert (0 <= jdotb jF * jdotb jF / bdotb jF) by (apply Rmult_le_pos; [nra|apply Rlt_le, Rinv_0_lt_compat, P]). lra.
Qed.
Lemma jps_zero jF : (1 <= jF < ns - 1)%Z -> jPS2 ns jpar2 jdotb bdotb jF = 0 <-> jdotb jF * jdotb jF = bdotb jF * jpar2 jF.
Proof. intros H. rewrite jps_in by exact H. destruct (B jF H) as (P & _). split; intros E.
  - assert (X : jpar2 jF = jdotb jF * jdotb jF / bdotb jF) by lra. rewrite X. field. lra.
  - rewrite E. field. lra.
Qed.
Lemma sums_ratio : 0 <= jparPS_perp_sum ns jpar2 jdotb bdotb dVdsH <= jpar_perp_sum ns jpar2 dVdsH /\ 0 <= s2 ns jperp2 dVdsH.
Proof.
  unfold jparPS_perp_sum, jpar_perp_sum, s2.
  rewrite (for_up_acc _ (fun jF => jPS2 ns jpar2 jdotb bdotb jF * two_dVds_full dVdsH jF)) by reflexivity.
  rewrite (for_up_acc _ (fun jF => jpar2 jF * two_dVds_full dVdsH jF)) by reflexivity.
  rewrite (for_up_acc _ (fun jF => jperp2 jF * two_dVds_full dVdsH jF)) by reflexivity. rewrite !Rplus_0_l.
  unfold two_dVds_full. split; [split|].
  - rewrite <- (zsum_zero 1 (ns - 1) (fun _ => 0)) by reflexivity. apply zsum_le. intros j H. destruct (jps_bounds j H). destruct (B j H) as (_ & _ & _ & V). apply Rmult_le_pos; lra.
  - apply zsum_le. intros j H. destruct (jps_bounds j H). destruct (B j H) as (_ & _ & _ & V). apply Rmult_le_compat_r; lra.
  - rewrite <- (zsum_zero 1 (ns - 1) (fun _ => 0)) by reflexivity. apply zsum_le. intros j H. destruct (B j H) as (_ & _ & P & V). apply Rmult_le_pos; lra.
Qed.
Lemma ratios : 0 <= jparPS_perp ns jpar2 jperp2 jdotb bdotb dVdsH <= jpar_perp ns jpar2 jperp2 dVdsH.
Proof.
  destruct sums_ratio as ((A & A2) & C). unfold jparPS_perp, jpar_perp. destruct (Req_EM_T (s2 ns jperp2 dVdsH) 0) as [E|E]; [split; assumption|].
  assert (P : 0 < / s2 ns jperp2 dVdsH) by (apply Rinv_0_lt_compat; lra). split; [apply Rmult_le_pos; lra|apply Rmult_le_compat_r; lra].
Qed.
Lemma local_ratios jF : 0 < eps -> (1 <= jF < ns - 1)%Z ->
  loc_jpar_perp ns eps jpar2 jperp2 jF = jpar2 jF / (if Req_EM_T (jperp2 jF) 0 then eps else jperp2 jF) /\
  0 <= loc_jparPS_perp ns eps jpar2 jperp2 jdotb bdotb jF <= loc_jpar_perp ns eps jpar2 jperp2 jF.
Proof.
  intros HE H. unfold loc_jpar_perp, loc_jparPS_perp.
  rewrite (for_up_upd (fun j => jpar2 j / jperp2_or_eps eps jperp2 j)), (for_up_upd (fun j => if (j <? ns - 1)%Z then jPS2 ns jpar2 jdotb bdotb j / jperp2_or_eps eps jperp2 j else 0)), in_range by lia.
  split; [reflexivity|]. replace (jF <? ns - 1)%Z with true by (symmetry; apply Z.ltb_lt; lia).
  destruct (jps_bounds jF H). destruct (B jF H) as (_ & _ & P & _).
  assert (D : 0 < / jperp2_or_eps eps jperp2 jF) by (apply Rinv_0_lt_compat; unfold jperp2_or_eps; destruct (Req_EM_T (jperp2 jF) 0); lra).
  split; [apply Rmult_le_pos; lra|apply Rmult_le_compat_r; lra].
Qed.
End J.
(** ends of the profiles and exact value of the averages *)
Lemma jps_ends ns eps jpar2 jperp2 jdotb bdotb : (2 <= ns)%Z ->
  jPS2 ns jpar2 jdotb bdotb 0 = 0 /\ jPS2 ns jpar2 jdotb bdotb (ns - 1) = 0 /\
  loc_jpar_perp ns eps jpar2 jperp2 0 = 0 /\ loc_jparPS_perp ns eps jpar2 jperp2 jdotb bdotb 0 = 0 /\ loc_jparPS_perp ns eps jpar2 jperp2 jdotb bdotb (ns - 1) = 0.
Proof.
  intros N. unfold jPS2, loc_jpar_perp, loc_jparPS_perp.
  rewrite !(for_up_upd (fun j => jpar2 j - jdotb j * jdotb j / bdotb j)), (for_up_upd (fun j => jpar2 j / jperp2_or_eps eps jperp2 j)).
  rewrite !(for_up_upd (fun j => if (j <? ns - 1)%Z then jPS2 ns jpar2 jdotb bdotb j / jperp2_or_eps eps jperp2 j else 0)).
  rewrite !out_range by lia. destruct (Z.eq_dec ns 1) as [|N1]; [lia|]. rewrite in_range by lia. replace (ns - 1 <? ns - 1)%Z with false by (symmetry; apply Z.ltb_ge; lia). repeat split; reflexivity.
Qed.
Lemma averages ns jpar2 jperp2 jdotb bdotb dVdsH :
  let avg f := zsum 1 (ns - 1) (fun j => f j * (dVdsH j + dVdsH (j - 1)%Z)) in
  let ps j := jpar2 j - jdotb j * jdotb j / bdotb j in
  avg jperp2 <> 0 -> jpar_perp ns jpar2 jperp2 dVdsH = avg jpar2 / avg jperp2 /\ jparPS_perp ns jpar2 jperp2 jdotb bdotb dVdsH = avg ps / avg jperp2.
Proof.
  intros avg ps NZ. unfold jpar_perp, jparPS_perp, s2, jpar_perp_sum, jparPS_perp_sum.
  rewrite !(for_up_acc _ (fun jF => jperp2 jF * two_dVds_full dVdsH jF)) by reflexivity.
  rewrite (for_up_acc _ (fun jF => jpar2 jF * two_dVds_full dVdsH jF)) by reflexivity.
  rewrite (for_up_acc _ (fun jF => jPS2 ns jpar2 jdotb bdotb jF * two_dVds_full dVdsH jF)) by reflexivity. rewrite !Rplus_0_l.
  change (zsum 1 (ns - 1) (fun j => jperp2 j * two_dVds_full dVdsH j)) with (avg jperp2). destruct (Req_EM_T (avg jperp2) 0) as [E|_]; [contradiction|].
  split; [reflexivity|]. f_equal. apply zsum_ext. intros j H. rewrite jps_in by lia. reflexivity.
Qed.
Lemma psi_step ns ds sgn phipH iotaH : (1 <= ns)%Z -> psi ns ds sgn phipH iotaH 0 = 0 /\
  forall jF, (1 <= jF < ns)%Z -> psi ns ds sgn phipH iotaH jF - psi ns ds sgn phipH iotaH (jF - 1) = 2 * PI * sgn * (phipH (jF - 1)%Z * iotaH (jF - 1)%Z) * ds.
Proof.
  intros N. unfold psi.
  assert (K : forall j, (0 <= j < ns)%Z -> for_up 1 ns (fun jF a => upd a jF (a (jF - 1)%Z + r3v ds sgn phipH iotaH (jF - 1)%Z)) (fun _ => 0) j = zsum 0 j (r3v ds sgn phipH iotaH)).
  { refine (for_up_ind (fun k (a : Z -> R) => forall j, (0 <= j < k)%Z -> a j = zsum 0 j (r3v ds sgn phipH iotaH)) _ 1%Z ns _ _ _ _); [lia| |].
    - intros j H. assert (j = 0%Z) as -> by lia. rewrite zsum_empty by lia. reflexivity.
    - intros k a Hk IH j H. destruct (Z.eq_dec j k) as [->|]; [|rewrite upd_neq by lia; apply IH; lia]. rewrite upd_eq, IH by lia.
      rewrite <- zsum_snoc by lia. f_equal. lia. }
  split; [rewrite K by lia; apply zsum_empty; lia|]. intros jF H. rewrite !K by lia.
  assert (Z1 : forall f, zsum 0 jF f = zsum 0 (jF - 1) f + f (jF - 1)%Z) by (intros f; rewrite <- zsum_snoc by lia; f_equal; lia).
  rewrite Z1. unfold r3v. ring.
Qed.
