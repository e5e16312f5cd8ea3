(** Property theorems C121 and C122: the initial guess and the magnetic axis. *)
From Coq Require Import ZArith List Bool Reals Lia Lra.
From Verif Require Import Base BaseLemmas SumLemmas PartModel KernelProofs SizesModel FourierModel FourierSpec FourierProofs BoundaryModel BoundarySpec BoundaryProofs BoundaryProps
  AxisSpec ProfileModel DftModel DftSpec DftTables DftProps WoutModel WoutSpec WoutProofs WoutFinal WoutMain WoutProps InitModel InitSpec InitProofs InitFinal InitAxis.
Import ListNotations.
Open Scope R_scope.
Local Notation tables s b0 :=
  (computeFourierBasis FastPoloidal (sz_nfp s) (sz_nZeta s) (sz_nThetaEven s) (sz_nThetaReduced s) (sz_mnyq2 s) (sz_nnyq2 s) b0).

(** The profiles which the thread of surfaces [p] reads on surface [j] (C30). *)
Definition profiles_on (p : rpart) (ns j : Z) (sq scalxc : Z -> R) : Prop :=
  sq (j - nsMinF1 p)%Z = sqrtSF p ns j /\ scalxc ((j - nsMinF1 p) * 2)%Z = 1 /\ scalxc ((j - nsMinF1 p) * 2 + 1)%Z = scalxc_odd ns j.

Lemma setting_ns lasym nfp mpol ntor ntheta nzeta mg ng T th ns lfreeb s p :
  setting lasym nfp mpol ntor ntheta nzeta mg ng T th ns lfreeb s p -> (2 <= ns)%Z.
Proof. intros (_ & _ & H1 & H2 & _). lia. Qed.

(** C121: on every surface, the axis included, the geometry with which the solver
    starts is the surface of radius rho = sqrt(s) between the axis (rc, rs, zs, zc)
    and the boundary [b], the m = 1 rotation undone.  [x0], [m_x], [g0], [ga0], [b0]:
    arbitrary old contents of the arrays. *)
Theorem C121_guess lasym nfp mpol ntor ntheta nzeta mg ng T th ns lfreeb s p (b0 : basis_tables)
    (xmpq sq scalxc : Z -> R) (b : bdy) (rc rs zs zc : Z -> R) (x0 m_x : coefs) (g0 ga0 : geom) (j k l : Z) :
  setting lasym nfp mpol ntor ntheta nzeta mg ng T th ns lfreeb s p -> supported s ->
  (nsMinF1 p <= j < nsMaxF1 p)%Z -> (0 <= k < sz_nZeta s)%Z -> (0 <= l < sz_nThetaEff s)%Z ->
  profiles_on p ns j sq scalxc ->
  let x := interpFromBoundaryAndAxis s p sq b rc rs zs zc x0 in
  let G q := let g := g_q (geometryFromFourier s (tables s b0) p xmpq sq (prepare s p ns scalxc x m_x) g0 ga0) q in
    let i := at_pt s (j - nsMinF1 p) k l in g true i + sqrtSF p ns j * g false i in
  let b1 := ensureM1Constrained (sz_lasym s) (sz_lthreed s) (sz_ntor s) 1 b in
  let rho := sqrt (IZR j / (IZR ns - 1)) in
  let theta := theta_pt s l in let zeta := IZR (sz_nfp s) * phi_pt s k in
  G G_r1 = guess_R (sz_lasym s) (sz_lthreed s) (sz_mpol s) (sz_ntor s) b1 rc rs rho theta zeta /\
  G G_z1 = guess_Z (sz_lasym s) (sz_lthreed s) (sz_mpol s) (sz_ntor s) b1 zs zc rho theta zeta.
Proof.
  intros HS SU Hj Hk Hl (SQ & SC0 & SC1) x G b1 rho theta zeta.
  destruct (setting_ok _ _ _ _ _ _ _ _ _ _ _ _ _ _ HS) as (OK & M2 & RO & P0). assert (NS := setting_ns _ _ _ _ _ _ _ _ _ _ _ _ _ _ HS).
  assert (Hn : (0 <= j < ns)%Z) by (destruct RO; lia). assert (RHO : sqrtSF p ns j = rho) by (apply sqrtSF_eq; assumption).
  destruct (C54_geometry _ _ _ _ _ _ _ _ _ _ _ _ s p b0 xmpq sq (prepare s p ns scalxc x m_x) g0 ga0 true j k l HS SU Hj Hk Hl) as (A1 & A2 & _).
  destruct (C54_geometry _ _ _ _ _ _ _ _ _ _ _ _ s p b0 xmpq sq (prepare s p ns scalxc x m_x) g0 ga0 false j k l HS SU Hj Hk Hl) as (B1 & B2 & _).
  cbv zeta in A1, A2, B1, B2. fold theta in A1, A2, B1, B2.
  destruct (Z.eq_dec j 0) as [J0|J0].
  - assert (R0 : rho = 0) by (unfold rho; rewrite J0; unfold Rdiv; rewrite Rmult_0_l; apply sqrt_0). subst j.
    assert (P00 : nsMinF1 p = 0%Z) by lia. rewrite RHO, R0 in SQ.
    assert (REL : forall c k m n, has s c k = true -> (0 <= m < sz_mpol s)%Z -> (0 <= n <= sz_ntor s)%Z -> onesurf s p 0 x c k (gidx s 0 m n) = x c k (at_mn s (0 - nsMinF1 p) m n)) by (intros; apply onesurf_at; assumption).
    destruct (axis_curve s ns OK M2 ltac:(lia) p x m_x (onesurf s p 0 x) scalxc P00 ltac:(lia) REL SC0 SC1 theta (phi_pt s k)) as (C1 & C2).
    destruct (axis_arrays_ext s OK rc rs zs zc (ComputeThreed1AxisGeometry s (onesurf s p 0 x)) zeta) as (D1 & D2).
    { intros n Hn'. refine (round_trip s M2 p sq b rc rs zs zc P00 _ SQ x0 _ n Hn' REL). lia. }
    assert (W : forall f, zsum 0 (sz_mpol s) (fun m => weight rho m * f m) = 0).
    { intros f. apply zsum_zero. intros m Hm. rewrite R0. unfold weight. destruct (Z.eqb_spec m 0); [ring|]. rewrite pow_i by lia. ring. }
    unfold G, guess_R, guess_Z. cbv zeta. rewrite !W, RHO, R0. rewrite A1, A2. split.
    + rewrite C1. unfold zeta in D1. rewrite D1. fold zeta. ring.
    + rewrite C2. unfold zeta in D2. rewrite D2. fold zeta. ring.
  - destruct (guess_series s p ns sq b rc rs zs zc OK M2 x0 m_x scalxc j P0 Hj Hn SQ SC0 SC1 theta (phi_pt s k) ltac:(lia)) as (C1 & C2).
    unfold G. cbv zeta. rewrite A1, A2, B1, B2, <- RHO. split; [exact C1|exact C2].
Qed.
Print Assumptions C121_guess.

(** C121 on the boundary: the solver starts with the surface of the input file, at
    the angle tau (shifted, and reversed if the orientation had to be corrected, C18). *)
Theorem C121_boundary lasym nfp mpol ntor ntheta nzeta mg ng T th ns lfreeb s p (b0 : basis_tables)
    (xmpq sq scalxc : Z -> R) (id : indata_bdy) (sj : Z) (bd0 : bdy) (rc rs zs zc : Z -> R) (x0 m_x : coefs) (g0 ga0 : geom) (k l : Z) :
  setting lasym nfp mpol ntor ntheta nzeta mg ng T th ns lfreeb s p -> supported s ->
  nsMaxF1 p = ns -> (0 <= k < sz_nZeta s)%Z -> (0 <= l < sz_nThetaEff s)%Z ->
  profiles_on p ns (ns - 1) sq scalxc ->
  let '(flipped, b) := setupFromIndata (sz_lasym s) (sz_lthreed s) (sz_mpol s) (sz_ntor s) id sj bd0 in
  let x := interpFromBoundaryAndAxis s p sq b rc rs zs zc x0 in
  let G q := let g := g_q (geometryFromFourier s (tables s b0) p xmpq sq (prepare s p ns scalxc x m_x) g0 ga0) q in
    let i := at_pt s (ns - 1 - nsMinF1 p) k l in g true i + g false i in
  let theta := theta_pt s l in let zeta := IZR (sz_nfp s) * phi_pt s k in
  let tau := (if flipped then PI - theta else theta) + shift_delta (sz_lasym s) (sz_ntor s) id in
  G G_r1 = R_input (sz_lasym s) (sz_mpol s) (sz_ntor s) id tau zeta /\
  G G_z1 = Z_input (sz_lasym s) (sz_mpol s) (sz_ntor s) id tau zeta.
Proof.
  intros HS SU PM Hk Hl PR. destruct (setting_ok _ _ _ _ _ _ _ _ _ _ _ _ _ _ HS) as (OK & M2 & RO & P0). assert (NS := setting_ns _ _ _ _ _ _ _ _ _ _ _ _ _ _ HS).
  assert (L3 : (0 <? sz_ntor s)%Z = sz_lthreed s) by (rewrite (so_3d s OK), Z.gtb_ltb; reflexivity).
  pose proof (C18_surface (sz_lasym s) (sz_mpol s) (sz_ntor s) id sj bd0 M2 (so_ntor s OK)) as C18. cbv zeta in C18. rewrite L3 in C18.
  destruct (setupFromIndata (sz_lasym s) (sz_lthreed s) (sz_mpol s) (sz_ntor s) id sj bd0) as (flipped & b).
  intros x G theta zeta tau. destruct (C18 theta zeta) as (E1 & E2). fold tau in E1, E2.
  assert (Hj : (nsMinF1 p <= ns - 1 < nsMaxF1 p)%Z) by (destruct RO as [? ? ? ? ? ? ? MX ? ? ?]; destruct lfreeb; lia).
  destruct (C121_guess _ _ _ _ _ _ _ _ _ _ _ _ s p b0 xmpq sq scalxc b rc rs zs zc x0 m_x g0 ga0 (ns - 1) k l HS SU Hj Hk Hl PR) as (F1 & F2).
  assert (RHO : sqrt (IZR (ns - 1) / (IZR ns - 1)) = 1).
  { rewrite minus_IZR. unfold Rdiv. rewrite Rinv_r; [apply sqrt_1|]. apply IZR_le in NS. lra. }
  cbv zeta in F1, F2.   rewrite (sqrtSF_eq p ns (ns - 1) NS) in F1, F2 by lia. rewrite RHO in F1, F2. rewrite Rmult_1_l in F1, F2.
  assert (W : forall m, (0 <= m)%Z -> weight 1 m = 1) by (intros m _; unfold weight; destruct (m =? 0)%Z; [ring|apply pow1]).
  destruct (rows_sum (sz_lasym s) (sz_lthreed s) (sz_mpol s) (sz_ntor s) (ensureM1Constrained (sz_lasym s) (sz_lthreed s) (sz_ntor s) 1 b) theta zeta) as (S1 & S2).
  unfold G. cbv zeta. rewrite <- E1, <- E2, S1, S2. split; [etransitivity; [exact F1|]|etransitivity; [exact F2|]]; unfold guess_R, guess_Z.
  - fold theta zeta. replace (1 - 1 * 1) with 0 by ring. rewrite Rmult_0_l, Rplus_0_r. apply zsum_ext. intros m Hm. rewrite W by lia. ring.
  - fold theta zeta. replace (1 - 1 * 1) with 0 by ring. rewrite Rmult_0_l, Rplus_0_r. apply zsum_ext. intros m Hm. rewrite W by lia. ring.
Qed.
Print Assumptions C121_boundary.

(** C121: lambda is not touched by the initial guess. *)
Theorem C121_lambda s p sq b rc rs zs zc x k : interpFromBoundaryAndAxis s p sq b rc rs zs zc x cL k = x cL k.
Proof. exact (init_lambda s p sq b rc rs zs zc x k). Qed.
Print Assumptions C121_lambda.

(** C122: the axis arrays of the output are the m = 0 coefficients on surface 0. *)
Theorem C122_arrays lasym nfp mpol ntor ntheta nzeta mg ng s ns X n :
  make_sizes lasym nfp mpol ntor ntheta nzeta mg ng = Some s -> (2 <= sz_mpol s)%Z -> (0 < ns)%Z -> (0 <= n <= sz_ntor s)%Z ->
  let A := ComputeThreed1AxisGeometry s X in
  raxis_symm A n = rmnc s ns X n 0 /\ zaxis_symm A n = zmns s ns X n 0 /\
  (sz_lasym s = true -> raxis_asym A n = rmns s ns X n 0 /\ zaxis_asym A n = zmnc s ns X n 0).
Proof. intros HS M2 N0 Hn. exact (axis_rows s ns (make_sizes_ok _ _ _ _ _ _ _ _ _ HS) M2 N0 (make_mnmax _ _ _ _ _ _ _ _ _ HS) X n Hn). Qed.
Print Assumptions C122_arrays.

(** C122: read like the axis of an input file (C77_old_axis), they describe the curve
    on which the solver's R and Z of surface 0 lie, in any state of the run. *)
Theorem C122_curve lasym nfp mpol ntor ntheta nzeta mg ng T th ns lfreeb s p (b0 : basis_tables)
    (xmpq sq scalxc : Z -> R) (x m_x X : coefs) (g0 ga0 : geom) (k l : Z) :
  setting lasym nfp mpol ntor ntheta nzeta mg ng T th ns lfreeb s p -> supported s ->
  (nsMinF1 p <= 0 < nsMaxF1 p)%Z -> (0 <= k < sz_nZeta s)%Z -> (0 <= l < sz_nThetaEff s)%Z ->
  gathered s p ns 0 scalxc x X ->
  let g := g_q (geometryFromFourier s (tables s b0) p xmpq sq (prepare s p ns scalxc x m_x) g0 ga0) in
  let i := at_pt s (0 - nsMinF1 p) k l in
  let A := ComputeThreed1AxisGeometry s X in let zeta := IZR (sz_nfp s) * phi_pt s k in
  AxisSpec.axis_R (sz_lasym s) (sz_ntor s) (raxis_symm A) (raxis_asym A) zeta = g G_r1 true i /\
  AxisSpec.axis_Z (sz_lasym s) (sz_ntor s) (zaxis_symm A) (zaxis_asym A) zeta = g G_z1 true i.
Proof.
  intros HS SU Hj Hk Hl (REL & SC0 & SC1) g i A zeta.
  destruct (setting_ok _ _ _ _ _ _ _ _ _ _ _ _ _ _ HS) as (OK & M2 & RO & P0). assert (NS := setting_ns _ _ _ _ _ _ _ _ _ _ _ _ _ _ HS).
  destruct (C54_geometry _ _ _ _ _ _ _ _ _ _ _ _ s p b0 xmpq sq (prepare s p ns scalxc x m_x) g0 ga0 true 0 k l HS SU Hj Hk Hl) as (A1 & A2 & _).
  cbv zeta in A1, A2. destruct (axis_curve s ns OK M2 ltac:(lia) p x m_x X scalxc ltac:(lia) ltac:(lia) REL SC0 SC1 (theta_pt s l) (phi_pt s k)) as (C1 & C2).
  unfold g, i. rewrite A1, A2. split; symmetry; [exact C1|exact C2].
Qed.
Print Assumptions C122_curve.

(** C122: written before the first step, the axis arrays are those of the input. *)
Theorem C122_round_trip lasym nfp mpol ntor ntheta nzeta mg ng s p sq b rc rs zs zc x X n :
  make_sizes lasym nfp mpol ntor ntheta nzeta mg ng = Some s -> (2 <= sz_mpol s)%Z -> nsMinF1 p = 0%Z -> (0 < nsMaxF1 p)%Z -> sq 0%Z = 0 -> (0 <= n <= sz_ntor s)%Z ->
  (forall c k m n, has s c k = true -> (0 <= m < sz_mpol s)%Z -> (0 <= n <= sz_ntor s)%Z ->
    X c k (gidx s 0 m n) = interpFromBoundaryAndAxis s p sq b rc rs zs zc x c k (at_mn s (0 - nsMinF1 p) m n)) ->
  let A := ComputeThreed1AxisGeometry s X in
  raxis_symm A n = rc n /\ zaxis_symm A n = (if sz_lthreed s then zs n else 0) /\
  raxis_asym A n = (if sz_lasym s && sz_lthreed s then rs n else 0) /\ zaxis_asym A n = (if sz_lasym s then zc n else 0).
Proof. intros HS M2 P0 PM SQ Hn REL. apply (round_trip s M2 p sq b rc rs zs zc P0 PM) with (x := x); [rewrite P0; exact SQ|exact Hn|exact REL]. Qed.
Print Assumptions C122_round_trip.

(** A torus R = 10 + cos, Z = sin with an axis guess at R = 10.5: all surfaces are held by one thread. *)
Definition torus : bdy := mkBdy (fun i => if (i =? 0)%Z then 10 else 1) (fun i => IZR i) (fun _ => 0) (fun _ => 0) (fun _ => 0) (fun _ => 0) (fun _ => 0) (fun _ => 0).
Example C121_case : exists s p sq scalxc, setting false 1 2 0 0 0 2 0 1 0 4 true s p /\ supported s /\ nsMinF1 p = 0%Z /\ nsMaxF1 p = 4%Z /\ sz_mpol s = 2%Z /\
  (forall j, (0 <= j < 4)%Z -> profiles_on p 4 j sq scalxc) /\ sq 0%Z = 0 /\
  guess_R (sz_lasym s) (sz_lthreed s) (sz_mpol s) (sz_ntor s) torus (fun _ => 21 / 2) (fun _ => 0) (1 / 2) 0 0 = 87 / 8.
Proof.
  destruct dft_case_2d as (s & p & HS & SU & _). assert (E := HS). destruct E as (_ & S & _ & _ & _ & P).
  assert (S' : s = match make_sizes false 1 2 0 0 0 2 0 with Some s => s | None => s end) by (rewrite S; reflexivity).
  assert (P' : p = match adjustRadialPartitioning 1 0 4 true with Some p => p | None => p end) by (rewrite P; reflexivity).
  assert (PM : nsMinF1 p = 0%Z /\ nsMaxF1 p = 4%Z) by (rewrite P'; split; reflexivity). destruct PM as (PM & PX).
  assert (SZ : sz_lasym s = false /\ sz_lthreed s = false /\ sz_mpol s = 2%Z /\ sz_ntor s = 0%Z) by (rewrite S'; repeat split; reflexivity). destruct SZ as (Z1 & Z2 & Z3 & Z4).
  exists s, p, (fun i => sqrtSF p 4 i), (fun i => if (i mod 2 =? 0)%Z then 1 else scalxc_odd 4 (i / 2)).
  split; [exact HS|]. split; [exact SU|]. split; [exact PM|]. split; [exact PX|]. split; [exact Z3|]. split; [|split].
  - intros j Hj. unfold profiles_on. rewrite PM, Z.sub_0_r. split; [reflexivity|]. split.
    + rewrite Z.mod_mul by lia. reflexivity.
    + rewrite Z.add_comm, Z.mod_add by lia. rewrite (Z.div_add 1) by lia. reflexivity.
  - rewrite sqrtSF_eq by lia. unfold Rdiv. rewrite Rmult_0_l. apply sqrt_0.
  - rewrite Z1, Z2, Z3, Z4. unfold guess_R, R_mode, row_out, AxisSpec.axis_R. cbn [rbcc torus].
    rewrite (zsum_cons 0 2) by lia. rewrite (zsum_cons (0 + 1) 2) by lia. rewrite (zsum_empty (0 + 1 + 1) 2) by lia. rewrite !(zsum_cons 0 (0 + 1)) by lia. rewrite !(zsum_empty (0 + 1) (0 + 1)) by lia.
    unfold weight. cbn. rewrite ?Rmult_0_r, ?Rmult_0_l, cos_0. change (Pos.to_nat 1) with 1%nat. lra.
Qed.
