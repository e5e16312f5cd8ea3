(** Property theorems C109, C110, C111: geometry, stream function and current
    coefficients of the wout file. *)
From Coq Require Import ZArith List Bool Reals Lia Lra.
From Verif Require Import Base BaseLemmas SumLemmas SizesModel FourierModel FourierSpec FourierProofs PartModel KernelProofs ProfileModel
  DftModel DftSpec DftTables DftGeo DftProps PolyProofs JxbMain WoutModel WoutSpec WoutProofs WoutFinal WoutMain WoutCurr NyqModel NyqProofs.
From Verif Require JxbModel.
Import ListNotations.
Open Scope R_scope.

Local Notation tables s b0 :=
  (computeFourierBasis FastPoloidal (sz_nfp s) (sz_nZeta s) (sz_nThetaEven s) (sz_nThetaReduced s) (sz_mnyq2 s) (sz_nnyq2 s) b0).

(** [X]: the gathered coefficients of the run, [x]: those which the thread of
    surfaces [p] holds in its evolving state, on surface [j]. *)
Definition gathered (s : sizes) (p : rpart) (ns j : Z) (scalxc : Z -> R) (x X : coefs) : Prop :=
  (forall c b m n, has s c b = true -> (0 <= m < sz_mpol s)%Z -> (0 <= n <= sz_ntor s)%Z ->
    X c b (gidx s j m n) = x c b (at_mn s (j - nsMinF1 p) m n)) /\
  scalxc ((j - nsMinF1 p) * 2)%Z = 1 /\ scalxc ((j - nsMinF1 p) * 2 + 1)%Z = scalxc_odd ns j.

(** C109: on every surface but the axis, the functions R and Z described by the
    coefficients in the file take, at every grid point, the values with which the
    solver works (even part plus sqrt(s) times odd part), and their derivatives in
    both angles are the solver's. *)
Theorem C109_surface lasym nfp mpol ntor ntheta nzeta mg ng T th ns lfreeb s p (b0 : basis_tables)
    (xmpq sq scalxc : Z -> R) (x m_x X : coefs) (g0 ga0 : geom) (j k l : Z) :
  setting lasym nfp mpol ntor ntheta nzeta mg ng T th ns lfreeb s p -> supported s ->
  (nsMinF1 p <= j < nsMaxF1 p)%Z -> (1 <= j)%Z -> (0 <= k < sz_nZeta s)%Z -> (0 <= l < sz_nThetaEff s)%Z ->
  gathered s p ns j scalxc x X ->
  let G q := let g := g_q (geometryFromFourier s (tables s b0) p xmpq sq (prepare s p ns scalxc x m_x) g0 ga0) q in
    let i := at_pt s (j - nsMinF1 p) k l in g true i + sqrtSF p ns j * g false i in
  let Rw := out_even s (fun mn => rmnc s ns X mn j) (fun mn => rmns s ns X mn j) in
  let Zw := out_odd s (fun mn => zmns s ns X mn j) (fun mn => zmnc s ns X mn j) in
  let theta := theta_pt s l in let phi := phi_pt s k in
  Rw theta phi = G G_r1 /\ Zw theta phi = G G_z1 /\
  derivable_pt_lim (fun y => Rw y phi) theta (G G_ru) /\
  derivable_pt_lim (fun y => Zw y phi) theta (G G_zu) /\
  ((0 < sz_ntor s)%Z ->
   derivable_pt_lim (fun y => Rw theta y) phi (G G_rv) /\
   derivable_pt_lim (fun y => Zw theta y) phi (G G_zv)).
Proof.
  intros HS SU Hj J1 Hk Hl (REL & SC0 & SC1) G Rw Zw theta phi.
  destruct (setting_ok _ _ _ _ _ _ _ _ _ _ _ _ _ _ HS) as (OK & M2 & RO & P0).
  assert (MX := make_mnmax _ _ _ _ _ _ _ _ _ (proj1 (proj2 HS))).
  assert (Hn : (0 <= j < ns)%Z) by (destruct RO; lia).
  assert (ER : forall a b, Rw a b = _) by (intros a b; exact (out_R s ns OK MX p x m_x X scalxc j M2 P0 Hj Hn REL SC0 SC1 a b J1)).
  assert (EZ : forall a b, Zw a b = _) by (intros a b; exact (out_Z s ns OK MX p x m_x X scalxc j M2 P0 Hj Hn REL SC0 SC1 a b J1)).
  destruct (C54_geometry _ _ _ _ _ _ _ _ _ _ _ _ s p b0 xmpq sq (prepare s p ns scalxc x m_x) g0 ga0 true j k l HS SU Hj Hk Hl) as (A1 & A2 & A3 & A4 & _ & A5).
  destruct (C54_geometry _ _ _ _ _ _ _ _ _ _ _ _ s p b0 xmpq sq (prepare s p ns scalxc x m_x) g0 ga0 false j k l HS SU Hj Hk Hl) as (B1 & B2 & B3 & B4 & _ & B5).
  cbv zeta in A1, A2, A3, A4, A5, B1, B2, B3, B4, B5. fold theta phi in A1, A2, A3, A4, A5, B1, B2, B3, B4, B5.
  split; [rewrite ER; unfold G; cbv zeta; rewrite A1, B1; reflexivity|].
  split; [rewrite EZ; unfold G; cbv zeta; rewrite A2, B2; reflexivity|].
  split; [eapply derivable_ext; [intros y; apply ER|exact (derivable_pt_lim_plus _ _ _ _ _ A3 (d_scal _ _ _ _ B3))]|].
  split; [eapply derivable_ext; [intros y; apply EZ|exact (derivable_pt_lim_plus _ _ _ _ _ A4 (d_scal _ _ _ _ B4))]|].
  intros N0. destruct (A5 N0) as (A6 & A7 & _). destruct (B5 N0) as (B6 & B7 & _).
  split; [eapply derivable_ext; [intros y; apply ER|exact (derivable_pt_lim_plus _ _ _ _ _ A6 (d_scal _ _ _ _ B6))]|].
  eapply derivable_ext; [intros y; apply EZ|exact (derivable_pt_lim_plus _ _ _ _ _ A7 (d_scal _ _ _ _ B7))].
Qed.
Print Assumptions C109_surface.

(** C109 on the magnetic axis: R and Z of the file are the even parts of the
    solver, provided that the run has no coefficients with m > 0 there. *)
Theorem C109_axis lasym nfp mpol ntor ntheta nzeta mg ng T th ns lfreeb s p (b0 : basis_tables)
    (xmpq sq scalxc : Z -> R) (x m_x X : coefs) (g0 ga0 : geom) (k l : Z) :
  setting lasym nfp mpol ntor ntheta nzeta mg ng T th ns lfreeb s p -> supported s ->
  (nsMinF1 p <= 0 < nsMaxF1 p)%Z -> (0 <= k < sz_nZeta s)%Z -> (0 <= l < sz_nThetaEff s)%Z ->
  gathered s p ns 0 scalxc x X ->
  (forall c b m n, (1 <= m < sz_mpol s)%Z -> (0 <= n <= sz_ntor s)%Z -> X c b (gidx s 0 m n) = 0) ->
  let g := g_q (geometryFromFourier s (tables s b0) p xmpq sq (prepare s p ns scalxc x m_x) g0 ga0) in
  let i := at_pt s (0 - nsMinF1 p) k l in
  out_even s (fun mn => rmnc s ns X mn 0%Z) (fun mn => rmns s ns X mn 0%Z) (theta_pt s l) (phi_pt s k) = g G_r1 true i /\
  out_odd s (fun mn => zmns s ns X mn 0%Z) (fun mn => zmnc s ns X mn 0%Z) (theta_pt s l) (phi_pt s k) = g G_z1 true i.
Proof.
  intros HS SU Hj Hk Hl (REL & SC0 & SC1) Z0 g i.
  destruct (setting_ok _ _ _ _ _ _ _ _ _ _ _ _ _ _ HS) as (OK & M2 & RO & P0).
  assert (MX := make_mnmax _ _ _ _ _ _ _ _ _ (proj1 (proj2 HS))).
  assert (Hn : (0 <= 0 < ns)%Z) by (destruct RO; lia).
  destruct (C54_geometry _ _ _ _ _ _ _ _ _ _ _ _ s p b0 xmpq sq (prepare s p ns scalxc x m_x) g0 ga0 true 0 k l HS SU Hj Hk Hl) as (A1 & A2 & _).
  cbv zeta in A1, A2. unfold g, i. rewrite A1, A2. split.
  - exact (axis_R s ns OK MX p x m_x X scalxc 0 M2 P0 Hj Hn REL SC0 SC1 _ _ eq_refl Z0).
  - exact (axis_Z s ns OK MX p x m_x X scalxc 0 M2 P0 Hj Hn REL SC0 SC1 _ _ eq_refl Z0).
Qed.
Print Assumptions C109_axis.

(** The number of coefficients written for one surface is the advertised number of
    modes, so that the counting check of the output stage never aborts. *)
Theorem C109_count lasym nfp mpol ntor ntheta nzeta mg ng s axis (a b : Z -> R) j :
  make_sizes lasym nfp mpol ntor ntheta nzeta mg ng = Some s ->
  fst (cos_row s a b j) = sz_mnmax s /\ fst (sin_row s axis a b j) = sz_mnmax s.
Proof.
  intros HS. rewrite (make_mnmax _ _ _ _ _ _ _ _ _ HS). assert (OK := make_sizes_ok _ _ _ _ _ _ _ _ _ HS).
  split; [apply (cos_row_spec s OK)|apply (sin_row_spec s OK)].
Qed.
Print Assumptions C109_count.

(** C110: the stream function of the file. *)
Theorem C110_lambda lasym nfp mpol ntor ntheta nzeta mg ng T th ns lfreeb s p (b0 : basis_tables)
    (xmpq sq scalxc phipF : Z -> R) (lamscale : R) (x m_x X : coefs) (g0 ga0 : geom) (j k l : Z) :
  setting lasym nfp mpol ntor ntheta nzeta mg ng T th ns lfreeb s p -> supported s ->
  (nsMinF1 p <= j < nsMaxF1 p)%Z -> (1 <= j)%Z -> (0 <= k < sz_nZeta s)%Z -> (0 <= l < sz_nThetaEff s)%Z ->
  gathered s p ns j scalxc x X -> phipF j <> 0 ->
  let G q := let g := g_q (geometryFromFourier s (tables s b0) p xmpq sq (prepare s p ns scalxc x m_x) g0 ga0) q in
    let i := at_pt s (j - nsMinF1 p) k l in g true i + sqrtSF p ns j * g false i in
  let Lw := out_odd s (fun mn => lmns_full s ns phipF lamscale X mn j) (fun mn => lmnc_full s ns phipF lamscale X mn j) in
  let theta := theta_pt s l in let phi := phi_pt s k in
  derivable_pt_lim (fun y => phipF j * Lw y phi) theta (lamscale * G G_lu) /\
  ((0 < sz_ntor s)%Z -> derivable_pt_lim (fun y => phipF j * Lw theta y) phi (- (lamscale * G G_lv))).
Proof.
  intros HS SU Hj J1 Hk Hl (REL & SC0 & SC1) PF G Lw theta phi.
  destruct (setting_ok _ _ _ _ _ _ _ _ _ _ _ _ _ _ HS) as (OK & M2 & RO & P0).
  assert (MX := make_mnmax _ _ _ _ _ _ _ _ _ (proj1 (proj2 HS))).
  assert (Hn : (0 <= j < ns)%Z) by (destruct RO; lia).
  assert (EL : forall a b, phipF j * Lw a b = _) by (intros a b; exact (out_L s ns OK MX p x m_x X scalxc j M2 P0 Hj Hn REL SC0 SC1 phipF lamscale a b J1 PF)).
  destruct (C54_geometry _ _ _ _ _ _ _ _ _ _ _ _ s p b0 xmpq sq (prepare s p ns scalxc x m_x) g0 ga0 true j k l HS SU Hj Hk Hl) as (_ & _ & _ & _ & A3 & A5).
  destruct (C54_geometry _ _ _ _ _ _ _ _ _ _ _ _ s p b0 xmpq sq (prepare s p ns scalxc x m_x) g0 ga0 false j k l HS SU Hj Hk Hl) as (_ & _ & _ & _ & B3 & B5).
  cbv zeta in A3, A5, B3, B5. fold theta phi in A3, A5, B3, B5.
  split; [eapply derivable_ext; [intros y; apply EL|exact (d_scal _ _ _ _ (derivable_pt_lim_plus _ _ _ _ _ A3 (d_scal _ _ _ _ B3)))]|].
  intros N0. destruct (A5 N0) as (_ & _ & A6). destruct (B5 N0) as (_ & _ & B6).
  assert (Q := d_scal lamscale _ _ _ (derivable_pt_lim_plus _ _ _ _ _ A6 (d_scal (sqrtSF p ns j) _ _ _ B6))).
  match type of Q with derivable_pt_lim _ _ ?v => replace (- (lamscale * G G_lv)) with v by (unfold G; ring) end.
  eapply derivable_ext; [intros y; apply EL|exact Q].
Qed.
Print Assumptions C110_lambda.

(** C110, at the axis: the claim is that the value of lambda on the axis is the
    linear extrapolation from the first two surfaces.  [_partial]: this holds of
    the sine coefficients (when the flux derivative is uniform), not of the cosine
    coefficients of an asymmetric run. *)
Theorem C110_axis_partial lasym nfp mpol ntor ntheta nzeta mg ng s ns phipF lamscale X n :
  make_sizes lasym nfp mpol ntor ntheta nzeta mg ng = Some s -> (3 <= ns)%Z -> (0 <= n <= sz_ntor s)%Z -> (1 <= sz_mpol s)%Z ->
  phipF 1%Z = phipF 0%Z -> phipF 2%Z = phipF 0%Z ->
  let L j := lmns_full s ns phipF lamscale X (mode_pos (sz_ntor s) 0 n) j in
  L 0%Z = 2 * L 1%Z - L 2%Z.
Proof.
  intros HS Hn Hk M1 P1 P2 L. assert (OK := make_sizes_ok _ _ _ _ _ _ _ _ _ HS). assert (MX := make_mnmax _ _ _ _ _ _ _ _ _ HS).
  assert (V : valid_mode (sz_mpol s) (sz_ntor s) 0 n) by (unfold valid_mode; lia). assert (PR := pos_range s OK MX 0 n V).
  unfold L, lmns_full. rewrite !by_surface_at by lia. unfold lam_scale. rewrite P1, P2.
  rewrite !(proj2 (sin_row_spec s OK true _ _ _) 0%Z n V). unfold sval. cbn [Z.eqb andb]. destruct (sz_lthreed s); unfold Rdiv; ring.
Qed.
Print Assumptions C110_axis_partial.
(** An asymmetric run whose lambda has the constant cosine coefficient 1 on the
    surfaces 1 and 2 (and, as in every run, no evolved value on the axis). *)
Theorem C110_axis_refuted : exists s X, make_sizes true 1 2 0 0 0 2 0 = Some s /\
  let L j := lmnc_full s 4 (fun _ => 1) 1 X (mode_pos (sz_ntor s) 0 0) j in
  L 1%Z = 1 /\ L 2%Z = 1 /\ L 0%Z = 0.
Proof.
  destruct (make_sizes true 1 2 0 0 0 2 0) as [s|] eqn:E; [|discriminate]. assert (OK := make_sizes_ok _ _ _ _ _ _ _ _ _ E). assert (MX := make_mnmax _ _ _ _ _ _ _ _ _ E).
  assert (S : sz_mpol s = 2%Z /\ sz_ntor s = 0%Z) by (apply some_inj in E; subst s; split; reflexivity). destruct S as (S1 & S2).
  exists s, (fun c b i => if (i <? 2)%Z then 0 else 1). split; [reflexivity|]. cbv zeta.
  assert (V : valid_mode (sz_mpol s) (sz_ntor s) 0 0) by (unfold valid_mode; lia). assert (PR := pos_range s OK MX 0 0 V).
  unfold lmnc_full. rewrite !by_surface_at by lia. unfold lam_scale. rewrite !(proj2 (cos_row_spec s OK _ _ _) 0%Z 0%Z V). unfold cval, gidx, t1_. rewrite S1, S2.
  cbn [Z.eqb Z.ltb Z.compare Z.add Z.mul Pos.mul Pos.add]. repeat split; cbn; unfold basis_norm; cbn; field.
Qed.
Print Assumptions C110_axis_refuted.

(** C110, half grid: [f] of the claim is a + b s for even m, and sqrt(s) (a + b s)
    for odd m. The file holds its value on the half grid.  [_partial]: proved
    except on the innermost half surface for m = 0, 1, where it is false. *)
Theorem C110_half_partial lasym nfp mpol ntor ntheta nzeta mg ng s (p : rpart) ns xm full a b mn jH :
  make_sizes lasym nfp mpol ntor ntheta nzeta mg ng = Some s -> (3 <= ns)%Z -> (0 <= mn < sz_mnmax s)%Z -> (0 <= jH < ns - 1)%Z ->
  (0 <= xm mn)%Z ->
  let f x := if Z.odd (xm mn) then sqrt x * (a + b * x) else a + b * x in
  (forall j, (0 <= j < ns)%Z -> full mn j = f (full_pos ns j)) ->
  (1 <= jH)%Z \/ (Z.odd (xm mn) = false /\ 2 <= xm mn)%Z \/ (b = 0 /\ (xm mn <= 1)%Z) \/ (Z.odd (xm mn) = true /\ (2 <= xm mn)%Z /\ a = 0) ->
  lam_half s ns xm (smH p ns) (spH p ns) full mn (jH + 1)%Z = f (half_pos ns jH).
Proof.
  intros HS Hn Hm Hj Hx f H C. rewrite lam_half_at by assumption. cbv zeta.
  assert (D : 0 < IZR ns - 1) by (rewrite <- minus_IZR; apply IZR_lt; lia).
  assert (PO := full_pos_pos ns (jH + 1) ltac:(lia) ltac:(lia)). assert (QO := sqrt_lt_R0 _ PO).
  assert (PH := half_pos_pos ns jH ltac:(lia) ltac:(lia)). assert (QH := sqrt_lt_R0 _ PH).
  assert (E : full_pos ns (jH + 1) = full_pos ns jH + 1 / (IZR ns - 1)) by (unfold full_pos; rewrite plus_IZR; field; lra).
  destruct (half_steps ns jH ltac:(lia)) as (EH & _).
  assert (RM : (Z.rem (xm mn) 2 =? 0)%Z = negb (Z.odd (xm mn))) by (rewrite Z.rem_mod_nonneg, Zmod_odd by lia; destruct (Z.odd (xm mn)); reflexivity).
  rewrite RM, (H (jH + 1)%Z), (H jH) by lia. unfold f. destruct (Z.odd (xm mn)) eqn:OD; cbn [negb].
  - destruct (Z.eqb_spec jH 0) as [J0|J0]; cbn [andb].
    + subst jH. unfold spH. cbn [Z.eqb]. unfold smH, sqrtSH. rewrite root_full by lia.
      assert (Z0 : full_pos ns 0 = 0) by (unfold full_pos, Rdiv; ring). rewrite Z0, sqrt_0. rewrite Z0, Rplus_0_l in E, EH.
      replace (full_pos ns (0 + 1)) with (full_pos ns 1) in * by reflexivity.
      destruct C as [C|[[C _]|[[-> C]|(_ & C & ->)]]]; [lia|discriminate| |].
      * destruct (Z.leb_spec (xm mn) 1); [|lia]. field. lra.
      * destruct (Z.leb_spec (xm mn) 1); [lia|]. rewrite E in QO |- *. rewrite EH. field. lra.
    + assert (PI_ := full_pos_pos ns jH ltac:(lia) ltac:(lia)). assert (QI := sqrt_lt_R0 _ PI_).
      unfold spH. destruct (Z.eqb_spec jH 0); [contradiction|]. unfold smH, sqrtSH. rewrite !root_full by lia.
      replace (sqrt (half_pos ns jH) / sqrt (full_pos ns (jH + 1)) * (sqrt (full_pos ns (jH + 1)) * (a + b * full_pos ns (jH + 1))))
        with (sqrt (half_pos ns jH) * (a + b * full_pos ns (jH + 1))) by (field; lra).
      replace (sqrt (half_pos ns jH) / sqrt (full_pos ns jH) * (sqrt (full_pos ns jH) * (a + b * full_pos ns jH)))
        with (sqrt (half_pos ns jH) * (a + b * full_pos ns jH)) by (field; lra).
      rewrite E. replace (half_pos ns jH) with (full_pos ns jH + 1 / (IZR ns - 1) / 2) at 4 by (symmetry; exact EH). field. lra.
  - destruct (Z.eqb_spec jH 0) as [J0|J0]; cbn [andb].
    + destruct (Z.leb_spec (xm mn) 1).
      * destruct C as [C|[[_ C]|[[-> _]|(C & _)]]]; [lia|lia|field|discriminate].
      * rewrite E, EH. field. lra.
    + rewrite E, EH. field. lra.
Qed.
Print Assumptions C110_half_partial.
(** With lambda coefficient (0, 0) equal to s on three surfaces 0, 1/2, 1, the
    innermost half surface s = 1/4 gets 1/2. *)
Theorem C110_half_refuted : exists s, make_sizes true 1 2 0 0 0 2 0 = Some s /\
  forall sm sp, lam_half s 3 (fun _ => 0%Z) sm sp (fun _ j => full_pos 3 j) 0%Z 1%Z = 1 / 2 /\ half_pos 3 0 = 1 / 4.
Proof.
  destruct (make_sizes true 1 2 0 0 0 2 0) as [s|] eqn:E; [|discriminate]. exists s. split; [reflexivity|]. intros sm sp.
  assert (S : sz_mnmax s = 2%Z) by (apply some_inj in E; subst s; reflexivity).
  split; [|unfold half_pos; lra].
  change 1%Z with (0 + 1)%Z at 1. rewrite lam_half_at by lia. cbn. unfold full_pos. field.
Qed.
Print Assumptions C110_half_refuted.

(** C111: currents.  Radial profiles on which the regularised average and the
    regularised difference are exact: linear and quadratic for even m, divided by
    and multiplied by sqrt(s) for odd m. *)
Definition prof_s (m : Z) (a : R * R) (x : R) : R := if Z.odd m then (fst a + snd a * x) / sqrt x else fst a + snd a * x.
Definition prof_uv (m : Z) (a : R * R * R) (x : R) : R :=
  let '(a0, a1, a2) := a in if Z.odd m then sqrt x * (a0 + a1 * x) else a0 + a1 * x + a2 * x * x.
(** Sum over the [N] modes with coefficients [f] of a function of the radial label *)
Definition field (N : Z) (xm xn : Z -> Z) (trig : R -> R) (f : Z -> R -> R) (x theta phi : R) : R :=
  zsum 0 N (fun mn => f mn x * trig (IZR (xm mn) * theta - IZR (xn mn) * phi)).
(** [b]: half-grid coefficients as stored, with half-grid surface jH in column jH + 1 *)
Definition sampled (N ns : Z) (b : Z -> Z -> R) (f : Z -> R -> R) : Prop :=
  forall mn jH, (0 <= mn < N)%Z -> (0 <= jH < ns - 1)%Z -> b mn (jH + 1)%Z = f mn (half_pos ns jH).

Lemma d_angle_phi trig trig' a b th ph : (forall x, derivable_pt_lim trig x (trig' x)) ->
  derivable_pt_lim (fun y => trig (a * th - b * y)) ph (- b * trig' (a * th - b * ph)).
Proof.
  intros H. assert (L : derivable_pt_lim (fun y => a * th - b * y) ph (- b)).
  { assert (P := derivable_pt_lim_minus _ _ ph _ _ (derivable_pt_lim_const (a * th) ph) (d_scal b _ ph 1 (derivable_pt_lim_id ph))).
    replace (- b) with (0 - b * 1) by ring. exact P. }
  assert (C := derivable_pt_lim_comp _ trig ph _ _ L (H _)). rewrite (Rmult_comm (- b)). exact C.
Qed.
Lemma d_angle_theta trig trig' a b th ph : (forall x, derivable_pt_lim trig x (trig' x)) ->
  derivable_pt_lim (fun y => trig (a * y - b * ph)) th (a * trig' (a * th - b * ph)).
Proof.
  intros H. assert (L : derivable_pt_lim (fun y => a * y - b * ph) th a).
  { assert (P := derivable_pt_lim_minus _ _ th _ _ (d_scal a _ th 1 (derivable_pt_lim_id th)) (derivable_pt_lim_const (b * ph) th)).
    replace (a * 1 - 0) with a in P by ring. exact P. }
  assert (C := derivable_pt_lim_comp _ trig th _ _ L (H _)). rewrite (Rmult_comm a (trig' _)). exact C.
Qed.
Lemma d_cos_ x : derivable_pt_lim cos x (- sin x). Proof. apply derivable_pt_lim_cos. Qed.
Lemma d_sin_ x : derivable_pt_lim sin x (cos x). Proof. apply derivable_pt_lim_sin. Qed.

Section Ampere.
Variables (ns N : Z) (xm xn : Z -> Z) (p : rpart).
Hypothesis Hn : (3 <= ns)%Z.
Hypothesis Hx : forall mn, (0 <= mn < N)%Z -> (0 <= xm mn)%Z.
Variable j : Z.
Hypothesis Hj : (1 <= j < ns - 1)%Z.
Let x := full_pos ns j.
Lemma sampled_avg b a mn : (0 <= mn < N)%Z -> sampled N ns b (fun mn => prof_s (xm mn) (a mn)) ->
  reg_avg xm (sqrtSH ns) (sqrtSF p ns) b mn j = prof_s (xm mn) (a mn) x.
Proof. intros Hm S. exact (avg_exact ns xm p b mn j (fst (a mn)) (snd (a mn)) Hn (Hx mn Hm) Hj (fun jH HH => S mn jH Hm HH)). Qed.
Lemma sampled_diff b a mn : (0 <= mn < N)%Z -> sampled N ns b (fun mn => prof_uv (xm mn) (a mn)) ->
  derivable_pt_lim (prof_uv (xm mn) (a mn)) x (reg_diff xm (1 / (IZR ns - 1)) (sqrtSH ns) (sqrtSF p ns) b mn j).
Proof.
  intros Hm S0. assert (S := fun jH => S0 mn jH Hm). cbv beta in S. clear S0. destruct (a mn) as ((a0, a1), a2).
  exact (diff_exact ns xm p b mn j a0 a1 a2 Hn (Hx mn Hm) Hj (fun jH HH => S jH HH)).
Qed.
Lemma field_radial trig b a th ph : sampled N ns b (fun mn => prof_uv (xm mn) (a mn)) ->
  derivable_pt_lim (fun y => field N xm xn trig (fun mn => prof_uv (xm mn) (a mn)) y th ph) x
    (zsum 0 N (fun mn => reg_diff xm (1 / (IZR ns - 1)) (sqrtSH ns) (sqrtSF p ns) b mn j * trig (IZR (xm mn) * th - IZR (xn mn) * ph))).
Proof.
  intros S. unfold field. apply (derive_zsum 0 N (fun mn y => prof_uv (xm mn) (a mn) y * trig (IZR (xm mn) * th - IZR (xn mn) * ph))
    (fun mn _ => reg_diff xm (1 / (IZR ns - 1)) (sqrtSH ns) (sqrtSF p ns) b mn j * trig (IZR (xm mn) * th - IZR (xn mn) * ph)) x).
  intros mn Hm. rewrite (Rmult_comm (reg_diff _ _ _ _ _ _ _)). eapply derivable_ext; [intros y; apply Rmult_comm|]. apply d_scal. apply sampled_diff; assumption.
Qed.
Lemma field_phi trig trig' f th ph : (forall x, derivable_pt_lim trig x (trig' x)) ->
  derivable_pt_lim (fun y => field N xm xn trig f x th y) ph
    (zsum 0 N (fun mn => - IZR (xn mn) * f mn x * trig' (IZR (xm mn) * th - IZR (xn mn) * ph))).
Proof.
  intros T. unfold field. rewrite (zsum_ext 0 N _ (fun mn => f mn x * (- IZR (xn mn) * trig' (IZR (xm mn) * th - IZR (xn mn) * ph)))) by (intros; ring).
  apply (derive_zsum 0 N (fun mn y => f mn x * trig (IZR (xm mn) * th - IZR (xn mn) * y)) (fun mn y => f mn x * (- IZR (xn mn) * trig' (IZR (xm mn) * th - IZR (xn mn) * y)))).
  intros mn Hm. apply d_scal. apply d_angle_phi. exact T.
Qed.
Lemma field_theta trig trig' f th ph : (forall x, derivable_pt_lim trig x (trig' x)) ->
  derivable_pt_lim (fun y => field N xm xn trig f x y ph) th
    (zsum 0 N (fun mn => IZR (xm mn) * f mn x * trig' (IZR (xm mn) * th - IZR (xn mn) * ph))).
Proof.
  intros T. unfold field. rewrite (zsum_ext 0 N _ (fun mn => f mn x * (IZR (xm mn) * trig' (IZR (xm mn) * th - IZR (xn mn) * ph)))) by (intros; ring).
  apply (derive_zsum 0 N (fun mn y => f mn x * trig (IZR (xm mn) * y - IZR (xn mn) * ph)) (fun mn y => f mn x * (IZR (xm mn) * trig' (IZR (xm mn) * y - IZR (xn mn) * ph)))).
  intros mn Hm. apply d_scal. apply d_angle_theta. exact T.
Qed.
End Ampere.

(** C111: if the covariant field components follow these profiles, then on every
    interior surface the current coefficients of the file satisfy Ampere's law,
    mu0 sqrt(g) J^theta = dB_s/dphi - dB_phi/ds and
    mu0 sqrt(g) J^phi = dB_theta/ds - dB_s/dtheta, at every angle; [1] are the
    stellarator-symmetric coefficients, [2] those only asymmetric runs have. *)
Theorem C111_ampere ns N xm xn p bs1 bs2 bu1 bu2 bv1 bv2 s1 s2 u1 u2 v1 v2 j theta phi :
  (3 <= ns)%Z -> (forall mn, (0 <= mn < N)%Z -> (0 <= xm mn)%Z) -> (1 <= j < ns - 1)%Z ->
  let S a := (fun mn => prof_s (xm mn) (a mn)) in let UV a := (fun mn => prof_uv (xm mn) (a mn)) in
  sampled N ns bs1 (S s1) -> sampled N ns bs2 (S s2) -> sampled N ns bu1 (UV u1) -> sampled N ns bu2 (UV u2) ->
  sampled N ns bv1 (UV v1) -> sampled N ns bv2 (UV v2) ->
  let F := field N xm xn in
  let Bs x th ph := F sin (S s1) x th ph + F cos (S s2) x th ph in
  let Bu x th ph := F cos (UV u1) x th ph + F sin (UV u2) x th ph in
  let Bv x th ph := F cos (UV v1) x th ph + F sin (UV v2) x th ph in
  let ds := 1 / (IZR ns - 1) in
  let Ju := F cos (fun mn _ => curru ns N xm xn ds (sqrtSH ns) (sqrtSF p ns) (-1) bs1 bv1 mn j) 0 theta phi +
            F sin (fun mn _ => curru ns N xm xn ds (sqrtSH ns) (sqrtSF p ns) 1 bs2 bv2 mn j) 0 theta phi in
  let Jv := F cos (fun mn _ => currv ns N xm ds (sqrtSH ns) (sqrtSF p ns) (-1) bs1 bu1 mn j) 0 theta phi +
            F sin (fun mn _ => currv ns N xm ds (sqrtSH ns) (sqrtSF p ns) 1 bs2 bu2 mn j) 0 theta phi in
  let x := full_pos ns j in
  exists Bs_phi Bs_theta Bu_s Bv_s,
    derivable_pt_lim (fun y => Bs x theta y) phi Bs_phi /\ derivable_pt_lim (fun y => Bs x y phi) theta Bs_theta /\
    derivable_pt_lim (fun y => Bu y theta phi) x Bu_s /\ derivable_pt_lim (fun y => Bv y theta phi) x Bv_s /\
    JxbModel.MU_0 * Ju = Bs_phi - Bv_s /\ JxbModel.MU_0 * Jv = Bu_s - Bs_theta.
Proof.
  intros Hn Hx Hj S UV HS1 HS2 HU1 HU2 HV1 HV2 F Bs Bu Bv ds Ju Jv x.
  assert (M0 := mu_pos).
  do 4 eexists. split; [|split; [|split; [|split; [|split]]]].
  - apply (derivable_pt_lim_plus (fun y => F sin (S s1) x theta y) (fun y => F cos (S s2) x theta y));
      [apply (field_phi ns N xm xn j sin cos (S s1) theta phi d_sin_)|apply (field_phi ns N xm xn j cos (fun x => - sin x) (S s2) theta phi d_cos_)].
  - apply (derivable_pt_lim_plus (fun y => F sin (S s1) x y phi) (fun y => F cos (S s2) x y phi));
      [apply (field_theta ns N xm xn j sin cos (S s1) theta phi d_sin_)|apply (field_theta ns N xm xn j cos (fun x => - sin x) (S s2) theta phi d_cos_)].
  - apply (derivable_pt_lim_plus (fun y => F cos (UV u1) y theta phi) (fun y => F sin (UV u2) y theta phi)).
    + apply (field_radial ns N xm xn p Hn Hx j Hj cos bu1 u1 theta phi HU1).
    + apply (field_radial ns N xm xn p Hn Hx j Hj sin bu2 u2 theta phi HU2).
  - apply (derivable_pt_lim_plus (fun y => F cos (UV v1) y theta phi) (fun y => F sin (UV v2) y theta phi)).
    + apply (field_radial ns N xm xn p Hn Hx j Hj cos bv1 v1 theta phi HV1).
    + apply (field_radial ns N xm xn p Hn Hx j Hj sin bv2 v2 theta phi HV2).
  - unfold Ju, F, field. rewrite Rmult_plus_distr_l, <- !zsum_scale, <- !zsum_plus, <- zsum_minus. apply zsum_ext. intros mn Hm.
    unfold curru. rewrite !curr_mid by assumption.
    rewrite (sampled_avg ns N xm p Hn Hx j Hj bs1 s1 mn Hm HS1), (sampled_avg ns N xm p Hn Hx j Hj bs2 s2 mn Hm HS2). unfold S, x, ds. field. lra.
  - unfold Jv, F, field. rewrite Rmult_plus_distr_l, <- !zsum_scale, <- !zsum_plus, <- zsum_minus. apply zsum_ext. intros mn Hm.
    unfold currv. rewrite !curr_mid by assumption.
    rewrite (sampled_avg ns N xm p Hn Hx j Hj bs1 s1 mn Hm HS1), (sampled_avg ns N xm p Hn Hx j Hj bs2 s2 mn Hm HS2). unfold S, x, ds. field. lra.
Qed.
Print Assumptions C111_ampere.

(** C111, toroidal current: whatever the profiles, the (0, 0) coefficients of the
    current between two half surfaces add up to the difference of the averages of
    B_theta on them, over mu0 (Stokes' theorem on the grid). *)
Theorem C111_enclosed ns N xm p sg bs bu mn j1 j2 :
  (3 <= ns)%Z -> (0 <= mn < N)%Z -> xm mn = 0%Z -> (1 <= j1 <= j2)%Z -> (j2 <= ns - 1)%Z ->
  let ds := 1 / (IZR ns - 1) in
  zsum j1 j2 (fun j => ds * currv ns N xm ds (sqrtSH ns) (sqrtSF p ns) sg bs bu mn j) = (bu mn j2 - bu mn j1) / JxbModel.MU_0.
Proof.
  intros Hn Hm X0 [H1 H2] H3 ds. assert (M0 := mu_pos).
  assert (D : IZR ns - 1 <> 0) by (rewrite <- minus_IZR; apply not_0_IZR; lia).
  remember (Z.to_nat (j2 - j1)) as k eqn:K. assert (J : j2 = (j1 + Z.of_nat k)%Z) by lia. clear K. subst j2. revert H2 H3. induction k as [|n IH]; intros H2 H3.
  - rewrite Z.add_0_r, zsum_empty by lia. field. lra.
  - rewrite Nat2Z.inj_succ in *. replace (j1 + Z.succ (Z.of_nat n))%Z with (j1 + Z.of_nat n + 1)%Z in * by lia.
    rewrite zsum_snoc by lia. rewrite IH by lia. unfold currv. rewrite curr_mid by lia. unfold reg_diff, reg_avg. rewrite X0. cbn [Z.rem Z.quotrem Z.eqb fst snd].
    change (Z.rem 0 2) with 0%Z. cbn [Z.eqb]. unfold ds. field. split; lra.
Qed.
Print Assumptions C111_enclosed.

(** C111, edge and axis: the claim is that the coefficients there are the linear
    extrapolations of the two nearest interior surfaces (zero on the axis for m > 1).
    [_partial]: for four surfaces or more. *)
Theorem C111_ends_partial ns N xm xn p sg bs bv mn :
  (4 <= ns)%Z -> (0 <= mn < N)%Z ->
  let J := curru ns N xm xn (1 / (IZR ns - 1)) (sqrtSH ns) (sqrtSF p ns) sg bs bv mn in
  let K := currv ns N xm (1 / (IZR ns - 1)) (sqrtSH ns) (sqrtSF p ns) sg bs bv mn in
  J (ns - 1)%Z = 2 * J (ns - 2)%Z - J (ns - 3)%Z /\ K (ns - 1)%Z = 2 * K (ns - 2)%Z - K (ns - 3)%Z /\
    ((xm mn <= 1)%Z -> J 0%Z = 2 * J 1%Z - J 2%Z /\ K 0%Z = 2 * K 1%Z - K 2%Z) /\
    ((1 < xm mn)%Z -> J 0%Z = 0 /\ K 0%Z = 0).
Proof.
  intros Hn Hm J K. assert (M0 := mu_pos). unfold J, K, curru, currv.
  destruct (curr_ends ns N xm (fun mn j => sg * IZR (xn mn) * reg_avg xm (sqrtSH ns) (sqrtSF p ns) bs mn j - reg_diff xm (1 / (IZR ns - 1)) (sqrtSH ns) (sqrtSF p ns) bv mn j) mn Hn Hm) as (A1 & A2).
  destruct (curr_ends ns N xm (fun mn j => sg * IZR (xm mn) * reg_avg xm (sqrtSH ns) (sqrtSF p ns) bs mn j + reg_diff xm (1 / (IZR ns - 1)) (sqrtSH ns) (sqrtSF p ns) bv mn j) mn Hn Hm) as (B1 & B2).
  rewrite A1, A2, B1, B2, !curr_mid by lia. split; [unfold Rdiv; ring|]. split; [unfold Rdiv; ring|].
  split; intros H; destruct (Z.leb_spec (xm mn) 1); try lia; split; unfold Rdiv; ring.
Qed.
Print Assumptions C111_ends_partial.
(** With three surfaces, a uniform current density (B_theta growing linearly, of
    unit toroidal current coefficient) is written as 2, 1, 0. *)
Theorem C111_refuted : exists bs bu, forall xm SH SF, xm 0%Z = 0%Z ->
  let K j := JxbModel.MU_0 * currv 3 1 xm (1 / 2) SH SF (-1) bs bu 0%Z j in
  bu 0%Z 1%Z = half_pos 3 0 /\ bu 0%Z 2%Z = half_pos 3 1 /\ K 0%Z = 2 /\ K 1%Z = 1 /\ K 2%Z = 0.
Proof.
  exists (fun _ _ => 0), (fun _ j => IZR j / 2 - 1 / 4). intros xm SH SF X0 K. assert (M0 := mu_pos).
  assert (V : reg_diff xm (1 / 2) SH SF (fun _ j => IZR j / 2 - 1 / 4) 0 1 = 1).
  { unfold reg_diff. rewrite X0. change (Z.rem 0 2 =? 1)%Z with false. cbn iota. change (1 + 1)%Z with 2%Z. lra. }
  assert (A : reg_avg xm SH SF (fun _ _ => 0) 0 1 = 0).
  { unfold reg_avg. rewrite X0. change (Z.rem 0 2 =? 1)%Z with false. cbn iota. lra. }
  split; [unfold half_pos; lra|]. split; [unfold half_pos; lra|]. unfold K, currv, curr. cbv zeta.
  rewrite !edge_at by lia. change (3 - 1)%Z with 2%Z. change (3 - 2)%Z with 1%Z. change (3 - 3)%Z with 0%Z. cbn [Z.eqb Pos.eqb].
  rewrite !axis_at by lia. rewrite X0. cbn [Z.eqb andb Z.leb Z.compare Pos.compare Pos.compare_cont].
  rewrite !interior_at by lia. assert (W : forall v, curr_interior 3 1 v 0%Z 2%Z = 0) by (intros; apply interior_out; lia). rewrite !W. rewrite V, A. repeat split; field; lra.
Qed.
Print Assumptions C111_refuted.

(** Instances of the hypotheses: surface 3 of the second of three threads of an
    asymmetric 3D run with all coefficients distinct; and a field with modes
    m = 0, 1, 2 of all profiles. *)
Example C109_case : exists s p scalxc x X, setting true 5 3 2 0 0 3 2 3 1 9 false s p /\ supported s /\ (nsMinF1 p <= 3 < nsMaxF1 p)%Z /\
  gathered s p 9 3 scalxc x X /\ (forall c b i, x c b (i + 1)%Z = x c b i + 1).
Proof.
  destruct dft_case as (s & p & HS & SU & _ & _ & P1 & _ & _ & P2). destruct (setting_ok _ _ _ _ _ _ _ _ _ _ _ _ _ _ HS) as (OK & _).
  exists s, p, (fun i => if (i mod 2 =? 0)%Z then 1 else scalxc_odd 9 3), (fun _ _ i => IZR i),
    (fun _ _ i => IZR (at_mn s 1 (i mod sz_mpol s) ((i / sz_mpol s) mod (sz_ntor s + 1)))).
  split; [exact HS|]. split; [exact SU|]. split; [lia|]. split; [|intros; apply plus_IZR].
  split; [|rewrite P1; split; reflexivity].
  intros c b m n _ Hm Hn. rewrite P1. unfold gidx. change (3 - 2)%Z with 1%Z. apply f_equal.
  rewrite (Z.add_comm _ m), Z.mod_add, Z.mod_small, Z.div_add, (Z.div_small m), Z.add_0_l by lia.
  rewrite (Z.add_comm _ n), Z.mod_add, Z.mod_small by lia. reflexivity.
Qed.
Example C111_case : exists b, sampled 3 4 b (fun mn => prof_uv mn (1, 2, 3)) /\ b 2%Z 1%Z = 1 + 2 * (1 / 6) + 3 * (1 / 6) * (1 / 6).
Proof.
  exists (fun mn j => prof_uv mn (1, 2, 3) (half_pos 4 (j - 1))). split.
  - intros mn jH _ _. replace (jH + 1 - 1)%Z with jH by lia. reflexivity.
  - unfold prof_uv, half_pos. cbn [Z.odd]. change (1 - 1)%Z with 0%Z. lra.
Qed.
