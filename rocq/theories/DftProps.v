(** Property theorems C25, C26, C54, C55, C56: angular transforms. *)
From Coq Require Import ZArith List Bool Reals Lia Lra.
From Verif Require Import Base BaseLemmas SumLemmas SizesModel FourierModel FourierSpec FourierProofs
  PartModel KernelProofs DftModel DftSpec DftTables DftProofs DftGeo DftForces DftFold DftFinal.
Import ListNotations.
Open Scope R_scope.

(** Common setting: [s] is the grid built from an accepted input, [p] the surfaces
    of thread [th] of [T], [b0] the earlier contents of the trigonometric tables. *)
Definition setting (lasym : bool) (nfp mpol ntor ntheta nzeta mg ng : Z) (T th ns : Z) (lfreeb : bool)
  (s : sizes) (p : rpart) : Prop :=
  (2 <= mpol)%Z /\ make_sizes lasym nfp mpol ntor ntheta nzeta mg ng = Some s /\
  (1 <= T)%Z /\ (2 * T <= ns)%Z /\ (0 <= th < T)%Z /\ adjustRadialPartitioning T th ns lfreeb = Some p.
(** All runs except axisymmetric ones with more than one toroidal plane (C55). *)
Definition supported (s : sizes) : Prop := (0 < sz_ntor s)%Z \/ sz_nZeta s = 1%Z.

Lemma supported_sh s : sz_ok s -> supported s -> sz_lthreed s = true \/ sz_nZeta s = 1%Z.
Proof. intros OK [H|H]; [left|right; exact H]. rewrite (so_3d s OK). apply Z.gtb_lt. exact H. Qed.
Lemma setting_ok lasym nfp mpol ntor ntheta nzeta mg ng T th ns lfreeb s p :
  setting lasym nfp mpol ntor ntheta nzeta mg ng T th ns lfreeb s p ->
  sz_ok s /\ (2 <= sz_mpol s)%Z /\ range_ok ns lfreeb p /\ (0 <= nsMinF1 p)%Z.
Proof.
  intros (M & S & H1 & H2 & H3 & P). assert (OK := make_sizes_ok _ _ _ _ _ _ _ _ _ S). assert (RO := adjust_range_ok _ _ _ _ _ H1 H2 H3 P).
  split; [exact OK|]. split; [|split; [exact RO|]].
  - unfold make_sizes in S. destruct ((nfp <? 1)%Z || (mpol <? 1)%Z || (ntor <? 0)%Z); [discriminate|]. apply some_inj in S. subst s. exact M.
  - destruct RO. lia.
Qed.

(** C54 first part: the functions used as derivatives of the basis functions are
    their derivatives. *)
Theorem C54_basis (nfp : Z) (b : bk) (m n : Z) (theta phi : R) :
  derivable_pt_lim (fun y => Phi nfp b m n y phi) theta (Phi_theta nfp b m n theta phi) /\
  derivable_pt_lim (fun y => Phi nfp b m n theta y) phi (Phi_phi nfp b m n theta phi).
Proof. split; [apply Phi_d_theta|apply Phi_d_phi]. Qed.
Print Assumptions C54_basis.

(** C54: at every grid point of every surface the thread holds, the real-space
    geometry is the Fourier series of the coefficients (even-m and odd-m parts
    separately) and its exact derivatives: r1, z1 values; ru, zu, lu d/dtheta;
    rv, zv d/dphi; lv = - dlambda/dphi.  [g0], [ga0] are arbitrary old contents. *)
Theorem C54_geometry lasym nfp mpol ntor ntheta nzeta mg ng T th ns lfreeb s p (b0 : basis_tables)
    (xmpq sqrtSF : Z -> R) (x : coefs) (g0 ga0 : geom) (e : bool) (j k l : Z) :
  setting lasym nfp mpol ntor ntheta nzeta mg ng T th ns lfreeb s p -> supported s ->
  (nsMinF1 p <= j < nsMaxF1 p)%Z -> (0 <= k < sz_nZeta s)%Z -> (0 <= l < sz_nThetaEff s)%Z ->
  let t := computeFourierBasis FastPoloidal (sz_nfp s) (sz_nZeta s) (sz_nThetaEven s) (sz_nThetaReduced s) (sz_mnyq2 s) (sz_nnyq2 s) b0 in
  let G := g_q (geometryFromFourier s t p xmpq sqrtSF x g0 ga0) in
  let S c := series (sz_nfp s) (kinds (sz_lasym s) c) (n_pol (sz_mpol s) j) (sz_ntor s) e
               (fun b m n => x c b (at_mn s (j - nsMinF1 p) m n)) in
  let i := at_pt s (j - nsMinF1 p) k l in
  let theta := theta_pt s l in let phi := phi_pt s k in
  G G_r1 e i = S cR theta phi /\ G G_z1 e i = S cZ theta phi /\
  derivable_pt_lim (fun y => S cR y phi) theta (G G_ru e i) /\
  derivable_pt_lim (fun y => S cZ y phi) theta (G G_zu e i) /\
  derivable_pt_lim (fun y => S cL y phi) theta (G G_lu e i) /\
  ((0 < sz_ntor s)%Z ->
   derivable_pt_lim (fun y => S cR theta y) phi (G G_rv e i) /\
   derivable_pt_lim (fun y => S cZ theta y) phi (G G_zv e i) /\
   derivable_pt_lim (fun y => S cL theta y) phi (- G G_lv e i)).
Proof.
  intros HS SU Hj Hk Hl t G S i theta phi. destruct (setting_ok _ _ _ _ _ _ _ _ _ _ _ _ _ _ HS) as (OK & M2 & RO & P0).
  assert (SH := supported_sh s OK SU).
  split; [apply (geo_val s OK b0 p xmpq sqrtSF M2 SH P0 x g0 ga0 j k l Hj Hk Hl G_r1 e); auto|].
  split; [apply (geo_val s OK b0 p xmpq sqrtSF M2 SH P0 x g0 ga0 j k l Hj Hk Hl G_z1 e); auto|].
  split; [apply (geo_th s OK b0 p xmpq sqrtSF M2 SH P0 x g0 ga0 j k l Hj Hk Hl G_ru e); auto|].
  split; [apply (geo_th s OK b0 p xmpq sqrtSF M2 SH P0 x g0 ga0 j k l Hj Hk Hl G_zu e); auto|].
  split; [apply (geo_th s OK b0 p xmpq sqrtSF M2 SH P0 x g0 ga0 j k l Hj Hk Hl G_lu e); auto|].
  intros Hn. assert (H3 : sz_lthreed s = true) by (rewrite (so_3d s OK); apply Z.gtb_lt; exact Hn).
  split; [apply (geo_ph s OK b0 p xmpq sqrtSF M2 SH P0 x g0 ga0 j k l Hj Hk Hl G_rv e); auto|].
  split; [apply (geo_ph s OK b0 p xmpq sqrtSF M2 SH P0 x g0 ga0 j k l Hj Hk Hl G_zv e); auto|].
  apply (geo_lv s OK b0 p xmpq sqrtSF M2 SH P0 x g0 ga0 j k l Hj Hk Hl e H3).
Qed.
Print Assumptions C54_geometry.

(** C54, derived quantities: the arrays rCon, zCon are the series with the m-th
    coefficient multiplied by xmpq(m), and ruFull, zuFull are the poloidal
    derivatives of the physical coordinate (even part + sqrt(s) * odd part). *)
Theorem C54_combined lasym nfp mpol ntor ntheta nzeta mg ng T th ns lfreeb s p (b0 : basis_tables)
    (xmpq sqrtSF : Z -> R) (x : coefs) (g0 ga0 : geom) (a0 : Z -> R) (j k l : Z) :
  setting lasym nfp mpol ntor ntheta nzeta mg ng T th ns lfreeb s p -> supported s ->
  (nsMinF p <= j < nsMaxFIncludingLcfs p)%Z -> (0 <= k < sz_nZeta s)%Z -> (0 <= l < sz_nThetaEff s)%Z ->
  let t := computeFourierBasis FastPoloidal (sz_nfp s) (sz_nZeta s) (sz_nThetaEven s) (sz_nThetaReduced s) (sz_mnyq2 s) (sz_nnyq2 s) b0 in
  let G := geometryFromFourier s t p xmpq sqrtSF x g0 ga0 in
  let S w c e := series (sz_nfp s) (kinds (sz_lasym s) c) (n_pol (sz_mpol s) j) (sz_ntor s) e
               (fun b m n => w m * x c b (at_mn s (j - nsMinF1 p) m n)) in
  let whole w c theta phi := S w c true theta phi + sqrtSF (j - nsMinF1 p)%Z * S w c false theta phi in
  let i := at_pt s (j - nsMinF p) k l in
  let theta := theta_pt s l in let phi := phi_pt s k in
  g_rCon G i = whole xmpq cR theta phi /\ g_zCon G i = whole xmpq cZ theta phi /\
  derivable_pt_lim (fun y => whole (fun _ => 1) cR y phi) theta (fullDeriv s p sqrtSF G G_ru a0 i) /\
  derivable_pt_lim (fun y => whole (fun _ => 1) cZ y phi) theta (fullDeriv s p sqrtSF G G_zu a0 i).
Proof.
  intros HS SU Hjc Hk Hl t G S whole i theta phi. destruct (setting_ok _ _ _ _ _ _ _ _ _ _ _ _ _ _ HS) as (OK & M2 & RO & P0).
  assert (SH := supported_sh s OK SU).
  assert (Hj : (nsMinF1 p <= j < nsMaxF1 p)%Z).
  { destruct RO. rewrite ro_lcfs in Hjc. destruct (Z.eqb_spec (nsMaxF1 p) ns); lia. }
  destruct (con_val s OK b0 p xmpq sqrtSF M2 SH P0 x g0 ga0 j k l Hj Hk Hl Hjc) as [A B].
  split; [exact A|]. split; [exact B|].
  assert (E : forall c y, ser s p x c j true y phi + sqrtSF (j - nsMinF1 p)%Z * ser s p x c j false y phi = whole (fun _ => 1) c y phi).
  { intros c y. unfold whole, ser, S, series, xs.
    apply (f_equal2 Rplus); [|apply f_equal]; apply rsum_ext; intros b _; apply zsum_ext; intros m _;
    (match goal with |- (if ?q then _ else _) = _ => destruct q end; [|reflexivity]); apply zsum_ext; intros n _; ring. }
  split.
  - apply (d_ext _ _ _ _ (E cR)). apply (full_deriv s OK b0 p xmpq sqrtSF M2 SH P0 x g0 ga0 j k l Hj Hk Hl G_ru a0); auto.
  - apply (d_ext _ _ _ _ (E cZ)). apply (full_deriv s OK b0 p xmpq sqrtSF M2 SH P0 x g0 ga0 j k l Hj Hk Hl G_zu a0); auto.
Qed.
Print Assumptions C54_combined.

(** C26, geometry half: in a lasym run the whole poloidal range 0 <= l < nThetaEven
    (theta in [0, 2 pi)) carries the series with both symmetric and antisymmetric
    kinds of coefficients. *)
Theorem C26_geometry nfp mpol ntor ntheta nzeta mg ng T th ns lfreeb s p (b0 : basis_tables)
    (xmpq sqrtSF : Z -> R) (x : coefs) (g0 ga0 : geom) (e : bool) (j k l : Z) :
  setting true nfp mpol ntor ntheta nzeta mg ng T th ns lfreeb s p -> supported s ->
  (nsMinF1 p <= j < nsMaxF1 p)%Z -> (0 <= k < sz_nZeta s)%Z -> (0 <= l < sz_nThetaEven s)%Z ->
  let t := computeFourierBasis FastPoloidal (sz_nfp s) (sz_nZeta s) (sz_nThetaEven s) (sz_nThetaReduced s) (sz_mnyq2 s) (sz_nnyq2 s) b0 in
  let G := g_q (geometryFromFourier s t p xmpq sqrtSF x g0 ga0) in
  let S c ks := series (sz_nfp s) ks (n_pol (sz_mpol s) j) (sz_ntor s) e
               (fun b m n => x c b (at_mn s (j - nsMinF1 p) m n)) (theta_pt s l) (phi_pt s k) in
  let i := at_pt s (j - nsMinF1 p) k l in
  G G_r1 e i = S cR [b_cc; b_ss; b_sc; b_cs] /\ G G_z1 e i = S cZ [b_sc; b_cs; b_cc; b_ss].
Proof.
  intros HS SU Hj Hk Hl t G S i. destruct (setting_ok _ _ _ _ _ _ _ _ _ _ _ _ _ _ HS) as (OK & M2 & RO & P0).
  assert (LA : sz_lasym s = true).
  { destruct HS as (_ & S0 & _). unfold make_sizes in S0. destruct ((nfp <? 1)%Z || (mpol <? 1)%Z || (ntor <? 0)%Z); [discriminate|].
    apply some_inj in S0. subst s. reflexivity. }
  assert (TE := la_nTE s OK LA).
  destruct (C54_geometry _ _ _ _ _ _ _ _ _ _ _ _ s p b0 xmpq sqrtSF x g0 ga0 e j k l HS SU Hj Hk ltac:(lia)) as (A & B & _).
  rewrite LA in A, B. split; [exact A|exact B].
Qed.
Print Assumptions C26_geometry.

(** C26, force half: on the retained half range the two parts add up to the
    original force density and each is the original averaged with plus or minus
    its mirror image (theta, phi) -> (-theta, -phi): [std] quantities keep the
    even part first, the others the odd part. *)
Theorem C26_forces nfp mpol ntor ntheta nzeta mg ng T th ns lfreeb s p (d da : forces) (q : fq) (e : bool) (j k l : Z) :
  setting true nfp mpol ntor ntheta nzeta mg ng T th ns lfreeb s p -> supported s ->
  (is_c q = true -> (0 < sz_ntor s)%Z) ->
  (nsMinF p <= j < (if lam_q q then nsMaxFIncludingLcfs p else nsMaxF p))%Z ->
  (0 <= k < sz_nZeta s)%Z -> (0 <= l < sz_nThetaReduced s)%Z ->
  let J := (j - nsMinF p)%Z in
  let f := d q e (at_pt s J k l) in
  let mirror := d q e (at_pt s J ((sz_nZeta s - k) mod sz_nZeta s) ((sz_nThetaEven s - l) mod sz_nThetaEven s)) in
  let sym := fst (symforce s p d da) q e (at_pt s J k l) in
  let asym := snd (symforce s p d da) q e (at_pt s J k l) in
  sym + asym = f /\
  sym = (if std_q q then (f + mirror) / 2 else (f - mirror) / 2) /\
  asym = (if std_q q then (f - mirror) / 2 else (f + mirror) / 2).
Proof.
  intros HS SU Hc Hj Hk Hl J f mirror sym asym. destruct (setting_ok _ _ _ _ _ _ _ _ _ _ _ _ _ _ HS) as (OK & M2 & RO & P0).
  assert (LA : sz_lasym s = true).
  { destruct HS as (_ & S0 & _). unfold make_sizes in S0. destruct ((nfp <? 1)%Z || (mpol <? 1)%Z || (ntor <? 0)%Z); [discriminate|].
    apply some_inj in S0. subst s. reflexivity. }
  assert (HT := so_nT s OK). assert (HR := so_nTR s OK).
  assert (Hq : negb (is_c q) || sz_lthreed s = true).
  { destruct (is_c q); [|reflexivity]. rewrite (so_3d s OK). apply Z.gtb_lt. apply Hc. reflexivity. }
  destruct (fold1_at s OK LA p (std_q q) (nsMinF p) (if lam_q q then nsMaxFIncludingLcfs p else nsMaxF p) (d q e) (da q e) j k l) as [A B]; [lia|lia|lia|].
  destruct (Z.ltb_spec l (sz_nThetaReduced s)); [|lia].
  assert (ES : sym = f - hpart (std_q q) f mirror) by (unfold sym, symforce; cbn [fst]; rewrite Hq; exact A).
  assert (EA : asym = hpart (std_q q) f mirror) by (unfold asym, symforce; cbn [snd]; rewrite Hq; exact B).
  rewrite ES, EA. unfold hpart. split; [ring|]. destruct (std_q q); split; lra.
Qed.
Print Assumptions C26_forces.

(** C56: the Fourier force coefficient of every component, kind and mode is the
    grid inner product of the real-space force density with the corresponding
    variation of the geometry: (A + xmpq(m) F_con) on the basis function, B on its
    theta derivative, - C on its phi derivative (the force is minus the gradient
    in the coefficients of any functional with these densities).  R and Z receive
    forces on surfaces below jMaxRZ (m = 0 only on the axis), lambda on all
    surfaces except the axis; everything else is zero.  The same formula holds
    for symmetric and lasym runs. *)
Theorem C56_forces lasym nfp mpol ntor ntheta nzeta mg ng T th ns lfreeb s p (b0 : basis_tables) (vacuum_on : bool)
    (xmpq : Z -> R) (d da : forces) (c : comp) (b : bk) (j m n : Z) :
  setting lasym nfp mpol ntor ntheta nzeta mg ng T th ns lfreeb s p -> supported s ->
  In b (kinds (sz_lasym s) c) -> (0 <= j)%Z -> (0 <= m < sz_mpol s)%Z -> (0 <= n <= sz_ntor s)%Z ->
  let t := computeFourierBasis FastPoloidal (sz_nfp s) (sz_nZeta s) (sz_nThetaEven s) (sz_nThetaReduced s) (sz_mnyq2 s) (sz_nnyq2 s) b0 in
  let f := forcesToFourier s t p xmpq ns lfreeb vacuum_on d da c b (at_mn s (j - nsMinF p) m n) in
  let e := Z.even m in
  let at_ q k l := d q e (at_pt s (j - nsMinF p) k l) in
  let jMax := if lfreeb && vacuum_on then Z.min (nsMaxF p) ns else Z.min (nsMaxF p) (ns - 1) in
  match c with
  | cR => f = if ((nsMinF p <=? j) && (j <? jMax) && (negb (j =? 0) || (m =? 0)))%Z
              then work s (fun k l => at_ F_ar k l + xmpq m * at_ F_frcon k l) (at_ F_br) (at_ F_cr) b m n else 0
  | cZ => f = if ((nsMinF p <=? j) && (j <? jMax) && (negb (j =? 0) || (m =? 0)))%Z
              then work s (fun k l => at_ F_az k l + xmpq m * at_ F_fzcon k l) (at_ F_bz) (at_ F_cz) b m n else 0
  | cL => f = if ((nsMinF p <=? j) && (j <? nsMaxFIncludingLcfs p) && negb (j =? 0))%Z
              then work s (fun _ _ => 0) (at_ F_bl) (at_ F_cl) b m n else 0
  end.
Proof.
  intros HS SU Hb Hj Hm Hn t f e at_ jMax. destruct (setting_ok _ _ _ _ _ _ _ _ _ _ _ _ _ _ HS) as (OK & M2 & RO & P0).
  assert (SH := supported_sh s OK SU).
  assert (JF : f_jMaxRZ p ns lfreeb vacuum_on = jMax) by reflexivity.
  assert (F0 : (0 <= nsMinF p)%Z) by (destruct RO; lia).
  assert (J1 : (1 <= jMax)%Z) by (unfold jMax; destruct RO, (lfreeb && vacuum_on); lia).
  assert (J2 : (nsMinF p <= jMax)%Z) by (unfold jMax; destruct RO, lfreeb, vacuum_on; cbn [andb]; lia).
  assert (J3 : (jMax <= nsMaxFIncludingLcfs p)%Z).
  { unfold jMax; destruct RO; rewrite ro_lcfs. destruct (Z.eqb_spec (nsMaxF1 p) ns), (lfreeb && vacuum_on); lia. }
  rewrite <- JF in J1, J2, J3.
  assert (E := forces_at s OK b0 p xmpq ns lfreeb vacuum_on SH J1 J2 J3 d da c b j m n Hb Hm Hn Hj).
  change (tab s b0) with t in E. fold f in E. unfold on_, rz_on, l_on2 in E. rewrite JF in E.
  assert (CM : ((m <? (if (j =? 0)%Z then 1 else sz_mpol s)) = negb (j =? 0) || (m =? 0))%Z).
  { destruct (Z.eqb_spec j 0); cbn [negb orb].
    - destruct (Z.ltb_spec m 1), (Z.eqb_spec m 0); lia.
    - apply Z.ltb_lt. lia. }
  destruct c; cbn [isL] in E; rewrite E, ?CM; clear E.
  - destruct ((nsMinF p <=? j)%Z && (j <? jMax)%Z && (negb (j =? 0) || (m =? 0))%Z); [|reflexivity]. unfold work. apply grid_ext. intros; reflexivity.
  - destruct ((nsMinF p <=? j)%Z && (j <? jMax)%Z && (negb (j =? 0) || (m =? 0))%Z); [|reflexivity]. unfold work. apply grid_ext. intros; reflexivity.
  - assert (CL : ((Z.max 1 (nsMinF p) <=? j) && (j <? nsMaxFIncludingLcfs p) = (nsMinF p <=? j) && (j <? nsMaxFIncludingLcfs p) && negb (j =? 0))%Z).
    { destruct (Z.leb_spec (Z.max 1 (nsMinF p)) j), (Z.leb_spec (nsMinF p) j), (Z.ltb_spec j (nsMaxFIncludingLcfs p)), (Z.eqb_spec j 0); cbn [andb negb]; try reflexivity; lia. }
    rewrite CL. destruct ((nsMinF p <=? j)%Z && (j <? nsMaxFIncludingLcfs p)%Z && negb (j =? 0)%Z); [|reflexivity]. unfold work. apply grid_ext. intros; reflexivity.
Qed.
Print Assumptions C56_forces.

(** C25: transforming coefficients of R and Z to the grid and projecting the
    values back (as a force density with no derivative parts) returns every
    coefficient whose basis function is not identically zero, and zero for those
    whose basis function is. *)
Theorem C25_round_trip lasym nfp mpol ntor ntheta nzeta mg ng T th ns lfreeb s p (b0 : basis_tables) (vacuum_on : bool)
    (xmpq xmpq' sqrtSF : Z -> R) (x : coefs) (g0 ga0 : geom) (d da : forces) (c : comp) (b : bk) (j m n : Z) :
  setting lasym nfp mpol ntor ntheta nzeta mg ng T th ns lfreeb s p -> supported s ->
  let t := computeFourierBasis FastPoloidal (sz_nfp s) (sz_nZeta s) (sz_nThetaEven s) (sz_nThetaReduced s) (sz_mnyq2 s) (sz_nnyq2 s) b0 in
  let G := g_q (geometryFromFourier s t p xmpq sqrtSF x g0 ga0) in
  (* values of R and Z as force density on surface j, nothing else *)
  (forall e k l, (0 <= k < sz_nZeta s)%Z -> (0 <= l < sz_nThetaEff s)%Z ->
     let i := at_pt s (j - nsMinF p) k l in
     d F_ar e i = G G_r1 e (at_pt s (j - nsMinF1 p) k l) /\ d F_az e i = G G_z1 e (at_pt s (j - nsMinF1 p) k l) /\
     d F_br e i = 0 /\ d F_bz e i = 0 /\ d F_cr e i = 0 /\ d F_cz e i = 0 /\ d F_frcon e i = 0 /\ d F_fzcon e i = 0) ->
  (c = cR \/ c = cZ) -> In b (kinds (sz_lasym s) c) ->
  (nsMinF p <= j < Z.min (nsMaxF p) (ns - 1))%Z ->
  (0 <= m < sz_mpol s)%Z -> (j = 0%Z -> m = 0%Z) -> (0 <= n <= sz_ntor s)%Z ->
  forcesToFourier s t p xmpq' ns lfreeb vacuum_on d da c b (at_mn s (j - nsMinF p) m n) =
  if live b m n then x c b (at_mn s (j - nsMinF1 p) m n) else 0.
Proof.
  intros HS SU t G Hd Hc Hb Hj Hm Hm0 Hn.
  destruct (setting_ok _ _ _ _ _ _ _ _ _ _ _ _ _ _ HS) as (OK & M2 & RO & P0).
  assert (SH := supported_sh s OK SU). assert (F0 : (0 <= nsMinF p)%Z) by (destruct RO; lia).
  assert (Hj1 : (nsMinF1 p <= j < nsMaxF1 p)%Z) by (destruct RO; lia).
  assert (C := C56_forces _ _ _ _ _ _ _ _ _ _ _ _ s p b0 vacuum_on xmpq' d da c b j m n HS SU Hb ltac:(lia) Hm Hn). cbv zeta in C. fold t in C.
  assert (CN : ((nsMinF p <=? j) && (j <? (if lfreeb && vacuum_on then Z.min (nsMaxF p) ns else Z.min (nsMaxF p) (ns - 1))) && (negb (j =? 0) || (m =? 0)))%Z = true).
  { destruct (Z.leb_spec (nsMinF p) j); [|lia]. cbn [andb].
    destruct (Z.ltb_spec j (if lfreeb && vacuum_on then Z.min (nsMaxF p) ns else Z.min (nsMaxF p) (ns - 1))) as [L|L];
      [|destruct (lfreeb && vacuum_on); lia]. cbn [andb].
    destruct (Z.eqb_spec j 0) as [E0|]; [|reflexivity]. rewrite (Hm0 E0). reflexivity. }
  rewrite CN in C.
  assert (MP : (0 <= m < n_pol (sz_mpol s) j)%Z) by (unfold n_pol; destruct (Z.eqb_spec j 0); [specialize (Hm0 e); lia|lia]).
  assert (MQ : (n_pol (sz_mpol s) j <= sz_mpol s)%Z) by (unfold n_pol; destruct (Z.eqb_spec j 0); lia).
  assert (PS := project_series s OK c b (n_pol (sz_mpol s) j) (Z.even m) m n (xs s x c (j - nsMinF1 p))).
  unfold xs in PS at 2. rewrite <- PS; [|destruct Hc as [-> | ->]; discriminate|exact Hb|exact MP|exact MQ|exact Hn|reflexivity].
  destruct Hc as [-> | ->]; rewrite C; unfold work; apply grid_ext; intros k l Hk Hl;
  destruct (Hd (Z.even m) k l Hk Hl) as (D1 & D2 & D3 & D4 & D5 & D6 & D7 & D8).
  - rewrite D1, D3, D5, D7. unfold G. change t with (tab s b0).
    rewrite (geo_val s OK b0 p xmpq sqrtSF M2 SH P0 x g0 ga0 j k l Hj1 Hk Hl G_r1 (Z.even m)) by auto. unfold ser. cbn [cq]. ring.
  - rewrite D2, D4, D6, D8. unfold G. change t with (tab s b0).
    rewrite (geo_val s OK b0 p xmpq sqrtSF M2 SH P0 x g0 ga0 j k l Hj1 Hk Hl G_z1 (Z.even m)) by auto. unfold ser. cbn [cq]. ring.
Qed.
Print Assumptions C25_round_trip.

(** The basis functions are orthonormal on the grid (same setting). *)
Theorem C25_orthonormal lasym nfp mpol ntor ntheta nzeta mg ng s c b b' m m' n n' :
  make_sizes lasym nfp mpol ntor ntheta nzeta mg ng = Some s -> c <> cL ->
  In b (kinds (sz_lasym s) c) -> In b' (kinds (sz_lasym s) c) ->
  (0 <= m < sz_mpol s)%Z -> (0 <= m' < sz_mpol s)%Z -> (0 <= n <= sz_ntor s)%Z -> (0 <= n' <= sz_ntor s)%Z ->
  live b m n = true ->
  let ip := grid_avg s (fun k l => Phi (sz_nfp s) b' m' n' (theta_pt s l) (phi_pt s k) * Phi (sz_nfp s) b m n (theta_pt s l) (phi_pt s k)) in
  ((b, m, n) = (b', m', n') -> ip = 1) /\ ((b, m, n) <> (b', m', n') -> ip = 0).
Proof.
  intros S NL Hb Hb' Hm Hm' Hn Hn' LV ip. assert (OK := make_sizes_ok _ _ _ _ _ _ _ _ _ S).
  assert (E : ip = _) by (apply (grid_orth s OK c); assumption). rewrite LV, andb_true_r in E. split; intros H.
  - apply pair_equal_spec in H. destruct H as [H ->]. apply pair_equal_spec in H. destruct H as [-> ->].
    rewrite E, !Z.eqb_refl. destruct (bk_eqb_spec b' b'); [reflexivity|congruence].
  - rewrite E. destruct (bk_eqb_spec b b') as [->|]; [|reflexivity]. destruct (Z.eqb_spec m m') as [->|]; [|reflexivity].
    destruct (Z.eqb_spec n n') as [->|]; [|reflexivity]. congruence.
Qed.
Print Assumptions C25_orthonormal.

(** A concrete setting for C25, C26, C54, C56: a 5-period lasym run with mpol = 3,
    ntor = 2, second of three threads on 9 surfaces, and an axisymmetric one. *)
Example dft_case : exists s p, setting true 5 3 2 0 0 3 2 3 1 9 false s p /\ supported s /\
  sz_nZeta s = 8%Z /\ sz_nThetaEff s = 12%Z /\ (nsMinF1 p = 2 /\ nsMinF p = 3 /\ nsMaxF p = 6 /\ nsMaxF1 p = 7)%Z.
Proof.
  eexists. eexists. split; [|split].
  - split; [lia|]. split; [reflexivity|]. split; [lia|]. split; [lia|]. split; [lia|]. reflexivity.
  - left. cbn. lia.
  - repeat split.
Qed.
Example dft_case_2d : exists s p, setting false 1 2 0 0 0 2 0 1 0 4 true s p /\ supported s /\ sz_nThetaEff s = 6%Z /\ nsMaxF p = 4%Z.
Proof.
  eexists. eexists. split; [|split].
  - split; [lia|]. split; [reflexivity|]. split; [lia|]. split; [lia|]. split; [lia|]. reflexivity.
  - right. reflexivity.
  - split; reflexivity.
Qed.

(** C55, refuted: with ntor = 0 and nzeta = 2, which the input check accepts, the
    value stored for surface 1 at grid point (0, 0) is that of surface 2. *)
Theorem C55_axisymmetric_planes_refuted :
  exists s p b0 xmpq sqrtSF x g0 ga0 j k l,
    setting false 1 2 0 0 2 2 0 1 0 4 false s p /\
    (nsMinF1 p <= j < nsMaxF1 p)%Z /\ (0 <= k < sz_nZeta s)%Z /\ (0 <= l < sz_nThetaEff s)%Z /\
    let t := computeFourierBasis FastPoloidal (sz_nfp s) (sz_nZeta s) (sz_nThetaEven s) (sz_nThetaReduced s) (sz_mnyq2 s) (sz_nnyq2 s) b0 in
    g_q (geometryFromFourier s t p xmpq sqrtSF x g0 ga0) G_r1 true (at_pt s (j - nsMinF1 p) k l) = 1 /\
    series (sz_nfp s) (kinds (sz_lasym s) cR) (n_pol (sz_mpol s) j) (sz_ntor s) true
      (fun b m n => x cR b (at_mn s (j - nsMinF1 p) m n)) (theta_pt s l) (phi_pt s k) = 0.
Proof.
  eexists. eexists. exists (mkBT (fun _ => 0) (fun _ => 0) (fun _ => 0) (fun _ => 0) (fun _ => 0) (fun _ => 0) (fun _ => 0) (fun _ => 0) (fun _ => 0) (fun _ => 0) (fun _ => 0) (fun _ => 0)),
    (fun _ => 0), (fun _ => 0), (fun _ _ i => if (i =? 4)%Z then 1 else 0),
    (mkGeom (fun _ _ _ => 0) (fun _ => 0) (fun _ => 0)), (mkGeom (fun _ _ _ => 0) (fun _ => 0) (fun _ => 0)), 1%Z, 0%Z, 0%Z.
  split; [|split; [|split; [|split]]].
  - split; [lia|]. split; [reflexivity|]. split; [lia|]. split; [lia|]. split; [lia|]. reflexivity.
  - cbn. lia.
  - cbn. lia.
  - cbn. lia.
  - match goal with |- context [at_pt ?s' (1 - nsMinF1 ?p') 0 0] => set (s := s'); set (p := p') end.
    assert (OK : sz_ok s) by (apply (make_sizes_ok false 1 2 0 0 2 2 0); reflexivity).
    split.
    + change (at_pt s (1 - nsMinF1 p) 0 0) with ((2 - nsMinF1 p) * sz_nThetaEff s + 0)%Z.
      unfold geometryFromFourier. change (sz_lthreed s) with false. change (sz_lasym s) with false. cbv iota.
      match goal with |- context [computeFourierBasis FastPoloidal _ _ _ _ _ _ ?b] => set (b0 := b) end.
      change (computeFourierBasis FastPoloidal (sz_nfp s) (sz_nZeta s) (sz_nThetaEven s) (sz_nThetaReduced s) (sz_mnyq2 s) (sz_nnyq2 s) b0) with (tab s b0).
      rewrite (F2_at s OK); [|cbn; lia|cbn; lia]. cbn [src2_sym].
      change (if (2 =? 0)%Z then 2%Z else sz_mpol s) with 2%Z.
      change 2%Z with (0 + 1 + 1)%Z at 1. rewrite (zsum_snoc 0 (0 + 1)), zsum01 by lia.
      cbn [Z.even Bool.eqb]. change (Z.even (0 + 1)) with false. cbn [Bool.eqb].
      change (((2 - nsMinF1 p) * sz_mnsize s + 0 =? 4)%Z) with true. cbv iota.
      rewrite (t_cosmu s OK b0 0 0 ltac:(cbn; lia) ltac:(cbn; lia)). rewrite Rmult_0_l, cos_0. change (s2 0) with 1. ring.
    + unfold series. change (kinds (sz_lasym s) cR) with [b_cc; b_ss]. cbn [rsum].
      assert (Z0 : forall b, zsum 0 (n_pol (sz_mpol s) 1) (fun m => if Bool.eqb true (Z.even m) then zsum 0 (sz_ntor s + 1)
        (fun n => (if (at_mn s (1 - nsMinF1 p) m n =? 4)%Z then 1 else 0) * Phi (sz_nfp s) b m n (theta_pt s 0) (phi_pt s 0)) else 0) = 0).
      { intros b. apply zsum_zero. intros m Hm. destruct (Bool.eqb true (Z.even m)); [|reflexivity]. apply zsum_zero. intros n Hn.
        change (n_pol (sz_mpol s) 1) with 2%Z in Hm. change (sz_ntor s) with 0%Z in Hn.
        replace (at_mn s (1 - nsMinF1 p) m n) with ((2 + m) * 1 + n)%Z by (unfold at_mn; cbn; lia).
        destruct (Z.eqb_spec ((2 + m) * 1 + n) 4); [lia|ring]. }
      rewrite !Z0. ring.
Qed.
Print Assumptions C55_axisymmetric_planes_refuted.
