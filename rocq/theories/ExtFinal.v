From Coq Require Import ZArith List Reals Bool Lia Lra.
From Coquelicot Require Import Coquelicot.
From Verif Require Import Base BaseLemmas SumLemmas SizesModel FourierModel FourierSpec TrigSums DftSpec DftTables VacTables SurfModel SurfSpec SurfProofs SurfMirror SurfMain SurfFinal
  SingSumProofs LapProofs LapMain RegSpec ExtModel ExtSpec ExtSeg ExtProofs.
Open Scope R_scope.

(** The position and first-derivative arrays of the surface at the points of the
    thread, after a full or a partial update. *)
Section A.
Variable s : sizes.
Hypothesis OK : sz_ok s.
Hypothesis MQ : (sz_mpol s + 1 <= sz_mnyq2 s)%Z.
Variable b0 : basis_tables.
Variables ztMin ztMax : Z.
Hypothesis Hz : (0 <= ztMin <= ztMax)%Z.
Hypothesis Hz2 : (ztMax <= sz_nZnT s)%Z.
Variable fullUpdate : bool.
Variable X : coef -> Z -> R.
Variables (g : surf) (sg : Z).
Local Notation g' := (update s ztMin ztMax fullUpdate (vtab s b0) X sg g).
Local Notation nz := (sz_nZeta s).

Lemma sym_at kl c : (ztMin <= kl < ztMax)%Z -> is_second c = false ->
  sf_sym g' c (kl - off s ztMin c)%Z = pD s X c (tk s kl) (pk s kl).
Proof.
  intros Hk Hc.
  pose proof (arrays_at s OK MQ b0 ztMin ztMax Hz Hz2 fullUpdate X (sf_sym g) (sf_asym g) kl c Hk) as A.
  rewrite <- A by (rewrite Hc; discriminate). clear A. unfold update.
  destruct (inverseDFT s ztMin ztMax fullUpdate (vtab s b0) X (sf_sym g, sf_asym g)) as [a b]. cbn [fst].
  unfold derivedSurfaceQuantities. cbv zeta. cbn [sf_sym sf_asym sf_der sf_rzb2 sf_rcosuv sf_rsinuv].
  destruct fullUpdate; [|reflexivity].
  match goal with |- context [for_up 0 (sz_nZnT s) ?Bd ?S0] => set (r0 := for_up 0 (sz_nZnT s) Bd S0) end.
  destruct (sz_lasym s) eqn:EL.
  - match goal with |- context [for_up 0 (sz_nThetaEven s * nz) ?Bd ?S0] => destruct (for_up 0 (sz_nThetaEven s * nz) Bd S0) as [rc rs] end. reflexivity.
  - destruct (mirror_sym_val s OK a r0) as (M1 & M2 & M3).
    destruct (mirror_sym s (a, r0)) as [a1 r1]. cbn [fst snd] in *.
    match goal with |- context [for_up 0 (sz_nThetaEven s * nz) ?Bd ?S0] => destruct (for_up 0 (sz_nThetaEven s * nz) Bd S0) as [rc rs] end.
    cbn [sf_sym].
    assert (I : (kl < sz_nThetaReduced s * nz)%Z) by (pose proof (so_nZnT s OK) as E1; pose proof (so_nTE s OK) as E2; rewrite EL in E2; rewrite E1, E2 in Hz2; lia).
    destruct (M2 kl ltac:(lia)) as (E1 & E2 & _).
    destruct c; try discriminate Hc; unfold off; cbn [is_pos]; rewrite ?Z.sub_0_r; try assumption; rewrite M3; try reflexivity; discriminate.
Qed.
End A.

Lemma to_cyl_val s ztMin ztMax bc c kl : (ztMin <= kl < ztMax)%Z ->
  let j := (kl - ztMin)%Z in
  let k := (kl mod sz_nZeta s)%Z in
  let v := at3 bc j in
  let '(cr, cp, cz) := to_cylindrical s ztMin ztMax bc c in
  cr j = cos_phi s k * vx v + sin_phi s k * vy v /\ cp j = cos_phi s k * vy v - sin_phi s k * vx v /\ cz j = vz v.
Proof.
  intros Hk. cbv zeta. destruct (to_cylindrical s ztMin ztMax bc c) as [[cr cp] cz] eqn:E.
  pose (pr := fun c : (Z -> R) * (Z -> R) * (Z -> R) => (fst (fst c) (kl - ztMin)%Z, snd (fst c) (kl - ztMin)%Z, snd c (kl - ztMin)%Z)).
  assert (P : pr (to_cylindrical s ztMin ztMax bc c) =
    (cos_phi s (kl mod sz_nZeta s) * vx (at3 bc (kl - ztMin)) + sin_phi s (kl mod sz_nZeta s) * vy (at3 bc (kl - ztMin)),
     cos_phi s (kl mod sz_nZeta s) * vy (at3 bc (kl - ztMin)) - sin_phi s (kl mod sz_nZeta s) * vx (at3 bc (kl - ztMin)), vz (at3 bc (kl - ztMin)))).
  { unfold to_cylindrical. apply (for_up_set pr _ ztMin ztMax kl); [exact Hk| |].
    - intros [[x y] z]. unfold pr. cbn [fst snd]. rewrite !upd_eq. unfold at3. cbn [vx vy vz].
      rewrite !(Z.mul_comm 3). reflexivity.
    - intros q [[x y] z] Hq Ne. unfold pr. cbn [fst snd]. rewrite !upd_neq by lia. reflexivity. }
  rewrite E in P. unfold pr in P. cbn [fst snd] in P. injection P. intros. auto.
Qed.
Lemma cov_val s ztMin ztMax g br bp bz e kl : (ztMin <= kl < ztMax)%Z ->
  let j := (kl - ztMin)%Z in
  let d := (kl - derivOffset s ztMin)%Z in
  let e' := covariant_and_normal s ztMin ztMax g br bp bz e in
  let fr := br j + e_curR e j in let fp := bp j + e_curP e j in let fz := bz j + e_curZ e j in
  e_bSubU e' j = fr * sf_sym g Ru d + fz * sf_sym g Zu d /\
  e_bSubV e' j = fr * sf_sym g Rv d + fz * sf_sym g Zv d + fp * sf_sym g R1 kl /\
  e_bDotN e' j = - (fr * sf_der g Snr j + fp * sf_der g Snv j + fz * sf_der g Snz j).
Proof.
  intros Hk. cbv zeta. unfold covariant_and_normal. cbv zeta.
  match goal with |- context [for_up ztMin ztMax ?Bd ?S0] => set (res := for_up ztMin ztMax Bd S0) end.
  pose (pr := fun c : (Z -> R) * (Z -> R) * (Z -> R) => (fst (fst c) (kl - ztMin)%Z, snd (fst c) (kl - ztMin)%Z, snd c (kl - ztMin)%Z)).
  assert (P : pr res = ((br (kl - ztMin)%Z + e_curR e (kl - ztMin)%Z) * sf_sym g Ru (kl - derivOffset s ztMin)%Z + (bz (kl - ztMin)%Z + e_curZ e (kl - ztMin)%Z) * sf_sym g Zu (kl - derivOffset s ztMin)%Z,
    (br (kl - ztMin)%Z + e_curR e (kl - ztMin)%Z) * sf_sym g Rv (kl - derivOffset s ztMin)%Z + (bz (kl - ztMin)%Z + e_curZ e (kl - ztMin)%Z) * sf_sym g Zv (kl - derivOffset s ztMin)%Z + (bp (kl - ztMin)%Z + e_curP e (kl - ztMin)%Z) * sf_sym g R1 kl,
    - ((br (kl - ztMin)%Z + e_curR e (kl - ztMin)%Z) * sf_der g Snr (kl - ztMin)%Z + (bp (kl - ztMin)%Z + e_curP e (kl - ztMin)%Z) * sf_der g Snv (kl - ztMin)%Z + (bz (kl - ztMin)%Z + e_curZ e (kl - ztMin)%Z) * sf_der g Snz (kl - ztMin)%Z))).
  { unfold res. apply (for_up_set pr _ ztMin ztMax kl); [exact Hk| |].
    - intros [[x y] z]. unfold pr. cbn [fst snd]. rewrite !upd_eq. reflexivity.
    - intros q [[x y] z] Hq Ne. unfold pr. cbn [fst snd]. rewrite !upd_neq by lia. reflexivity. }
  destruct res as [[x y] z]. unfold pr in P. cbn [fst snd] in P. cbn [e_bSubU e_bSubV e_bDotN]. injection P. intros. auto.
Qed.


Lemma cyl_dots p v br bp bz : let B := vadd v (cyl_vec p br bp bz) in
  dot B (e_R p) = br + (cos p * vx v + sin p * vy v) /\ dot B (e_phi p) = bp + (cos p * vy v - sin p * vx v) /\ dot B e_Z = bz + vz v.
Proof.
  cbv zeta. unfold dot, vadd, cyl_vec, scale, e_R, e_phi, e_Z. cbn [vx vy vz]. unfold vadd. cbn [vx vy vz]. pose proof (cs1 p) as H. set (C := cos p) in *. set (S' := sin p) in *.
  repeat split; try ring.
  - transitivity (br * (C * C + S' * S') + (C * vx v + S' * vy v)); [ring|rewrite H; ring].
  - transitivity (bp * (C * C + S' * S') + (C * vy v - S' * vx v)); [ring|rewrite H; ring].
Qed.
Section B.
Variable s : sizes.
Hypothesis OK : sz_ok s.
Hypothesis MQ : (sz_mpol s + 1 <= sz_mnyq2 s)%Z.
Variable b0 : basis_tables.
Variables ztMin ztMax : Z.
Hypothesis Hz : (0 <= ztMin <= ztMax)%Z.
Hypothesis Hz2 : (ztMax <= sz_nZnT s)%Z.
Variable fullUpdate : bool.
Variable X : coef -> Z -> R.
Variables (g : surf) (sg : Z).
Local Notation g' := (update s ztMin ztMax fullUpdate (vtab s b0) X sg g).
Local Notation nz := (sz_nZeta s).
Local Notation N := (nz * nvper s)%Z.
Local Notation F := (Fs s X).
Variables rAxis zAxis : Z -> R.
Local Notation V := (axis_vertex nz (nvper s) rAxis zAxis).

Lemma phi_k kl : cos_phi s (kl mod nz) = cos (pk s kl) /\ sin_phi s (kl mod nz) = sin (pk s kl).
Proof.
  unfold cos_phi, sin_phi, pk, tor_angle. pose proof (so_nfp s OK). pose proof (so_nZeta s OK).
  replace (2 * PI / IZR (sz_nfp s * nz) * IZR (kl mod nz)) with (2 * PI * IZR (kl mod nz) / (IZR (sz_nfp s) * IZR nz)).
  - auto.
  - rewrite mult_IZR. field. split; apply not_0_IZR; lia.
Qed.

Lemma ext_val cur br bp bz e kl : (ztMin <= kl < ztMax)%Z ->
  let t := tk s kl in let p := pk s kl in let x := F t p in
  (forall i, (0 <= i < N)%Z -> off_segment (V i) (V ((i + 1) mod N)%Z) x) ->
  let e' := ext_update s ztMin ztMax g' rAxis zAxis cur br bp bz e in
  let j := (kl - ztMin)%Z in
  let B := total_field cur N V x p (br j) (bp j) (bz j) in
  e_bSubU e' j = dot B (d_t F t p) /\ e_bSubV e' j = dot B (d_p F t p) /\ e_bDotN e' j = - dot B (normal (IZR sg) F t p).
Proof.
  intros Hk. cbv zeta. intros OFF.
  destruct (phi_k kl) as [PC PS].
  destruct (cov_val s ztMin ztMax g' br bp bz (add_axis_current s ztMin ztMax g' rAxis zAxis cur e) kl Hk) as (C1 & C2 & C3).
  unfold ext_update. rewrite C1, C2, C3. clear C1 C2 C3.
  set (ax := axis_close s (axis_copies s zAxis (axis_first s rAxis zAxis (e_axis e)))).
  set (sx := surface_points s ztMin ztMax g' (e_surf e)).
  set (bc := filament_field s ztMin ztMax cur ax sx (fun _ => 0)).
  assert (SX : at3 sx (kl - ztMin) = F (tk s kl) (pk s kl)).
  { unfold sx. rewrite surface_val by exact Hk. rewrite PC, PS.
    pose proof (sym_at s OK MQ b0 ztMin ztMax Hz Hz2 fullUpdate X g sg kl R1 Hk eq_refl) as S1.
    pose proof (sym_at s OK MQ b0 ztMin ztMax Hz Hz2 fullUpdate X g sg kl Z1 Hk eq_refl) as S2.
    unfold off in S1, S2. cbn [is_pos] in S1, S2. rewrite Z.sub_0_r in S1, S2. rewrite S1, S2. reflexivity. }
  assert (PF : polygon_field cur N V (F (tk s kl) (pk s kl)) = at3 bc (kl - ztMin)).
  { assert (K : forall pr : vec -> R, (pr = vx \/ pr = vy \/ pr = vz) ->
       cur * zsum 0 N (fun i => pr (segment_field (V i) (V ((i + 1) mod N)%Z) (F (tk s kl) (pk s kl)))) = pr (at3 bc (kl - ztMin))).
    { intros pr Hp. unfold bc. rewrite filament_comp by assumption. rewrite <- zsum_scale. apply zsum_ext. intros i Hi.
      unfold ax. rewrite !axis_val by (assumption || lia). rewrite (Z.mod_small i) by lia. rewrite SX.
      rewrite code_segment by (apply OFF; exact Hi). destruct Hp as [->|[->| ->]]; reflexivity. }
    unfold polygon_field. apply vec_eq; cbn [vx vy vz]; apply K; auto. }
  pose proof (to_cyl_val s ztMin ztMax bc (e_curR e, e_curP e, e_curZ e) kl Hk) as TC. cbv zeta in TC.
  assert (CUR : e_curR (add_axis_current s ztMin ztMax g' rAxis zAxis cur e) (kl - ztMin)%Z = cos_phi s (kl mod nz) * vx (at3 bc (kl - ztMin)) + sin_phi s (kl mod nz) * vy (at3 bc (kl - ztMin)) /\
    e_curP (add_axis_current s ztMin ztMax g' rAxis zAxis cur e) (kl - ztMin)%Z = cos_phi s (kl mod nz) * vy (at3 bc (kl - ztMin)) - sin_phi s (kl mod nz) * vx (at3 bc (kl - ztMin)) /\
    e_curZ (add_axis_current s ztMin ztMax g' rAxis zAxis cur e) (kl - ztMin)%Z = vz (at3 bc (kl - ztMin))).
  { unfold add_axis_current. cbv zeta. fold ax sx. fold bc.
    destruct (to_cylindrical s ztMin ztMax bc (e_curR e, e_curP e, e_curZ e)) as [[cr cp] cz]. cbn [e_curR e_curP e_curZ]. exact TC. }
  destruct CUR as (U1 & U2 & U3). rewrite U1, U2, U3. clear U1 U2 U3 TC. rewrite PC, PS.
  destruct (cyl_dots (pk s kl) (at3 bc (kl - ztMin)) (br (kl - ztMin)%Z) (bp (kl - ztMin)%Z) (bz (kl - ztMin)%Z)) as (D1 & D2 & D3).
  unfold total_field. rewrite PF. rewrite <- D1, <- D2, <- D3.
  set (B := vadd (at3 bc (kl - ztMin)) _).
  rewrite (dot_cyl B (d_t F _ _) (pk s kl)), (dot_cyl B (d_p F _ _) (pk s kl)), (dot_cyl B (normal _ F _ _) (pk s kl)).
  destruct (first_order s OK MQ b0 ztMin ztMax Hz Hz2 fullUpdate X g sg kl Hk) as (N1 & N2 & N3 & _).
  rewrite N1, N2, N3.
  assert (SYM : forall c, is_second c = false -> is_pos c = false -> sf_sym g' c (kl - derivOffset s ztMin)%Z = pD s X c (tk s kl) (pk s kl)).
  { intros c H1 H2. rewrite <- (sym_at s OK MQ b0 ztMin ztMax Hz Hz2 fullUpdate X g sg kl c Hk H1). unfold off. rewrite H2. reflexivity. }
  assert (SR : sf_sym g' R1 kl = pD s X R1 (tk s kl) (pk s kl)).
  { rewrite <- (sym_at s OK MQ b0 ztMin ztMax Hz Hz2 fullUpdate X g sg kl R1 Hk eq_refl). unfold off. cbn [is_pos]. rewrite Z.sub_0_r. reflexivity. }
  rewrite !SYM by reflexivity. rewrite SR. unfold pD. cbn [is_r ou ov].
  pose proof (cs1 (pk s kl)) as CS.
  unfold Fs. rewrite (F_t _ _ (r_t s X) (z_t s X)), (F_p _ _ (r_p s X) (z_p s X)).
  unfold dot, e_R, e_phi, e_Z. cbn [vx vy vz].
  set (C := cos (pk s kl)) in *. set (S' := sin (pk s kl)) in *.
  repeat split.
  - match goal with |- ?A * ?ru + ?Zc * ?zu = _ => transitivity (A * (ru * (C * C + S' * S')) + Zc * zu); [rewrite CS; ring|ring] end.
  - match goal with |- ?A * ?rv + ?Zc * ?zv + ?P * ?r1 = _ =>
      transitivity (A * (rv * (C * C + S' * S')) + Zc * zv + P * (r1 * (C * C + S' * S'))); [rewrite CS; ring|ring] end.
Qed.
End B.

Lemma ext_sizes lasym nfp mpol ntor ntheta nzeta mg ng s b0 ztMin ztMax fullUpdate X sg g rAxis zAxis cur br bp bz e kl :
  make_sizes lasym nfp mpol ntor ntheta nzeta mg ng = Some s ->
  (0 <= ztMin <= ztMax)%Z -> (ztMax <= sz_nZnT s)%Z -> (ztMin <= kl < ztMax)%Z ->
  let F := boundary lasym nfp mpol ntor X in
  let t := 2 * PI * IZR (kl / sz_nZeta s) / IZR (sz_nThetaEven s) in
  let p := 2 * PI * IZR (kl mod sz_nZeta s) / (IZR nfp * IZR (sz_nZeta s)) in
  let per := if (sz_nZeta s =? 1)%Z then 64%Z else nfp in
  let n := (sz_nZeta s * per)%Z in
  let v := axis_vertex (sz_nZeta s) per rAxis zAxis in
  (forall i, (0 <= i < n)%Z -> off_segment (v i) (v ((i + 1) mod n)%Z) (F t p)) ->
  let g' := update s ztMin ztMax fullUpdate (vtab s b0) X sg g in
  let e' := ext_update s ztMin ztMax g' rAxis zAxis cur br bp bz e in
  let j := (kl - ztMin)%Z in
  let B := total_field cur n v (F t p) p (br j) (bp j) (bz j) in
  e_bSubU e' j = dot B (d_t F t p) /\ e_bSubV e' j = dot B (d_p F t p) /\ e_bDotN e' j = - dot B (normal (IZR sg) F t p).
Proof.
  intros E H1 H2 H3. pose proof (make_sizes_ok _ _ _ _ _ _ _ _ _ E) as OK.
  destruct (make_sizes_mnyq2 _ _ _ _ _ _ _ _ _ E) as [MQ _]. destruct (make_sizes_nfp _ _ _ _ _ _ _ _ _ E) as (E1 & E2 & E3 & E4).
  clear E. subst lasym nfp mpol ntor.
  exact (ext_val s OK MQ b0 ztMin ztMax H1 H2 fullUpdate X g sg rAxis zAxis cur br bp bz e kl H3).
Qed.

Lemma polygon_convex x1 x2 u : x1 <= 3 -> x2 <= 3 -> 0 <= u <= 1 -> x1 + u * (x2 - x1) <= 3.
Proof. intros. nra. Qed.
Lemma ext_case : exists s, make_sizes false 5 2 0 0 1 0 0 = Some s /\ sz_nZeta s = 1%Z /\
  let v := axis_vertex 1 64 (fun _ => 3) (fun _ => 0) in
  forall i, (0 <= i < 64)%Z -> off_segment (v i) (v ((i + 1) mod 64)%Z) (boundary false 5 2 0 torus 0 0).
Proof.
  assert (EZ : option_map sz_nZeta (make_sizes false 5 2 0 0 1 0 0) = Some 1%Z) by reflexivity.
  destruct (make_sizes false 5 2 0 0 1 0 0) as [s|] eqn:E; [|discriminate EZ].
  cbn [option_map] in EZ. apply some_inj in EZ. symmetry in EZ. exists s. split; [reflexivity|]. split; [exact EZ|].
  cbv zeta. intros i _ u Hu EQ. apply (f_equal vx) in EQ. unfold axis_vertex, vadd, scale, vsub in EQ. cbn [vx] in EQ.
  unfold boundary, surface in EQ. cbn [vx] in EQ. unfold series, zsum in EQ.
  change (zrange 0 (0 + 1)) with (cons 0%Z nil) in EQ. change (zrange 0 2) with (cons 0%Z (cons 1%Z nil)) in EQ.
  cbn [rsum] in EQ. unfold torus in EQ. cbn [Z.mul Z.add Z.eqb Pos.eqb] in EQ.
  rewrite !Rmult_0_r, cos_0, sin_0 in EQ. unfold s2 in EQ. cbn [Z.eqb] in EQ.
  assert (0 < sqrt 2) by (apply sqrt_lt_R0; lra).
  match type of EQ with _ = 3 * cos ?a + u * (3 * cos ?b - 3 * cos ?a) =>
    pose proof (COS_bound a); pose proof (COS_bound b); pose proof (polygon_convex (3 * cos a) (3 * cos b) u ltac:(lra) ltac:(lra) Hu) end.
  lra.
Qed.
