From Coq Require Import String ZArith List Bool Lia.
From Verif Require Import Base BaseLemmas Num IndataModel IndataSpec IndataProofs IndataProofs IndataMore PyCoefModel PyCoefProofs PyInputModel PyInputSpec.
Import ListNotations.
Open Scope Z_scope.

Section P.
Context {K : num}.
Lemma set_int_ok z : fits32 z -> set_int z = Ok z.
Proof. intros (A & B). unfold set_int, int_fits. destruct (Z.leb_spec (- 2 ^ 31) z); [|lia]. destruct (Z.ltb_spec z (2 ^ 31)); [reflexivity|lia]. Qed.
Lemma to_int_id z : fits32 z -> to_int z = z.
Proof. intros (A & B). unfold to_int. rewrite Z.mod_small; lia. Qed.
Lemma map_to_int l : (forall z, In z l -> fits32 z) -> map to_int l = l.
Proof. induction l as [|a l IH]; intros H; [reflexivity|]. cbn [map]. rewrite to_int_id by (apply H; left; reflexivity). rewrite IH by (intros z Hz; apply H; right; exact Hz). reflexivity. Qed.
Lemma assign_1d_same (a v : list K) : Z.of_nat (length a) = Z.of_nat (length v) -> assign_1d a v = Ok v.
Proof. intros E. unfold assign_1d, zlen. rewrite E, Z.eqb_refl. reflexivity. Qed.
Lemma assign_2d_same (a v : mat K) r c : shaped a r c -> shaped v r c -> assign_2d a v = Ok v.
Proof.
  intros (A1 & A2 & _) (V1 & V2 & _). unfold assign_2d. rewrite A1, A2, V1, V2, !Z.eqb_refl. reflexivity.
Qed.
Lemma default_sized (x : indata K) la : mpol x = 6 -> ntor x = 0 -> raxis_c x = zeros 1 -> zaxis_s x = zeros 1 -> raxis_s x = None -> zaxis_c x = None ->
  rbc x = zero_mat 6 1 -> zbs x = zero_mat 6 1 -> rbs x = None -> zbc x = None -> lasym x = la -> well_sized x.
Proof.
  intros E1 E2 E3 E4 E5 E6 E7 E8 E9 E10 _. unfold well_sized. rewrite E1, E2, E3, E4, E5, E6, E7, E8, E9, E10.
  assert (S : shaped (zero_mat (K := K) 6 1) 6 (2 * 0 + 1)).
  { split; [reflexivity|]. split; [reflexivity|]. split; [reflexivity|]. intros row Hr. unfold zero_mat in Hr. cbn [m_body] in Hr. apply repeat_spec in Hr. subst row. reflexivity. }
  repeat split; try reflexivity; try discriminate; try exact S; try (apply S).
Qed.

Lemma to_cpp_ok (v : vmec_input K) mp nt : sent v mp nt -> to_cpp v = Ok (i_fields v).
Proof.
  intros (RM & RN & EM & EN & Hm & Hn & W & F & AS). set (x := i_fields v) in *.
  destruct F as (F1 & F2 & F3 & F4 & F5 & F6 & F7 & F8 & F9 & F10 & F11 & F12).
  unfold to_cpp. fold x. rewrite !set_int_ok by assumption. cbn [obind]. rewrite RM, RN. cbn [obind].
  assert (G1 : fits32 mp) by (rewrite <- EM; assumption). assert (G2 : fits32 nt) by (rewrite <- EN; assumption).
  rewrite (set_int_ok mp G1), (set_int_ok nt G2). cbn [obind].
  match goal with |- context [SetMpolNtor mp nt ?c] => set (c0 := c) end.
  assert (W0 : well_sized c0) by (apply (default_sized c0 (lasym x)); reflexivity).
  destruct (SetMpolNtor_ok c0 mp nt) as (c1 & E & C1 & C2 & SS & A1 & A2 & B1 & B2 & AA); [cbn; lia|cbn; lia|exact W0|lia|lia|].
  rewrite E. cbn [obind].
  destruct W as (W1 & W2 & W3 & W4 & W5 & W6 & W7 & W8). rewrite EM, EN in *.
  rewrite (assign_1d_same (raxis_c c1) (raxis_c x)) by (rewrite (proj1 A1); congruence). cbn [obind].
  rewrite (assign_1d_same (zaxis_s c1) (zaxis_s x)) by (rewrite (proj1 A2); congruence). cbn [obind].
  rewrite (assign_2d_same _ _ _ _ (proj1 B1) W3), (assign_2d_same _ _ _ _ (proj1 B2) W4).
  assert (LX : lasym c0 = lasym x) by reflexivity. rewrite LX in AA.
  assert (Q : assign_opt assign_1d (lasym x) (raxis_s c1) (raxis_s x) = Ok (raxis_s x) /\ assign_opt assign_1d (lasym x) (zaxis_c c1) (zaxis_c x) = Ok (zaxis_c x) /\
    assign_opt assign_2d (lasym x) (rbs c1) (rbs x) = Ok (rbs x) /\ assign_opt assign_2d (lasym x) (zbc c1) (zbc x) = Ok (zbc x)).
  { destruct (lasym x) eqn:LA.
    - destruct AS as (N1 & N2 & N3 & N4). destruct AA as ((a1 & P1 & Q1) & (a2 & P2 & Q2) & (b1 & P3 & Q3) & (b2 & P4 & Q4)).
      destruct (raxis_s x) as [r1|] eqn:R1; [|contradiction]. destruct (zaxis_c x) as [r2|] eqn:R2; [|contradiction].
      destruct (rbs x) as [r3|] eqn:R3; [|contradiction]. destruct (zbc x) as [r4|] eqn:R4; [|contradiction].
      rewrite P1, P2, P3, P4. cbn [assign_opt].
      rewrite (assign_1d_same a1 r1) by (rewrite (proj1 Q1); rewrite (W5 r1 eq_refl); reflexivity).
      rewrite (assign_1d_same a2 r2) by (rewrite (proj1 Q2); rewrite (W6 r2 eq_refl); reflexivity).
      rewrite (assign_2d_same b1 r3 mp (2 * nt + 1) (proj1 Q3) (W7 r3 eq_refl)), (assign_2d_same b2 r4 mp (2 * nt + 1) (proj1 Q4) (W8 r4 eq_refl)). repeat split; reflexivity.
    - destruct AS as (N1 & N2 & N3 & N4). destruct AA as (P1 & P2 & P3 & P4). rewrite N1, N2, N3, N4, P1, P2, P3, P4. repeat split; reflexivity. }
  destruct Q as (Q1 & Q2 & Q3 & Q4). rewrite Q1, Q2, Q3, Q4. cbn [obind]. apply f_equal.
  unfold with_coefs. rewrite C1, C2, <- EM, <- EN. clear - SS F8 F9.
  unfold same_settings in SS. decompose [and] SS. clear SS.
  repeat match goal with H : _ c0 = ?r |- _ => rewrite <- H; clear H end.
  unfold c0. cbn. rewrite !map_to_int by assumption. destruct x. reflexivity.
Qed.

Lemma validate_2d_id mp nt (b : mat K) : shaped b mp (2 * nt + 1) -> validate_2d mp nt (Some b) = Ok b.
Proof. intros (A & B & _). unfold validate_2d. cbn [obind]. rewrite A, B, !Z.eqb_refl. reflexivity. Qed.
Lemma validate_1d_id nt (a : list K) : Z.of_nat (length a) = nt + 1 -> validate_1d nt (Some a) = Ok (Some a).
Proof. intros A. unfold validate_1d, zlen. rewrite A, Z.eqb_refl. reflexivity. Qed.
Lemma validate_1d_opt nt (o : option (list K)) : (forall a, o = Some a -> Z.of_nat (length a) = nt + 1) -> validate_1d nt o = Ok o.
Proof. destruct o as [a|]; [|reflexivity]. intros H. apply validate_1d_id, H. reflexivity. Qed.

Lemma validate_id (v : vmec_input K) mp nt : consistent v mp nt -> validate v = Ok v.
Proof.
  intros (CM & CN & RM & RN & EM & EN & _ & _ & NC & SH & (W1 & W2 & W3 & W4 & W5 & W6 & W7 & W8) & AS). destruct v as [m n x]. cbn [i_mpol i_ntor i_fields] in *.
  unfold validate. cbn [i_mpol i_ntor i_fields]. rewrite CM, CN. cbn [obind].
  assert (NC' : (ncurr x =? 0) || (ncurr x =? 1) = true) by (destruct NC as [-> | ->]; reflexivity).
  destruct SH as (S1 & S2 & S3 & S4). unfold short. rewrite NC'. cbn [raise_unless obind].
  apply Nat.leb_le in S1, S2, S3, S4. rewrite S1, S2, S3, S4. cbn [andb raise_unless obind]. rewrite RM, RN. cbn [obind]. rewrite EM, EN in *.
  rewrite !validate_2d_id by assumption. cbn [obind]. destruct (lasym x) eqn:LA.
  - destruct AS as (A3 & A4). destruct (rbs x) as [b3|] eqn:R3; [|contradiction]. destruct (zbc x) as [b4|] eqn:R4; [|contradiction].
    rewrite (validate_2d_id mp nt b3) by (apply W7; reflexivity). cbn [obind]. rewrite (validate_2d_id mp nt b4) by (apply W8; reflexivity). cbn [obind].
    rewrite !validate_1d_id by assumption. cbn [obind]. rewrite !validate_1d_opt by assumption. cbn [obind raise_unless orb fst snd].
    unfold with_coefs. destruct x; cbn in *; subst; reflexivity.
  - destruct AS as (A1 & A2 & A3 & A4). cbn [obind]. rewrite !validate_1d_id by assumption. cbn [obind fst snd]. rewrite A1, A2, A3, A4. cbn.
    unfold with_coefs. destruct x; cbn in *; subst; reflexivity.
Qed.
Lemma obind_ok {A B} (a : outcome A) (f : A -> outcome B) r : obind a f = Ok r -> exists x, a = Ok x /\ f x = Ok r.
Proof. destruct a; cbn; try discriminate. intros H. eexists. split; [reflexivity|exact H]. Qed.
Lemma raise_ok b u : raise_unless b = Ok u -> b = true.
Proof. destruct b; [reflexivity|discriminate]. Qed.
Lemma validate_2d_shaped mp nt (c r : mat K) : ndarray c -> validate_2d mp nt (Some c) = Ok r -> shaped r mp (2 * nt + 1) /\ 0 <= mp /\ 0 <= nt.
Proof.
  intros (R & C & HR & HC & S) E. unfold validate_2d in E. cbn [obind] in E. pose proof S as (S1 & S2 & _). rewrite S1, S2 in E.
  destruct ((R =? mp) && (C =? 2 * nt + 1)) eqn:Q.
  - rewrite andb_true_iff, !Z.eqb_eq in Q. destruct Q as (<- & ->). injection E as <-. split; [exact S|lia].
  - pose proof E as E'. unfold resize_2d_coeff in E. apply obind_ok in E. destruct E as (u & E1 & E). apply obind_ok in E. destruct E as (u2 & E2 & E).
    apply raise_ok in E1, E2. apply Z.geb_le in E1, E2. cbv zeta in E. apply obind_ok in E. destruct E as (u3 & E3 & E). apply raise_ok in E3. apply Z.eqb_eq in E3. rewrite S2 in E3.
    set (q := (C - 1) / 2) in *. assert (0 <= q) by lia. rewrite E3 in S.
    destruct (resize_2d_ok R q mp nt c HR ltac:(lia) S E1 E2) as (c' & Ec & Sc & _). rewrite Ec in E'. injection E' as <-. split; [exact Sc|lia].
Qed.
Lemma validate_2d_none mp nt (r : mat K) : 0 <= mp -> 0 <= nt -> validate_2d mp nt None = Ok r -> shaped r mp (2 * nt + 1).
Proof.
  intros Hm Hn E. destruct (validate_2d_ok (K := K) mp nt mp nt None Hm Hn Hm Hn I) as (r' & E' & ->). rewrite E in E'. injection E' as ->.
  apply zero_mat_shaped; lia.
Qed.
Lemma validate_1d_len nt (a : list K) r : validate_1d nt (Some a) = Ok r -> exists b, r = Some b /\ Z.of_nat (length b) = nt + 1.
Proof.
  unfold validate_1d, zlen. destruct (Z.eqb_spec (Z.of_nat (length a)) (nt + 1)) as [E|E].
  - intros H. injection H as <-. exists a. auto.
  - intros H. apply obind_ok in H. destruct H as (b & E1 & H). injection H as <-. exists b. split; [reflexivity|].
    unfold resize_1d_axis_coeff in E1. apply obind_ok in E1. destruct E1 as (u & _ & E1). cbv zeta in E1. apply obind_ok in E1. destruct E1 as (u2 & L & E1). apply raise_ok in L.
    injection E1 as <-. unfold zlen in *. rewrite negb_true_iff in L. destruct (Z.gtb_spec (Z.of_nat (length a)) (nt + 1)); [discriminate|].
    rewrite app_length. unfold zeros. rewrite repeat_length. lia.
Qed.
Lemma validate_1d_opt_len nt (o r : option (list K)) : validate_1d nt o = Ok r -> (forall a, r = Some a -> Z.of_nat (length a) = nt + 1) /\ (r = None <-> o = None).
Proof.
  destruct o as [a|].
  - intros H. apply validate_1d_len in H. destruct H as (b & -> & L). split; [intros a' E; injection E as <-; exact L|split; discriminate].
  - intros H. injection H as <-. split; [discriminate|tauto].
Qed.
Lemma coerce_coerced r r' : coerce_mpol_ntor r = Ok r' -> coerce_mpol_ntor r' = Ok r'.
Proof.
  destruct r as [z|l]; cbn; [intros H; injection H as <-; reflexivity|]. destruct (forallb fits64 l) eqn:F; [|discriminate]. cbn.
  intros H. injection H as <-. destruct l as [|a [|b l]]; try reflexivity. cbn [coerce_mpol_ntor]. rewrite F. reflexivity.
Qed.
Lemma none_true {A} (o : option A) : none o = true -> o = None.
Proof. destruct o; [discriminate|reflexivity]. Qed.

Lemma validate_result (v0 v : vmec_input K) : given v0 -> validate v0 = Ok v ->
  exists mp nt, consistent v mp nt /\ same_settings (i_fields v0) (i_fields v) /\
    (lasym (i_fields v0) = true -> (raxis_s (i_fields v) = None <-> raxis_s (i_fields v0) = None) /\ (zaxis_c (i_fields v) = None <-> zaxis_c (i_fields v0) = None)).
Proof.
  intros (G1 & G2 & G3 & G4) E. unfold validate in E. set (x := i_fields v0) in *.
  apply obind_ok in E. destruct E as (m & CM & E). apply obind_ok in E. destruct E as (n & CN & E).
  apply obind_ok in E. destruct E as (u1 & NC & E). apply raise_ok in NC. apply obind_ok in E. destruct E as (u2 & SH & E). apply raise_ok in SH.
  apply obind_ok in E. destruct E as (mp & RM & E). apply obind_ok in E. destruct E as (nt & RN & E).
  apply obind_ok in E. destruct E as (b1 & V1 & E). apply obind_ok in E. destruct E as (b2 & V2 & E).
  apply obind_ok in E. destruct E as (b34 & V34 & E). apply obind_ok in E. destruct E as (rc & A1 & E). apply obind_ok in E. destruct E as (zs & A2 & E).
  apply obind_ok in E. destruct E as (ax & A34 & E). apply obind_ok in E. destruct E as (u3 & SY & E). apply raise_ok in SY.
  destruct (validate_2d_shaped _ _ _ _ G1 V1) as (S1 & Hm & Hn). destruct (validate_2d_shaped _ _ _ _ G2 V2) as (S2 & _).
  destruct (validate_1d_len _ _ _ A1) as (rc' & -> & L1). destruct (validate_1d_len _ _ _ A2) as (zs' & -> & L2). injection E as <-.
  apply coerce_coerced in CM. apply coerce_coerced in CN.
  rewrite !andb_true_iff in SH. destruct SH as (((H1 & H2) & H3) & H4). apply Nat.leb_le in H1, H2, H3, H4.
  rewrite orb_true_iff, !Z.eqb_eq in NC. rewrite orb_true_iff in SY.
  exists mp, nt. unfold consistent, well_sized. cbn [i_mpol i_ntor i_fields with_coefs mpol ntor ncurr pmass_type piota_type pcurr_type mgrid_file raxis_c zaxis_s rbc zbs raxis_s zaxis_c rbs zbc lasym].
  split; [|split; [unfold same_settings; cbn; repeat split|]].
  - split; [exact CM|]. split; [exact CN|]. split; [exact RM|]. split; [exact RN|]. split; [reflexivity|]. split; [reflexivity|]. split; [exact Hm|]. split; [exact Hn|]. split; [exact NC|]. split; [tauto|].
    destruct (lasym x) eqn:LA.
    + apply obind_ok in V34. destruct V34 as (b3 & V3 & V34). apply obind_ok in V34. destruct V34 as (b4 & V4 & V34). injection V34 as <-.
      apply obind_ok in A34. destruct A34 as (rs & A3 & A34). apply obind_ok in A34. destruct A34 as (zc & A4 & A34). injection A34 as <-. cbn [fst snd].
      assert (S3 : shaped b3 mp (2 * nt + 1)).
      { destruct (rbs x) as [c|]; [exact (proj1 (validate_2d_shaped _ _ _ _ (G3 c eq_refl) V3))|exact (validate_2d_none _ _ _ Hm Hn V3)]. }
      assert (S4 : shaped b4 mp (2 * nt + 1)).
      { destruct (zbc x) as [c|]; [exact (proj1 (validate_2d_shaped _ _ _ _ (G4 c eq_refl) V4))|exact (validate_2d_none _ _ _ Hm Hn V4)]. }
      split; [|split; discriminate]. split; [exact L1|]. split; [exact L2|]. split; [exact S1|]. split; [exact S2|].
      split; [exact (proj1 (validate_1d_opt_len _ _ _ A3))|]. split; [exact (proj1 (validate_1d_opt_len _ _ _ A4))|].
      split; intros b Eb; injection Eb as <-; assumption.
    + injection V34 as <-. injection A34 as <-. cbn [fst snd] in *. destruct SY as [SY|SY]; [discriminate|].
      rewrite !andb_true_iff in SY. destruct SY as (((N1 & N2) & N3) & N4). apply none_true in N1, N2, N3, N4. rewrite N1, N2, N3, N4.
      split; [|repeat split; reflexivity]. split; [exact L1|]. split; [exact L2|]. split; [exact S1|]. split; [exact S2|]. repeat split; discriminate.
  - intros LA. rewrite LA in A34. apply obind_ok in A34. destruct A34 as (rs & A3 & A34). apply obind_ok in A34. destruct A34 as (zc & A4 & A34). injection A34 as <-. cbn [fst snd].
    split; [exact (proj2 (validate_1d_opt_len _ _ _ A3))|exact (proj2 (validate_1d_opt_len _ _ _ A4))].
Qed.
End P.

Section Q.
Context {K : num}.
Lemma accepted_sent (v0 v : vmec_input K) : given v0 -> validate v0 = Ok v ->
  ints_fit (i_fields v) -> ntor (i_fields v) < 2 ^ 30 ->
  (lasym (i_fields v0) = true -> raxis_s (i_fields v0) <> None /\ zaxis_c (i_fields v0) <> None) ->
  to_cpp v = Ok (i_fields v).
Proof.
  intros G E F N A. destruct (validate_result v0 v G E) as (mp & nt & C & S & AX).
  destruct C as (_ & _ & R1 & R2 & M & NT & Hm & Hn & _ & _ & W & L). apply (to_cpp_ok v mp nt).
  assert (LA : lasym (i_fields v0) = lasym (i_fields v)) by apply S.
  split; [exact R1|]. split; [exact R2|]. split; [exact M|]. split; [exact NT|]. split; [lia|]. split; [lia|]. split; [exact W|]. split; [exact F|].
  destruct (lasym (i_fields v)) eqn:Q; [|exact L]. destruct (AX LA) as (A1 & A2). destruct (A LA) as (A3 & A4). destruct L as (L1 & L2).
  unfold asymmetric_present. repeat split; try tauto.
Qed.
Lemma zero_given r c : 0 <= r -> 0 <= c -> ndarray (zero_mat r c : mat K).
Proof. intros Hr Hc. exists r, c. split; [exact Hr|]. split; [exact Hc|]. now apply zero_mat_shaped. Qed.
Lemma defaults_agree : exists d : vmec_input K,
  default_input = Ok d /\ to_cpp d = Ok default_indata /\ from_cpp default_indata = Ok d.
Proof.
  exists (mkInput (One 6) (One 0) default_indata). split; [reflexivity|]. split; [|reflexivity].
  apply (to_cpp_ok (mkInput (One 6) (One 0) default_indata) 6 0).
  split; [reflexivity|]. split; [reflexivity|]. split; [reflexivity|]. split; [reflexivity|]. split; [lia|]. split; [lia|].
  split; [|split; [|repeat split; reflexivity]].
  - repeat split; try reflexivity; try discriminate; cbn; intros row Hr; repeat (destruct Hr as [<-|Hr]; [reflexivity|]); contradiction.
  - unfold ints_fit, fits32. cbn. repeat match goal with |- _ /\ _ => split end; try lia; intros z [<-|[]]; lia.
Qed.
Definition with_ns (x : indata K) (l : list Z) (sym : bool) : indata K :=
  mkIndata sym (nfp x) (mpol x) (ntor x) (mpol_geometry x) (ntor_geometry x) (ntheta x) (nzeta x)
      l (ftol_array x) (niter_array x) (phiedge x) (ncurr x)
      (pmass_type x) (am x) (am_aux_s x) (am_aux_f x) (pres_scale x) (gamma x) (spres_ped x)
      (piota_type x) (ai x) (ai_aux_s x) (ai_aux_f x) (pcurr_type x) (ac x) (ac_aux_s x) (ac_aux_f x) (curtor x) (bloat x)
      (lfreeb x) (mgrid_file x) (extcur x) (nvacskip x) (free_boundary_method x)
      (nstep x) (aphi x) (delt x) (tcon0 x) (lforbal x) (iteration_style x) (return_outputs x)
      (raxis_c x) (zaxis_s x) (raxis_s x) (zaxis_c x) (rbc x) (zbs x) (rbs x) (zbc x).
Lemma wraps : exists (v0 v : vmec_input K) (x : indata K),
  given v0 /\ validate v0 = Ok v /\ to_cpp v = Ok x /\ ns_array (i_fields v) = [2 ^ 32 + 31] /\ ns_array x = [31].
Proof.
  set (v := mkInput (One 6) (One 0) (with_ns default_indata [2 ^ 32 + 31] false)).
  exists v, v. eexists. split; [|split; [reflexivity|split; [reflexivity|split; reflexivity]]].
  split; [apply (zero_given 6 1); lia|]. split; [apply (zero_given 6 1); lia|]. split; discriminate.
Qed.
Lemma axis_missing : exists v0 v : vmec_input K,
  given v0 /\ validate v0 = Ok v /\ lasym (i_fields v) = true /\ to_cpp v = Throws.
Proof.
  set (v := mkInput (One 6) (One 0) (with_ns default_indata [31] true)).
  exists v. eexists. split; [|split; [reflexivity|split; reflexivity]].
  split; [apply (zero_given 6 1); lia|]. split; [apply (zero_given 6 1); lia|]. split; discriminate.
Qed.
End Q.
(** mpol=[4, 6], ntor=1, rbc given for m < 2, n = 0 only *)
Definition scheduled : vmec_input num_f64 :=
  mkInput (Steps [4; 6]) (Steps [1]) (with_coefs default_indata 0 0 [nZ 10] [nZ 0] None None
    (mkMat 2 1 [[nZ 10]; [nZ 1]]) (mkMat 2 1 [[nZ 0]; [nZ 1]]) None None).
Lemma scheduled_case : exists v,
  validate (K := num_f64) scheduled = Ok v /\ given scheduled /\ i_mpol v = Steps [4; 6] /\ i_ntor v = One 1 /\
  m_body (rbc (i_fields v)) = [[nZ 0; nZ 10; nZ 0]; [nZ 0; nZ 1; nZ 0]; [nZ 0; nZ 0; nZ 0]; [nZ 0; nZ 0; nZ 0]; [nZ 0; nZ 0; nZ 0]; [nZ 0; nZ 0; nZ 0]] /\
  to_cpp v = Ok (i_fields v).
Proof.
  assert (G : given scheduled).
  { split; [|split; [|split; discriminate]]; exists 2, 1; (split; [lia|]; split; [lia|]; repeat split; cbn; intros row Hr; repeat (destruct Hr as [<-|Hr]; [reflexivity|]); contradiction). }
  eexists. split; [reflexivity|]. split; [exact G|]. split; [reflexivity|]. split; [reflexivity|]. split; [reflexivity|].
  apply (accepted_sent scheduled); [exact G|reflexivity| |reflexivity|discriminate].
  unfold ints_fit, fits32. cbn. repeat match goal with |- _ /\ _ => split end; try lia; intros z [<-|[]]; lia.
Qed.
