From Coq Require Import ZArith List Bool Reals Lia Lra.
From Verif Require Import Base BaseLemmas SumLemmas PartModel SizesModel FourierModel FourierSpec FourierProofs DftModel DftSpec DftTables LapMain
  ProfileModel WoutModel WoutSpec WoutProofs WoutFinal.
Import ListNotations.
Open Scope R_scope.

Lemma scal_root (p : rpart) ns j : (1 <= j < ns)%Z -> scalxc_odd ns j * sqrtSF p ns j = 1.
Proof.
  intros Hj. assert (D : 0 < IZR ns - 1) by (rewrite <- minus_IZR; apply IZR_lt; lia).
  assert (Q : 0 < full_pos ns j) by (unfold full_pos; apply Rdiv_lt_0_compat; [apply IZR_lt; lia|exact D]).
  assert (M : 1 / (IZR ns - 1) <= full_pos ns j).
  { unfold full_pos, Rdiv. apply Rmult_le_compat_r; [left; apply Rinv_0_lt_compat; exact D|apply IZR_le; lia]. }
  assert (SQ := sqrt_lt_R0 _ Q).
  assert (E : sqrtSF p ns j = sqrt (full_pos ns j)).
  { unfold sqrtSF. destruct (Z.eqb_spec (nsMaxF1 p) ns); cbn [andb]; [|reflexivity]. destruct (Z.eqb_spec j (ns - 1)) as [-> | ]; [|reflexivity].
    unfold full_pos. rewrite minus_IZR. replace ((IZR ns - 1) / (IZR ns - 1)) with 1 by (field; lra). symmetry. apply sqrt_1. }
  rewrite E. unfold scalxc_odd. rewrite Rmax_left by (apply sqrt_le_1_alt; exact M). field. lra.
Qed.
Lemma make_mnmax lasym nfp mpol ntor ntheta nzeta mg ng s : make_sizes lasym nfp mpol ntor ntheta nzeta mg ng = Some s ->
  sz_mnmax s = n_modes (sz_mpol s) (sz_ntor s).
Proof.
  unfold make_sizes. destruct ((nfp <? 1)%Z || (mpol <? 1)%Z || (ntor <? 0)%Z); [discriminate|]. intros E. apply some_inj in E. subst s.
  cbn [sz_mnmax sz_mpol sz_ntor]. unfold n_modes. lia.
Qed.

Section M.
Variables (s : sizes) (ns : Z).
Hypothesis OK : sz_ok s.
Hypothesis MX : sz_mnmax s = n_modes (sz_mpol s) (sz_ntor s).
Local Notation mpol := (sz_mpol s).
Local Notation ntor := (sz_ntor s).
Local Notation nfp := (sz_nfp s).
Lemma pos_range m n : valid_mode mpol ntor m n -> (0 <= mode_pos ntor m n < sz_mnmax s)%Z.
Proof.
  intros (V1 & V2 & V3). rewrite MX. unfold mode_pos, n_modes. assert (Hn := so_ntor s OK).
  destruct (Z.eqb_spec m 0) as [-> | M0]; nia.
Qed.
Lemma series_split ks x rt M th ph :
  series nfp ks M ntor true x th ph + rt * series nfp ks M ntor false x th ph =
  rsum ks (fun b => zsum 0 M (fun m => (if Z.even m then 1 else rt) * zsum 0 (ntor + 1) (fun n => x b m n * Phi nfp b m n th ph))).
Proof.
  unfold series. rewrite <- rsum_scale, <- rsum_plus. apply rsum_ext. intros b _. rewrite <- zsum_scale, <- zsum_plus.
  apply zsum_ext. intros m Hm. destruct (Z.even m); cbn [Bool.eqb]; ring.
Qed.
Lemma prod2_kind c b (X : coefs) j th ph : prod2 s (in_theta b) (in_zeta b) (X c b) j th (IZR nfp * ph) =
  zsum 0 mpol (fun m => zsum 0 (ntor + 1) (fun n => X c b (gidx s j m n) * Phi nfp b m n th ph)).
Proof. reflexivity. Qed.

Section J.
Variables (p : rpart) (x m_x X : coefs) (scalxc : Z -> R) (j : Z).
Hypothesis M2 : (2 <= mpol)%Z.
Hypothesis P0 : (0 <= nsMinF1 p)%Z.
Hypothesis Hj : (nsMinF1 p <= j < nsMaxF1 p)%Z.
Hypothesis Hn : (0 <= j < ns)%Z.
Hypothesis REL : forall c b m n, has s c b = true -> (0 <= m < mpol)%Z -> (0 <= n <= ntor)%Z ->
  X c b (gidx s j m n) = x c b (at_mn s (j - nsMinF1 p) m n).
Hypothesis SC0 : scalxc ((j - nsMinF1 p) * 2)%Z = 1.
Hypothesis SC1 : scalxc ((j - nsMinF1 p) * 2 + 1)%Z = scalxc_odd ns j.
Let y c b m n := prepare s p ns scalxc x m_x c b (at_mn s (j - nsMinF1 p) m n).
Let Xp := physical s ns X.
Lemma physL b : Xp cL b = X cL b.
Proof. unfold Xp, physical. cbv zeta. destruct (sz_lthreed s), (sz_lasym s), b; reflexivity. Qed.
Lemma y_X c b m n : has s c b = true -> (1 <= j \/ m <> 1 /\ c <> cL)%Z -> (0 <= m < mpol)%Z -> (0 <= n <= ntor)%Z ->
  y c b m n = Xp c b (gidx s j m n) * (if Z.even m then 1 else scalxc_odd ns j).
Proof.
  intros HB HC Hm Hn'. unfold y, Xp. rewrite prepare_at by assumption. rewrite physical_at by assumption. f_equal.
  - unfold m1val. destruct (m =? 1)%Z; [|symmetry; apply REL; assumption].
    destruct c, b; cbn [has] in HB; rewrite ?HB; rewrite !REL by (assumption || reflexivity || (cbn [has]; assumption)); reflexivity.
  - assert (Q : Z.rem m 2 = if Z.even m then 0%Z else 1%Z).
    { rewrite Z.rem_mod_nonneg by lia. rewrite Zmod_even. reflexivity. }
    rewrite Q. destruct (Z.even m); [rewrite Z.add_0_r; exact SC0|exact SC1].
Qed.
Lemma no_kind c b m n th ph : In b (kinds (sz_lasym s) c) -> has s c b = false -> (0 <= n <= ntor)%Z -> Phi nfp b m n th ph = 0.
Proof.
  intros HI HB Hn'. assert (T : sz_lthreed s = false -> n = 0%Z) by (rewrite (so_3d s OK); intros E; rewrite Z.gtb_ltb in E; apply Z.ltb_ge in E; lia).
  assert (G : b = b_ss \/ b = b_cs -> n = 0%Z -> Phi nfp b m n th ph = 0).
  { intros [-> | ->] ->; unfold Phi, in_zeta; rewrite Rmult_0_l, sin_0; ring. }
  assert (L : sz_lthreed s = false /\ (b = b_ss \/ b = b_cs)).
  { destruct c, b; cbn [has] in HB; try discriminate HB; destruct (sz_lasym s); cbn [andb] in HB; try discriminate HB;
      cbn [kinds app In] in HI; intuition (try discriminate; try congruence). }
  destruct L as (L1 & L2). apply G; [exact L2|apply T; exact L1].
Qed.
Lemma whole_series c th ph : (1 <= j)%Z ->
  series nfp (kinds (sz_lasym s) c) (n_pol mpol j) ntor true (y c) th ph +
  sqrtSF p ns j * series nfp (kinds (sz_lasym s) c) (n_pol mpol j) ntor false (y c) th ph =
  rsum (kinds (sz_lasym s) c) (fun b => prod2 s (in_theta b) (in_zeta b) (Xp c b) j th (IZR nfp * ph)).
Proof.
  intros J1. rewrite series_split. apply rsum_ext. intros b Hb. rewrite prod2_kind.
  unfold n_pol. destruct (Z.eqb_spec j 0) as [J0|_]; [lia|]. apply zsum_ext. intros m Hm. rewrite <- zsum_scale. apply zsum_ext. intros n Hn'.
  destruct (has s c b) eqn:HB.
  - rewrite y_X by (assumption || lia). assert (R := scal_root p ns j ltac:(lia)). destruct (Z.even m); [ring|].
    replace (sqrtSF p ns j * (Xp c b (gidx s j m n) * scalxc_odd ns j * Phi nfp b m n th ph)) with ((scalxc_odd ns j * sqrtSF p ns j) * (Xp c b (gidx s j m n) * Phi nfp b m n th ph)) by ring.
    rewrite R. ring.
  - rewrite (no_kind c b m n th ph Hb HB) by lia. ring.
Qed.
Lemma rows_even cc ss cs sc (a b : Z -> R) th ph : (1 <= j)%Z ->
  (forall m n, valid_mode mpol ntor m n -> a (mode_pos ntor m n) = cval s cc ss j m n) ->
  (forall m n, valid_mode mpol ntor m n -> b (mode_pos ntor m n) = sval s false sc cs j m n) ->
  out_even s a b th ph = prod2 s cos cos cc j th (IZR nfp * ph) + prod2 s sin sin ss j th (IZR nfp * ph) +
    (if sz_lasym s then prod2 s sin cos sc j th (IZR nfp * ph) + prod2 s cos sin cs j th (IZR nfp * ph) else 0).
Proof.
  intros J1 A B. unfold out_even, out_cos, out_sin. rewrite (cos_row_series s OK cc ss j a) by assumption.
  rewrite (sin_row_series s OK false sc cs j b) by assumption. destruct (sz_lasym s); ring.
Qed.
Lemma rows_odd axis cc ss cs sc (a b : Z -> R) th ph : (1 <= j)%Z ->
  (forall m n, valid_mode mpol ntor m n -> a (mode_pos ntor m n) = sval s axis sc cs j m n) ->
  (forall m n, valid_mode mpol ntor m n -> b (mode_pos ntor m n) = cval s cc ss j m n) ->
  out_odd s a b th ph = prod2 s sin cos sc j th (IZR nfp * ph) + prod2 s cos sin cs j th (IZR nfp * ph) +
    (if sz_lasym s then prod2 s cos cos cc j th (IZR nfp * ph) + prod2 s sin sin ss j th (IZR nfp * ph) else 0).
Proof.
  intros J1 A B. unfold out_odd, out_cos, out_sin. rewrite (sin_row_series s OK axis sc cs j a) by assumption.
  rewrite (cos_row_series s OK cc ss j b) by assumption. destruct (sz_lasym s); ring.
Qed.
Lemma row_c (cc ss : Z -> R) m n : valid_mode mpol ntor m n -> by_surface s ns (cos_row s cc ss) plain (mode_pos ntor m n) j = cval s cc ss j m n.
Proof. intros V. rewrite by_surface_at by (try exact Hn; apply pos_range; exact V). unfold plain. apply (cos_row_spec s OK cc ss j). exact V. Qed.
Lemma row_s axis (sc cs : Z -> R) m n : valid_mode mpol ntor m n -> by_surface s ns (sin_row s axis sc cs) plain (mode_pos ntor m n) j = sval s axis sc cs j m n.
Proof. intros V. rewrite by_surface_at by (try exact Hn; apply pos_range; exact V). unfold plain. apply (sin_row_spec s OK axis sc cs j). exact V. Qed.
Lemma out_R th ph : (1 <= j)%Z ->
  out_even s (fun mn => rmnc s ns X mn j) (fun mn => rmns s ns X mn j) th ph =
  series nfp (kinds (sz_lasym s) cR) (n_pol mpol j) ntor true (y cR) th ph +
  sqrtSF p ns j * series nfp (kinds (sz_lasym s) cR) (n_pol mpol j) ntor false (y cR) th ph.
Proof.
  intros J1. rewrite whole_series by exact J1.
  rewrite (rows_even (Xp cR b_cc) (Xp cR b_ss) (Xp cR b_cs) (Xp cR b_sc)) by (try exact J1; intros; first [apply row_c|apply row_s]; assumption).
  unfold kinds. destruct (sz_lasym s); cbn [app rsum fold_right map in_theta in_zeta]; unfold rsum; cbn; ring.
Qed.
Lemma out_Z th ph : (1 <= j)%Z ->
  out_odd s (fun mn => zmns s ns X mn j) (fun mn => zmnc s ns X mn j) th ph =
  series nfp (kinds (sz_lasym s) cZ) (n_pol mpol j) ntor true (y cZ) th ph +
  sqrtSF p ns j * series nfp (kinds (sz_lasym s) cZ) (n_pol mpol j) ntor false (y cZ) th ph.
Proof.
  intros J1. rewrite whole_series by exact J1.
  rewrite (rows_odd false (Xp cZ b_cc) (Xp cZ b_ss) (Xp cZ b_cs) (Xp cZ b_sc)) by (try exact J1; intros; first [apply row_c|apply row_s]; assumption).
  unfold kinds. destruct (sz_lasym s); cbn [app rsum fold_right map in_theta in_zeta]; unfold rsum; cbn; ring.
Qed.
Lemma series_scale trig k f th ze : combined_series trig mpol ntor (fun i => k * f i) th ze = k * combined_series trig mpol ntor f th ze.
Proof.
  unfold combined_series. rewrite Rmult_plus_distr_l, <- !zsum_scale. f_equal.
  - apply zsum_ext. intros; ring.
  - apply zsum_ext. intros m Hm. rewrite <- zsum_scale. apply zsum_ext. intros; ring.
Qed.
Lemma out_L phipF lamscale th ph : (1 <= j)%Z -> phipF j <> 0 ->
  phipF j * out_odd s (fun mn => lmns_full s ns phipF lamscale X mn j) (fun mn => lmnc_full s ns phipF lamscale X mn j) th ph =
  lamscale * (series nfp (kinds (sz_lasym s) cL) (n_pol mpol j) ntor true (y cL) th ph +
  sqrtSF p ns j * series nfp (kinds (sz_lasym s) cL) (n_pol mpol j) ntor false (y cL) th ph).
Proof.
  intros J1 NZ. rewrite whole_series by exact J1.
  assert (L : forall row, forall m n, valid_mode mpol ntor m n -> by_surface s ns row (lam_scale phipF lamscale) (mode_pos ntor m n) j =
     lamscale / phipF j * by_surface s ns row plain (mode_pos ntor m n) j).
  { intros row m n V. rewrite !by_surface_at by (try exact Hn; apply pos_range; exact V). unfold plain, lam_scale. field. exact NZ. }
  assert (E : out_odd s (fun mn => lmns_full s ns phipF lamscale X mn j) (fun mn => lmnc_full s ns phipF lamscale X mn j) th ph =
    lamscale / phipF j * out_odd s (fun mn => by_surface s ns (sin_row s true (X cL b_sc) (X cL b_cs)) plain mn j) (fun mn => by_surface s ns (cos_row s (X cL b_cc) (X cL b_ss)) plain mn j) th ph).
  { unfold out_odd, out_sin, out_cos. 
    rewrite (series_ext_valid s OK sin (fun mn => lmns_full s ns phipF lamscale X mn j) (fun mn => lamscale / phipF j * by_surface s ns (sin_row s true (X cL b_sc) (X cL b_cs)) plain mn j)) by (intros; apply L; assumption).
    rewrite (series_ext_valid s OK cos (fun mn => lmnc_full s ns phipF lamscale X mn j) (fun mn => lamscale / phipF j * by_surface s ns (cos_row s (X cL b_cc) (X cL b_ss)) plain mn j)) by (intros; apply L; assumption).
    rewrite !series_scale. destruct (sz_lasym s); ring. }
  rewrite E. rewrite (rows_odd true (X cL b_cc) (X cL b_ss) (X cL b_cs) (X cL b_sc)) by (try exact J1; intros; first [apply row_c|apply row_s]; assumption).
  rewrite <- !physL. replace (phipF j * (lamscale / phipF j * _)) with (lamscale * (prod2 s sin cos (Xp cL b_sc) j th (IZR nfp * ph) + prod2 s cos sin (Xp cL b_cs) j th (IZR nfp * ph) +
    (if sz_lasym s then prod2 s cos cos (Xp cL b_cc) j th (IZR nfp * ph) + prod2 s sin sin (Xp cL b_ss) j th (IZR nfp * ph) else 0))) by (field; exact NZ).
  f_equal. unfold kinds. destruct (sz_lasym s); cbn [app rsum fold_right map in_theta in_zeta]; unfold rsum; cbn; ring.
Qed.
(** The axis. *)
Lemma axis_even th ph (c : comp) cc ss cs sc (a b : Z -> R) : j = 0%Z ->
  (forall m n, valid_mode mpol ntor m n -> a (mode_pos ntor m n) = cval s cc ss j m n) ->
  (forall m n, valid_mode mpol ntor m n -> b (mode_pos ntor m n) = sval s false sc cs j m n) ->
  (forall m, (1 <= m < mpol)%Z -> cc (gidx s 0 m 0) = 0 /\ sc (gidx s 0 m 0) = 0) ->
  out_cos s a th ph = zsum 0 (ntor + 1) (fun n => cc (gidx s 0 0 n) * Phi nfp b_cc 0 n th ph) /\
  out_sin s b th ph = zsum 0 (ntor + 1) (fun n => cs (gidx s 0 0 n) * Phi nfp b_cs 0 n th ph).
Proof.
  intros J0 A B Z0. assert (Hn0 := so_ntor s OK). assert (S20 : s2 0 = 1) by reflexivity.
  assert (T1 : forall n, t1_ 0 n = s2 n) by (intros n; unfold t1_, mscale, nscale, s2; cbn [Z.eqb]; ring).
  split.
  - unfold out_cos, combined_series. rewrite (zsum_ext 1 mpol _ (fun _ => 0)).
    + rewrite (zsum_zero 1 mpol (fun _ => 0)) by reflexivity. rewrite Rplus_0_r. apply zsum_ext. intros n Hn'. rewrite A by (unfold valid_mode; lia).
      unfold cval. cbn [Z.eqb]. rewrite T1, J0. unfold Phi. rewrite S20. cbn [in_theta in_zeta]. rewrite !Rmult_0_l, cos_0, cos_neg. ring.
    + intros m Hm. apply zsum_zero. intros n Hn'. rewrite A by (unfold valid_mode; lia). unfold cval.
      destruct (Z.eqb_spec m 0); [lia|]. destruct (n =? 0)%Z; [|rewrite J0; cbn; ring]. rewrite J0. rewrite (proj1 (Z0 m Hm)). ring.
  - unfold out_sin, combined_series. rewrite (zsum_ext 1 mpol _ (fun _ => 0)).
    + rewrite (zsum_zero 1 mpol (fun _ => 0)) by reflexivity. rewrite Rplus_0_r. apply zsum_ext. intros n Hn'. rewrite B by (unfold valid_mode; lia).
      unfold sval. cbn [Z.eqb andb]. rewrite T1, J0. unfold Phi. rewrite S20. cbn [in_theta in_zeta]. rewrite !Rmult_0_l, cos_0, sin_neg.
      destruct (Z.eq_dec n 0) as [-> | N0]; [rewrite Rmult_0_l, sin_0; ring|].
      rewrite (lthreed_n s OK n) by lia. ring.
    + intros m Hm. apply zsum_zero. intros n Hn'. rewrite B by (unfold valid_mode; lia). unfold sval.
      destruct (Z.eqb_spec m 0); [lia|]. destruct (n =? 0)%Z; [|rewrite J0; cbn; ring]. rewrite J0. rewrite (proj2 (Z0 m Hm)). ring.
Qed.
Lemma axis_series c th ph : j = 0%Z -> c <> cL ->
  series nfp (kinds (sz_lasym s) c) (n_pol mpol j) ntor true (y c) th ph =
  rsum (kinds (sz_lasym s) c) (fun b => zsum 0 (ntor + 1) (fun n => Xp c b (gidx s 0 0 n) * Phi nfp b 0 n th ph)).
Proof.
  intros J0 NL. unfold series. apply rsum_ext. intros b Hb. unfold n_pol. rewrite J0. cbn [Z.eqb]. rewrite (zsum_cons 0 2) by lia. rewrite (zsum_cons (0 + 1) 2) by lia. rewrite (zsum_empty (0 + 1 + 1) 2) by lia.
  cbn [Z.even Z.add Bool.eqb Pos.add]. rewrite !Rplus_0_r. apply zsum_ext. intros n Hn'. destruct (has s c b) eqn:HB.
  - rewrite y_X; [|exact HB|right; split; [lia|exact NL]|lia|lia]. rewrite J0. cbn [Z.even]. ring.
  - rewrite (no_kind c b 0 n th ph Hb HB) by lia. ring.
Qed.
Lemma phi_ss0 n th ph : Phi nfp b_ss 0 n th ph = 0 /\ Phi nfp b_sc 0 n th ph = 0.
Proof. unfold Phi. cbn [in_theta]. rewrite Rmult_0_l, sin_0. split; ring. Qed.
Lemma zero_phys c b m : (1 <= m < mpol)%Z -> (forall c b m n, (1 <= m < mpol)%Z -> (0 <= n <= ntor)%Z -> X c b (gidx s 0 m n) = 0) -> j = 0%Z -> Xp c b (gidx s 0 m 0) = 0.
Proof.
  intros Hm Z0 J0. assert (Hn0 := so_ntor s OK). unfold Xp. rewrite physical_at by lia. unfold m1val.
  destruct (m =? 1)%Z, c, b, (sz_lthreed s), (sz_lasym s); rewrite ?Z0 by lia; ring.
Qed.
Lemma axis_R th ph : j = 0%Z -> (forall c b m n, (1 <= m < mpol)%Z -> (0 <= n <= ntor)%Z -> X c b (gidx s 0 m n) = 0) ->
  out_even s (fun mn => rmnc s ns X mn j) (fun mn => rmns s ns X mn j) th ph = series nfp (kinds (sz_lasym s) cR) (n_pol mpol j) ntor true (y cR) th ph.
Proof.
  intros J0 Z0. rewrite axis_series by (try assumption; discriminate). unfold out_even.
  destruct (axis_even th ph cR (Xp cR b_cc) (Xp cR b_ss) (Xp cR b_cs) (Xp cR b_sc) (fun mn => rmnc s ns X mn j) (fun mn => rmns s ns X mn j)) as (A & B);
    [exact J0|intros; apply row_c; assumption|intros; apply row_s; assumption|intros; split; apply zero_phys; assumption|].
  rewrite A, B. unfold kinds, rsum. destruct (sz_lasym s); cbn.
  - rewrite (zsum_ext 0 (ntor + 1) (fun n => Xp cR b_ss (gidx s 0 0 n) * Phi nfp b_ss 0 n th ph) (fun _ => 0)) by (intros n _; rewrite (proj1 (phi_ss0 n th ph)); ring).
    rewrite (zsum_ext 0 (ntor + 1) (fun n => Xp cR b_sc (gidx s 0 0 n) * Phi nfp b_sc 0 n th ph) (fun _ => 0)) by (intros n _; rewrite (proj2 (phi_ss0 n th ph)); ring).
    rewrite (zsum_zero 0 (ntor + 1) (fun _ => 0)) by reflexivity. ring.
  - rewrite (zsum_ext 0 (ntor + 1) (fun n => Xp cR b_ss (gidx s 0 0 n) * Phi nfp b_ss 0 n th ph) (fun _ => 0)) by (intros n _; rewrite (proj1 (phi_ss0 n th ph)); ring).
    rewrite (zsum_zero 0 (ntor + 1) (fun _ => 0)) by reflexivity. ring.
Qed.
Lemma axis_Z th ph : j = 0%Z -> (forall c b m n, (1 <= m < mpol)%Z -> (0 <= n <= ntor)%Z -> X c b (gidx s 0 m n) = 0) ->
  out_odd s (fun mn => zmns s ns X mn j) (fun mn => zmnc s ns X mn j) th ph = series nfp (kinds (sz_lasym s) cZ) (n_pol mpol j) ntor true (y cZ) th ph.
Proof.
  intros J0 Z0. rewrite axis_series by (try assumption; discriminate). unfold out_odd.
  destruct (axis_even th ph cZ (Xp cZ b_cc) (Xp cZ b_ss) (Xp cZ b_cs) (Xp cZ b_sc) (fun mn => zmnc s ns X mn j) (fun mn => zmns s ns X mn j)) as (A & B);
    [exact J0|intros; apply row_c; assumption|intros; apply row_s; assumption|intros; split; apply zero_phys; assumption|].
  rewrite A, B. unfold kinds, rsum. destruct (sz_lasym s); cbn.
  - rewrite (zsum_ext 0 (ntor + 1) (fun n => Xp cZ b_ss (gidx s 0 0 n) * Phi nfp b_ss 0 n th ph) (fun _ => 0)) by (intros n _; rewrite (proj1 (phi_ss0 n th ph)); ring).
    rewrite (zsum_ext 0 (ntor + 1) (fun n => Xp cZ b_sc (gidx s 0 0 n) * Phi nfp b_sc 0 n th ph) (fun _ => 0)) by (intros n _; rewrite (proj2 (phi_ss0 n th ph)); ring).
    rewrite (zsum_zero 0 (ntor + 1) (fun _ => 0)) by reflexivity. ring.
  - rewrite (zsum_ext 0 (ntor + 1) (fun n => Xp cZ b_sc (gidx s 0 0 n) * Phi nfp b_sc 0 n th ph) (fun _ => 0)) by (intros n _; rewrite (proj2 (phi_ss0 n th ph)); ring).
    rewrite (zsum_zero 0 (ntor + 1) (fun _ => 0)) by reflexivity. ring.
Qed.
End J.
End M.
