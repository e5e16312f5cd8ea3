From Coq Require Import ZArith List Bool Reals Lia Lra.
From Verif Require Import Base BaseLemmas SumLemmas PartModel SizesModel FourierModel FourierSpec FourierProofs BoundaryModel BoundarySpec BoundaryProofs
  AxisSpec ProfileModel DftModel DftSpec DftTables LapMain WoutModel WoutSpec WoutProofs WoutFinal WoutMain InitModel InitSpec InitProofs.
Import ListNotations.
Open Scope R_scope.

Lemma sqrtSF_eq (p : rpart) ns j : (2 <= ns)%Z -> (0 <= j < ns)%Z -> sqrtSF p ns j = sqrt (IZR j / (IZR ns - 1)).
Proof.
  intros N J. assert (2 <= IZR ns) by (apply IZR_le in N; exact N). unfold sqrtSF. destruct ((nsMaxF1 p =? ns)%Z && (j =? ns - 1)%Z) eqn:E; [|reflexivity].
  apply andb_prop in E. destruct E as (_ & E). apply Z.eqb_eq in E. subst j. rewrite minus_IZR. unfold Rdiv. rewrite Rinv_r by lra. symmetry. exact sqrt_1.
Qed.
Lemma rows_sum lasym lthreed mpol ntor b th ze : R_internal lasym lthreed mpol ntor b th ze = zsum 0 mpol (R_mode lasym lthreed ntor b th ze) /\
  Z_internal lasym lthreed mpol ntor b th ze = zsum 0 mpol (Z_mode lasym lthreed ntor b th ze).
Proof.
  assert (Z0 : zsum 0 mpol (fun _ => 0) = 0) by (apply zsum_zero; reflexivity).
  unfold R_internal, Z_internal, R_mode, Z_mode. split; rewrite !zsum_plus; destruct lthreed, lasym; rewrite ?zsum_plus, ?Z0; unfold series_out, row_out; try reflexivity; ring.
Qed.

Section F.
Variables (s : sizes) (p : rpart) (ns : Z) (sq : Z -> R) (b : bdy) (rc rs zs zc : Z -> R).
Hypothesis OK : sz_ok s.
Hypothesis M2 : (2 <= sz_mpol s)%Z.
Local Notation mpol := (sz_mpol s).
Local Notation ntor := (sz_ntor s).
Local Notation nfp := (sz_nfp s).
Local Notation init := (interpFromBoundaryAndAxis s p sq b rc rs zs zc).
Local Notation b1 := (ensureM1Constrained (sz_lasym s) (sz_lthreed s) ntor 1 b).
Lemma no_3d n : sz_lthreed s = false -> (0 <= n <= ntor)%Z -> n = 0%Z.
Proof. intros T H. rewrite (so_3d s OK) in T. rewrite Z.gtb_ltb in T. apply Z.ltb_ge in T. lia. Qed.
Lemma zsum_neg (f : Z -> R) lo hi : zsum lo hi (fun n => - f n) = - zsum lo hi f.
Proof. rewrite (zsum_ext lo hi (fun n => - f n) (fun n => -1 * f n)) by (intros; ring). rewrite zsum_scale. ring. Qed.
Lemma guess_sum x j th ph : (nsMinF1 p <= j < nsMaxF1 p)%Z -> (0 <= j < ns)%Z ->
  let rho := sq (j - nsMinF1 p)%Z in let ze := IZR nfp * ph in
  rsum (kinds (sz_lasym s) cR) (fun k => prod2 s (in_theta k) (in_zeta k) (physical s ns (onesurf s p j (init x)) cR k) j th (IZR nfp * ph)) =
    guess_R (sz_lasym s) (sz_lthreed s) mpol ntor b1 rc rs rho th ze /\
  rsum (kinds (sz_lasym s) cZ) (fun k => prod2 s (in_theta k) (in_zeta k) (physical s ns (onesurf s p j (init x)) cZ k) j th (IZR nfp * ph)) =
    guess_Z (sz_lasym s) (sz_lthreed s) mpol ntor b1 zs zc rho th ze.
Proof.
  intros Hj Hj' rho ze.
  assert (K : forall c k, In k (kinds (sz_lasym s) c) -> c <> cL -> _) by (intros c k HI NL; exact (kind_sum s p ns sq b rc rs zs zc OK M2 x c k j th ph HI NL Hj Hj')).
  cbv zeta in K. fold rho ze in K.
  assert (S0 : forall f : Z -> R, zsum 0 (ntor + 1) (fun n => 0 * f n) = 0) by (intros f; apply zsum_zero; intros; ring).
  assert (SIN : sz_lthreed s = false -> forall f : Z -> R, zsum 0 (ntor + 1) (fun n => - f n * sin (IZR n * ze)) = 0).
  { intros T f. apply zsum_zero. intros n Hn. rewrite (no_3d n T) by lia. rewrite Rmult_0_l, sin_0. ring. }
  assert (E1 : forall (f : Z -> R) (g : R -> R), zsum 0 (ntor + 1) (fun n => f n * (cos 0 * g (IZR n * ze))) = zsum 0 (ntor + 1) (fun n => f n * g (IZR n * ze))).
  { intros f g. apply zsum_ext. intros n _. rewrite cos_0. ring. }
  unfold guess_R, guess_Z, AxisSpec.axis_R, AxisSpec.axis_Z, R_mode, Z_mode.
  assert (Z0 : zsum 0 mpol (fun m => weight rho m * 0) = 0) by (apply zsum_zero; intros; ring).
  assert (D : forall f g : Z -> R, zsum 0 mpol (fun m => weight rho m * (f m + g m)) = zsum 0 mpol (fun m => weight rho m * f m) + zsum 0 mpol (fun m => weight rho m * g m)).
  { intros f g. rewrite <- zsum_plus. apply zsum_ext. intros; ring. }
  split.
  - etransitivity; [exact (rsum_ext (kinds (sz_lasym s) cR) _ _ (fun k HI => K cR k HI ltac:(discriminate)))|].
    unfold kinds. destruct (sz_lasym s) eqn:LA, (sz_lthreed s) eqn:LT; unfold rsum; cbn [fold_right map app has]; rewrite ?LA, ?LT; cbn [andb in_theta in_zeta bval aval];
      rewrite ?D, ?Z0, ?S0, ?E1, ?(SIN eq_refl); ring.
  - etransitivity; [exact (rsum_ext (kinds (sz_lasym s) cZ) _ _ (fun k HI => K cZ k HI ltac:(discriminate)))|].
    unfold kinds. destruct (sz_lasym s) eqn:LA, (sz_lthreed s) eqn:LT; unfold rsum; cbn [fold_right map app has]; rewrite ?LA, ?LT; cbn [andb in_theta in_zeta bval aval];
      rewrite ?D, ?Z0, ?S0, ?E1, ?(SIN eq_refl); ring.
Qed.

Section J.
Variables (x m_x : coefs) (scalxc : Z -> R) (j : Z).
Hypothesis P0 : (0 <= nsMinF1 p)%Z.
Hypothesis Hj : (nsMinF1 p <= j < nsMaxF1 p)%Z.
Hypothesis Hn : (0 <= j < ns)%Z.
Hypothesis SQ : sq (j - nsMinF1 p)%Z = sqrtSF p ns j.
Hypothesis SC0 : scalxc ((j - nsMinF1 p) * 2)%Z = 1.
Hypothesis SC1 : scalxc ((j - nsMinF1 p) * 2 + 1)%Z = scalxc_odd ns j.
Let y c k m n := prepare s p ns scalxc (init x) m_x c k (at_mn s (j - nsMinF1 p) m n).
Lemma guess_series th ph : (1 <= j)%Z ->
  series nfp (kinds (sz_lasym s) cR) (n_pol mpol j) ntor true (y cR) th ph + sqrtSF p ns j * series nfp (kinds (sz_lasym s) cR) (n_pol mpol j) ntor false (y cR) th ph =
    guess_R (sz_lasym s) (sz_lthreed s) mpol ntor b1 rc rs (sqrtSF p ns j) th (IZR nfp * ph) /\
  series nfp (kinds (sz_lasym s) cZ) (n_pol mpol j) ntor true (y cZ) th ph + sqrtSF p ns j * series nfp (kinds (sz_lasym s) cZ) (n_pol mpol j) ntor false (y cZ) th ph =
    guess_Z (sz_lasym s) (sz_lthreed s) mpol ntor b1 zs zc (sqrtSF p ns j) th (IZR nfp * ph).
Proof.
  intros J1. destruct (guess_sum x j th ph Hj Hn) as (A & B). rewrite SQ in A, B.
  assert (REL : forall c k m n, has s c k = true -> (0 <= m < mpol)%Z -> (0 <= n <= ntor)%Z -> onesurf s p j (init x) c k (gidx s j m n) = init x c k (at_mn s (j - nsMinF1 p) m n)) by (intros; apply onesurf_at; assumption).
  unfold y. split.
  - etransitivity; [|exact A]. eapply whole_series; eauto.
  - etransitivity; [|exact B]. eapply whole_series; eauto.
Qed.
End J.
End F.
