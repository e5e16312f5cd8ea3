From Coq Require Import ZArith List Bool Reals Lia Lra.
From Verif Require Import Base BaseLemmas SumLemmas PartModel SizesModel FourierModel FourierSpec FourierProofs BoundaryModel BoundarySpec BoundaryProofs
  AxisSpec ProfileModel DftModel DftSpec DftTables LapMain WoutModel WoutSpec WoutProofs WoutFinal WoutMain InitModel InitSpec InitProofs InitFinal.
Import ListNotations.
Open Scope R_scope.
Section A.
Variables (s : sizes) (ns : Z).
Hypothesis OK : sz_ok s.
Hypothesis M2 : (2 <= sz_mpol s)%Z.
Hypothesis N3 : (0 < ns)%Z.
Local Notation mpol := (sz_mpol s).
Local Notation ntor := (sz_ntor s).
Local Notation nfp := (sz_nfp s).
Lemma axis_at X n : (0 <= n <= ntor)%Z -> let A := ComputeThreed1AxisGeometry s X in
  raxis_symm A n = s2 n * X cR b_cc (gidx s 0 0 n) /\
  zaxis_symm A n = (if sz_lthreed s then - s2 n * X cZ b_cs (gidx s 0 0 n) else 0) /\
  raxis_asym A n = (if sz_lasym s && sz_lthreed s then - s2 n * X cR b_cs (gidx s 0 0 n) else 0) /\
  zaxis_asym A n = (if sz_lasym s then s2 n * X cZ b_cc (gidx s 0 0 n) else 0).
Proof.
  intros Hn A. assert (BS : mscale 0 * nscale n = s2 n) by (unfold mscale, nscale, s2; cbn [Z.eqb]; ring).
  split; [|split; [|split]]; unfold A, ComputeThreed1AxisGeometry.
  - apply (for_up_set (fun r => raxis_symm r n) _ 0 (ntor + 1) n); [lia| |].
    + intros r. cbn [raxis_symm]. rewrite upd_eq, BS. reflexivity.
    + intros n' r _ NE. cbn [raxis_symm]. apply upd_neq. auto.
  - destruct (sz_lthreed s).
    + apply (for_up_set (fun r => zaxis_symm r n) _ 0 (ntor + 1) n); [lia| |].
      * intros r. cbn [zaxis_symm]. rewrite upd_eq, BS. reflexivity.
      * intros n' r _ NE. cbn [zaxis_symm]. apply upd_neq. auto.
    + rewrite (for_up_keep (fun r => zaxis_symm r n)); [reflexivity|]. intros; reflexivity.
  - destruct (sz_lasym s && sz_lthreed s) eqn:E.
    + apply (for_up_set (fun r => raxis_asym r n) _ 0 (ntor + 1) n); [lia| |].
      * intros r. cbn [raxis_asym]. rewrite upd_eq. apply andb_prop in E. destruct E as (_ & ->). rewrite BS. reflexivity.
      * intros n' r _ NE. cbn [raxis_asym]. apply upd_neq. auto.
    + rewrite (for_up_keep (fun r => raxis_asym r n)); [reflexivity|]. intros; reflexivity.
  - destruct (sz_lasym s).
    + apply (for_up_set (fun r => zaxis_asym r n) _ 0 (ntor + 1) n); [lia| |].
      * intros r. cbn [zaxis_asym]. rewrite upd_eq, BS. reflexivity.
      * intros n' r _ NE. cbn [zaxis_asym]. apply upd_neq. auto.
    + rewrite (for_up_keep (fun r => zaxis_asym r n)); [reflexivity|]. intros; reflexivity.
Qed.
Hypothesis MX : sz_mnmax s = n_modes (sz_mpol s) (sz_ntor s).
Lemma axis_rows X n : (0 <= n <= ntor)%Z -> let A := ComputeThreed1AxisGeometry s X in
  raxis_symm A n = rmnc s ns X n 0 /\ zaxis_symm A n = zmns s ns X n 0 /\
  (sz_lasym s = true -> raxis_asym A n = rmns s ns X n 0 /\ zaxis_asym A n = zmnc s ns X n 0).
Proof.
  intros Hn A. destruct (axis_at X n Hn) as (A1 & A2 & A3 & A4). fold A in A1, A2, A3, A4.
  assert (V : valid_mode mpol ntor 0 n) by (unfold valid_mode; lia).
  assert (PP : mode_pos ntor 0 n = n) by reflexivity.
  assert (T1 : t1_ 0 n = s2 n) by (unfold t1_, mscale, nscale, s2; cbn [Z.eqb]; ring).
  assert (PH : forall c k, physical s ns X c k (gidx s 0 0 n) = X c k (gidx s 0 0 n)).
  { intros c k. rewrite (physical_at s ns M2) by lia. reflexivity. }
  assert (RC : forall cc ss, by_surface s ns (cos_row s cc ss) plain n 0 = s2 n * cc (gidx s 0 0 n)).
  { intros cc ss. rewrite <- PP at 1. rewrite (row_c s ns OK MX) by (lia || exact V). unfold cval. cbn [Z.eqb]. rewrite T1. reflexivity. }
  assert (RS : forall sc cs, by_surface s ns (sin_row s false sc cs) plain n 0 = if sz_lthreed s then - s2 n * cs (gidx s 0 0 n) else 0).
  { intros sc cs. rewrite <- PP at 1. rewrite (row_s s ns OK MX) by (lia || exact V). unfold sval. cbn [Z.eqb andb]. rewrite T1. reflexivity. }
  unfold rmnc, zmns, rmns, zmnc. cbv zeta. split; [rewrite A1, RC, PH; reflexivity|]. split; [rewrite A2, RS, PH; reflexivity|].
  intros LA. rewrite A3, A4, RC, RS, !PH, LA. split; reflexivity.
Qed.

Section J.
Variables (p : rpart) (x m_x X : coefs) (scalxc : Z -> R).
Hypothesis P0 : nsMinF1 p = 0%Z.
Hypothesis Hj : (0 < nsMaxF1 p)%Z.
Hypothesis REL : forall c b m n, has s c b = true -> (0 <= m < mpol)%Z -> (0 <= n <= ntor)%Z -> X c b (gidx s 0 m n) = x c b (at_mn s (0 - nsMinF1 p) m n).
Hypothesis SC0 : scalxc ((0 - nsMinF1 p) * 2)%Z = 1.
Hypothesis SC1 : scalxc ((0 - nsMinF1 p) * 2 + 1)%Z = scalxc_odd ns 0.
Let y c k m n := prepare s p ns scalxc x m_x c k (at_mn s (0 - nsMinF1 p) m n).
Lemma axis_curve th ph : let A := ComputeThreed1AxisGeometry s X in
  series nfp (kinds (sz_lasym s) cR) (n_pol mpol 0) ntor true (y cR) th ph = AxisSpec.axis_R (sz_lasym s) ntor (raxis_symm A) (raxis_asym A) (IZR nfp * ph) /\
  series nfp (kinds (sz_lasym s) cZ) (n_pol mpol 0) ntor true (y cZ) th ph = AxisSpec.axis_Z (sz_lasym s) ntor (zaxis_symm A) (zaxis_asym A) (IZR nfp * ph).
Proof.
  intros A. set (ze := IZR nfp * ph).
  assert (S : forall c, c <> cL -> series nfp (kinds (sz_lasym s) c) (n_pol mpol 0) ntor true (y c) th ph =
     rsum (kinds (sz_lasym s) c) (fun b => zsum 0 (ntor + 1) (fun n => physical s ns X c b (gidx s 0 0 n) * Phi nfp b 0 n th ph))).
  { intros c NL. unfold y. eapply axis_series; eauto; lia. }
  assert (PH : forall c k n, (0 <= n <= ntor)%Z -> physical s ns X c k (gidx s 0 0 n) = X c k (gidx s 0 0 n)).
  { intros c k n Hn. rewrite (physical_at s ns M2) by lia. reflexivity. }
  assert (KS : forall c, zsum 0 (ntor + 1) (fun n => physical s ns X c b_ss (gidx s 0 0 n) * Phi nfp b_ss 0 n th ph) = 0 /\
     zsum 0 (ntor + 1) (fun n => physical s ns X c b_sc (gidx s 0 0 n) * Phi nfp b_sc 0 n th ph) = 0).
  { intros c. split; apply zsum_zero; intros n _; [rewrite (proj1 (phi_ss0 s n th ph))|rewrite (proj2 (phi_ss0 s n th ph))]; ring. }
  assert (KC : forall c k (f : Z -> R), (k = b_cc \/ k = b_cs) -> (forall n, (0 <= n <= ntor)%Z -> X c k (gidx s 0 0 n) * (s2 n * in_zeta k (IZR n * ze)) = f n) ->
     zsum 0 (ntor + 1) (fun n => physical s ns X c k (gidx s 0 0 n) * Phi nfp k 0 n th ph) = zsum 0 (ntor + 1) f).
  { intros c k f HK HF. apply zsum_ext. intros n Hn. rewrite PH by lia. rewrite <- HF by lia. unfold Phi. fold ze. rewrite Rmult_0_l.
    replace (in_theta k 0) with 1 by (destruct HK as [-> | ->]; symmetry; exact cos_0). replace (s2 0) with 1 by reflexivity. ring. }
  assert (AT : forall n, (0 <= n <= ntor)%Z -> _) by (intros n Hn; exact (axis_at X n Hn)). cbv zeta in AT. fold A in AT.
  unfold AxisSpec.axis_R, AxisSpec.axis_Z. split; rewrite S by discriminate; unfold kinds, rsum.
  - destruct (sz_lasym s) eqn:LA; cbn [app map fold_right]; rewrite ?(proj1 (KS cR)), ?(proj2 (KS cR)).
    + rewrite (KC cR b_cc (fun n => raxis_symm A n * cos (IZR n * ze))), (KC cR b_cs (fun n => - raxis_asym A n * sin (IZR n * ze))); [ring|auto| |auto|].
      * intros n Hn. destruct (AT n Hn) as (_ & _ & -> & _). cbn [in_zeta]. destruct (sz_lthreed s) eqn:LT; cbn [andb]; [ring|].
        rewrite (no_3d s OK n LT Hn), Rmult_0_l, sin_0. ring.
      * intros n Hn. destruct (AT n Hn) as (-> & _). cbn [in_zeta]. ring.
    + rewrite (KC cR b_cc (fun n => raxis_symm A n * cos (IZR n * ze))); [ring|auto|].
      intros n Hn. destruct (AT n Hn) as (-> & _). cbn [in_zeta]. ring.
  - assert (CS : zsum 0 (ntor + 1) (fun n => physical s ns X cZ b_cs (gidx s 0 0 n) * Phi nfp b_cs 0 n th ph) = zsum 0 (ntor + 1) (fun n => - zaxis_symm A n * sin (IZR n * ze))).
    { apply KC; [auto|]. intros n Hn. destruct (AT n Hn) as (_ & -> & _). cbn [in_zeta]. destruct (sz_lthreed s) eqn:LT; [ring|].
      rewrite (no_3d s OK n LT Hn), Rmult_0_l, sin_0. ring. }
    destruct (sz_lasym s) eqn:LA; cbn [app map fold_right]; rewrite ?(proj1 (KS cZ)), ?(proj2 (KS cZ)), CS.
    + rewrite (KC cZ b_cc (fun n => zaxis_asym A n * cos (IZR n * ze))); [ring|auto|].
      intros n Hn. destruct (AT n Hn) as (_ & _ & _ & ->). cbn [in_zeta]. ring.
    + ring.
Qed.
End J.

Section G.
Variables (p : rpart) (sq : Z -> R) (b : bdy) (rc rs zs zc : Z -> R).
Hypothesis P0 : nsMinF1 p = 0%Z.
Hypothesis Hj : (0 < nsMaxF1 p)%Z.
Hypothesis SQ : sq (0 - nsMinF1 p)%Z = 0.
(** the axis arrays written from the initial guess are those of the input *)
Lemma round_trip x X n : (0 <= n <= ntor)%Z ->
  (forall c k m n, has s c k = true -> (0 <= m < mpol)%Z -> (0 <= n <= ntor)%Z -> X c k (gidx s 0 m n) = interpFromBoundaryAndAxis s p sq b rc rs zs zc x c k (at_mn s (0 - nsMinF1 p) m n)) ->
  let A := ComputeThreed1AxisGeometry s X in
  raxis_symm A n = rc n /\ zaxis_symm A n = (if sz_lthreed s then zs n else 0) /\
  raxis_asym A n = (if sz_lasym s && sz_lthreed s then rs n else 0) /\ zaxis_asym A n = (if sz_lasym s then zc n else 0).
Proof.
  intros Hn REL A. destruct (axis_at X n Hn) as (A1 & A2 & A3 & A4). fold A in A1, A2, A3, A4.
  assert (V : forall c k, c <> cL -> has s c k = true -> s2 n * X c k (gidx s 0 0 n) = aval rc rs zs zc c k n).
  { intros c k NL HB. rewrite REL by (assumption || lia). rewrite (init_at s p sq b rc rs zs zc) by (assumption || lia). rewrite SQ. unfold weight. cbn [Z.eqb].
    pose proof (norm_s2 0 n) as NS. replace (s2 0) with 1 in NS by reflexivity.
    transitivity (basis_norm 0 n * (1 * s2 n) * aval rc rs zs zc c k n); [ring|]. rewrite NS. ring. }
  split; [rewrite A1; apply (V cR b_cc); [discriminate|reflexivity]|]. split; [|split].
  - rewrite A2. destruct (sz_lthreed s) eqn:LT; [|reflexivity]. pose proof (V cZ b_cs ltac:(discriminate) LT) as W. cbn [aval] in W. lra.
  - rewrite A3. destruct (sz_lasym s && sz_lthreed s) eqn:LT; [|reflexivity]. pose proof (V cR b_cs ltac:(discriminate) LT) as W. cbn [aval] in W. lra.
  - rewrite A4. destruct (sz_lasym s) eqn:LT; [|reflexivity]. pose proof (V cZ b_cc ltac:(discriminate) LT) as W. cbn [aval] in W. lra.
Qed.
Lemma axis_arrays_ext (A : axis_out) ze : (forall n, (0 <= n <= ntor)%Z -> raxis_symm A n = rc n /\ zaxis_symm A n = (if sz_lthreed s then zs n else 0) /\
  raxis_asym A n = (if sz_lasym s && sz_lthreed s then rs n else 0) /\ zaxis_asym A n = (if sz_lasym s then zc n else 0)) ->
  AxisSpec.axis_R (sz_lasym s) ntor (raxis_symm A) (raxis_asym A) ze = AxisSpec.axis_R (sz_lasym s) ntor rc rs ze /\
  AxisSpec.axis_Z (sz_lasym s) ntor (zaxis_symm A) (zaxis_asym A) ze = AxisSpec.axis_Z (sz_lasym s) ntor zs zc ze.
Proof.
  intros H. unfold AxisSpec.axis_R, AxisSpec.axis_Z.
  assert (N0 : forall n, sz_lthreed s = false -> (0 <= n < ntor + 1)%Z -> sin (IZR n * ze) = 0).
  { intros n LT Hn. rewrite (no_3d s OK n LT) by lia. rewrite Rmult_0_l. apply sin_0. }
  split; (apply f_equal2; [|destruct (sz_lasym s) eqn:LA; [|reflexivity]]); apply zsum_ext; intros n Hn; destruct (H n ltac:(lia)) as (H1 & H2 & H3 & H4);
    rewrite ?H1, ?H2, ?H3, ?H4; try reflexivity; destruct (sz_lthreed s) eqn:LT; try reflexivity; rewrite (N0 n eq_refl Hn); ring.
Qed.
End G.
End A.
