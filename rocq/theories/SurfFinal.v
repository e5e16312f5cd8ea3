From Coq Require Import ZArith List Bool Reals Lia Lra.
From Coquelicot Require Import Coquelicot.
From Verif Require Import Base BaseLemmas SumLemmas SizesModel FourierModel FourierSpec TrigSums DftSpec DftTables VacTables
  SingSpec SurfModel SurfSpec SurfProofs SurfMirror SurfMain.
Import ListNotations.
Open Scope R_scope.

Section W.
Variable s : sizes.
Hypothesis OK : sz_ok s.
Hypothesis MQ : (sz_mpol s + 1 <= sz_mnyq2 s)%Z.
Variable b0 : basis_tables.
Variables ztMin ztMax : Z.
Hypothesis Hz : (0 <= ztMin <= ztMax)%Z.
Hypothesis Hz2 : (ztMax <= sz_nZnT s)%Z.
Variable fullUpdate : bool.
Variable X : coef -> Z -> R.
Local Notation nT := (sz_nThetaEven s).
Local Notation nTR := (sz_nThetaReduced s).
Local Notation nz := (sz_nZeta s).
Local Notation fb := (vtab s b0).
Definition cf (x : coef) (m n : Z) : R := X x (n * sz_mpol s + m)%Z.
Definition z0 : Z -> Z -> R := fun _ _ => 0.
Definition lz (x : coef) : Z -> Z -> R := if sz_lasym s then cf x else z0.
Definition rD := serD (sz_nfp s) (sz_mpol s) (sz_ntor s) (cf rCC) (cf rSS) (lz rSC) (lz rCS).
Definition zD := serD (sz_nfp s) (sz_mpol s) (sz_ntor s) (lz zCC) (lz zSS) (cf zSC) (cf zCS).
Definition pD (c : comp) := if is_r c then rD (ou c) (ov c) else zD (ou c) (ov c).

Lemma total_series c t p : total s X c t (IZR (sz_nfp s) * p) = pD c t p.
Proof.
  unfold total. destruct (sz_lasym s) eqn:EL.
  - unfold clos. rewrite <- zsum_plus. unfold pD, rD, zD, serD.
    destruct (is_r c) eqn:Ec; apply zsum_ext; intros n _; rewrite <- zsum_plus; apply zsum_ext; intros m _;
      replace (IZR n * (IZR (sz_nfp s) * p)) with (IZR (n * sz_nfp s) * p) by (rewrite mult_IZR; ring);
      unfold lz, cf; rewrite EL;
      destruct c; try discriminate Ec; cbn [first_coef second_coef cos_like is_r ou ov]; ring.
  - unfold clos. rewrite Rplus_0_r. unfold pD, rD, zD, serD.
    destruct (is_r c) eqn:Ec; apply zsum_ext; intros n _; apply zsum_ext; intros m _;
      replace (IZR n * (IZR (sz_nfp s) * p)) with (IZR (n * sz_nfp s) * p) by (rewrite mult_IZR; ring);
      unfold lz, cf; rewrite EL; unfold z0;
      destruct c; try discriminate Ec; cbn [first_coef second_coef cos_like is_r ou ov]; ring.
Qed.

Definition tor_angle (k : Z) : R := 2 * PI * IZR k / (IZR (sz_nfp s) * IZR nz).
Lemma ang_tor k : ang nz k = IZR (sz_nfp s) * tor_angle k.
Proof.
  unfold ang, tor_angle. pose proof (so_nfp s OK). pose proof (so_nZeta s OK). field.
  split; apply not_0_IZR; lia.
Qed.

Lemma inverse_series a b c l k :
  (0 <= k < nz)%Z -> (0 <= l)%Z -> (l < if sz_lasym s then nT else nTR)%Z ->
  writes s ztMin ztMax fullUpdate c (l * nz + k) = true ->
  fst (inverseDFT s ztMin ztMax fullUpdate fb X (a, b)) c (l * nz + k - off s ztMin c)%Z
    = pD c (ang nT l) (tor_angle k).
Proof.
  intros. rewrite <- total_series, <- ang_tor. apply inverse_val; assumption.
Qed.

Lemma for_up_assign {S T} (pr : S -> Z -> T) lo hi (step : Z -> S -> S) (sh : Z) (val : Z -> T) :
  (forall i s j, (lo <= i < hi)%Z -> pr (step i s) j = if (j =? i - sh)%Z then val i else pr s j) ->
  forall s i, (lo <= i < hi)%Z -> pr (for_up lo hi step s) (i - sh)%Z = val i.
Proof.
  intros H s0 i Hi. unfold for_up.
  apply (local_assign pr (fun s i => step i s) (fun i => i - sh)%Z val (zrange lo hi)) with (a := i).
  - intros s1 a j Ha. apply H. apply zrange_In. exact Ha.
  - apply zrange_NoDup.
  - intros; lia.
  - apply zrange_In. exact Hi.
Qed.
Lemma point_q sgn a q kl x : (ztMin <= kl < ztMax)%Z -> (is_true fullUpdate \/ ~ In x [Auu; Auv; Avv; Drv]) ->
  for_up ztMin ztMax (fun kl q => point_quantities s ztMin fullUpdate sgn a kl q) q x (kl - ztMin)%Z =
  point_quantities s ztMin true sgn a kl (fun _ _ => 0) x (kl - ztMin)%Z.
Proof.
  intros Hk Hx.
  apply (for_up_assign (fun q : dcomp -> Z -> R => q x) ztMin ztMax
     (fun kl q => point_quantities s ztMin fullUpdate sgn a kl q) ztMin
     (fun kl => point_quantities s ztMin true sgn a kl (fun _ _ => 0) x (kl - ztMin)%Z)); [|exact Hk].
  intros i q' j _. unfold point_quantities, upd. cbv zeta.
  destruct x; destruct Hx as [E|E]; try (unfold is_true in E; rewrite E);
    try (exfalso; apply E; cbn; tauto); rewrite ?Z.eqb_refl; destruct (j =? i - ztMin)%Z; reflexivity.
Qed.

Definition Fs := surface (rD 0 0) (zD 0 0).
Definition tk kl := ang nT (kl / nz).
Definition pk kl := tor_angle (kl mod nz).

Lemma r_t i j t p : (i = 0 \/ i = 1)%Z -> is_derive (fun t => rD i j t p) t (rD (i + 1) j t p). Proof. apply serD_t. Qed.
Lemma r_p i j t p : (j = 0 \/ j = 1)%Z -> is_derive (fun p => rD i j t p) p (rD i (j + 1) t p). Proof. apply serD_p. Qed.
Lemma z_t i j t p : (i = 0 \/ i = 1)%Z -> is_derive (fun t => zD i j t p) t (zD (i + 1) j t p). Proof. apply serD_t. Qed.
Lemma z_p i j t p : (j = 0 \/ j = 1)%Z -> is_derive (fun p => zD i j t p) p (zD i (j + 1) t p). Proof. apply serD_p. Qed.

(** Arrays after inverseDFT at the points of the thread. *)
Lemma kl_split kl : (0 <= kl < sz_nZnT s)%Z ->
  (0 <= kl mod nz < nz)%Z /\ (0 <= kl / nz)%Z /\ (kl / nz < if sz_lasym s then nT else nTR)%Z /\ kl = (kl / nz * nz + kl mod nz)%Z.
Proof.
  intros H. pose proof (so_nZeta s OK) as Hn. pose proof (so_nZnT s OK) as E. pose proof (so_nTE s OK) as ET.
  split; [apply Z.mod_pos_bound; lia|]. split; [apply Z.div_pos; lia|].
  split; [|rewrite Z.mul_comm; apply Z.div_mod; lia].
  apply Z.div_lt_upper_bound; [lia|]. destruct (sz_lasym s); rewrite E, ET in H; lia.
Qed.

Lemma arrays_at a b kl c : (ztMin <= kl < ztMax)%Z -> (is_second c = true -> fullUpdate = true) ->
  fst (inverseDFT s ztMin ztMax fullUpdate fb X (a, b)) c (kl - off s ztMin c)%Z = pD c (tk kl) (pk kl).
Proof.
  intros Hk Hf. destruct (kl_split kl ltac:(lia)) as (Km & Kd & Kl & E).
  rewrite E at 1. apply inverse_series; try assumption.
  rewrite <- E. unfold writes. destruct (is_pos c); [reflexivity|]. cbn [orb].
  replace ((ztMin <=? kl)%Z) with true by (symmetry; apply Z.leb_le; lia).
  replace ((kl <? ztMax)%Z) with true by (symmetry; apply Z.ltb_lt; lia).
  rewrite orb_true_r. cbn [andb]. destruct (is_second c); [rewrite Hf; reflexivity|reflexivity].
Qed.

Section D.
Variables (g : surf) (sg : Z).
Local Notation g' := (update s ztMin ztMax fullUpdate fb X sg g).
Local Notation a' := (fst (inverseDFT s ztMin ztMax fullUpdate fb X (sf_sym g, sf_asym g))).

Lemma der_val x : sf_der g' x = for_up ztMin ztMax (fun kl q => point_quantities s ztMin fullUpdate (IZR sg) a' kl q) (sf_der g) x.
Proof.
  unfold update. destruct (inverseDFT _ _ _ _ _ _ _) as [a b]. unfold derivedSurfaceQuantities. cbv zeta. cbn [sf_sym sf_asym sf_der sf_rzb2 sf_rcosuv sf_rsinuv fst].
  destruct fullUpdate; [|reflexivity].
  destruct (if sz_lasym s then _ else _) as [a1 r1]. destruct (for_up 0 (nT * nz) _ _) as [rc rs]. reflexivity.
Qed.

Lemma first_order kl : (ztMin <= kl < ztMax)%Z ->
  let N := normal (IZR sg) Fs (tk kl) (pk kl) in
  let nfp := IZR (sz_nfp s) in
  let o := (kl - ztMin)%Z in
  sf_der g' Snr o = dot N (e_R (pk kl)) /\ sf_der g' Snv o = dot N (e_phi (pk kl)) /\ sf_der g' Snz o = dot N e_Z /\
  sf_der g' Guu o = dot (d_t Fs (tk kl) (pk kl)) (d_t Fs (tk kl) (pk kl)) /\
  sf_der g' Guv o = 2 * dot (d_t Fs (tk kl) (pk kl)) (d_p Fs (tk kl) (pk kl)) / nfp /\
  sf_der g' Gvv o = dot (d_p Fs (tk kl) (pk kl)) (d_p Fs (tk kl) (pk kl)) / (nfp * nfp).
Proof.
  intros Hk. cbv zeta.
  destruct (normal_comp rD zD r_t r_p z_t z_p (IZR sg) (tk kl) (pk kl)) as (N1 & N2 & N3).
  destruct (metric_comp rD zD r_t r_p z_t z_p (tk kl) (pk kl)) as (M1 & M2 & M3).
  change (surface (rD 0 0) (zD 0 0)) with Fs in *.
  rewrite N1, N2, N3, M1, M2, M3.
  rewrite !der_val.
  rewrite !point_q by (try assumption; right; cbn; intuition discriminate).
  unfold point_quantities, upd. cbv zeta. rewrite Z.eqb_refl.
  assert (A : forall c, is_pos c = false -> is_second c = false -> a' c (kl - derivOffset s ztMin)%Z = pD c (tk kl) (pk kl)).
  { intros c P Q. replace (derivOffset s ztMin) with (off s ztMin c) by (unfold off; rewrite P; reflexivity).
    apply arrays_at; [assumption|congruence]. }
  assert (B : forall c, is_pos c = true -> a' c kl = pD c (tk kl) (pk kl)).
  { intros c P. replace kl with (kl - off s ztMin c)%Z at 1 by (unfold off; rewrite P; lia).
    apply arrays_at; [assumption|destruct c; discriminate || (cbn; discriminate)]. }
  rewrite !A by reflexivity. rewrite !B by reflexivity. rewrite mult_IZR.
  unfold pD. cbn [is_r ou ov]. repeat split; reflexivity.
Qed.

Lemma second_order kl : fullUpdate = true -> (ztMin <= kl < ztMax)%Z ->
  let N := normal (IZR sg) Fs (tk kl) (pk kl) in
  let nfp := IZR (sz_nfp s) in
  let o := (kl - ztMin)%Z in
  sf_der g' Auu o = dot (d_t (d_t Fs) (tk kl) (pk kl)) N / 2 /\
  sf_der g' Auv o = dot (d_p (d_t Fs) (tk kl) (pk kl)) N / nfp /\
  sf_der g' Avv o = dot (d_p (d_p Fs) (tk kl) (pk kl)) N / 2 / (nfp * nfp) /\
  sf_der g' Drv o = - dot (Fs (tk kl) (pk kl)) N.
Proof.
  intros Hf Hk. cbv zeta.
  destruct (normal_comp rD zD r_t r_p z_t z_p (IZR sg) (tk kl) (pk kl)) as (N1 & N2 & N3).
  destruct (curv_comp rD zD r_t r_p z_t z_p (tk kl) (pk kl)) as ((T1 & T2 & T3) & (U1 & U2 & U3) & (V1 & V2 & V3) & (W1 & W2 & W3) & _).
  change (surface (rD 0 0) (zD 0 0)) with Fs in *.
  rewrite (dot_cyl (d_t (d_t Fs) (tk kl) (pk kl)) _ (pk kl)), (dot_cyl (d_p (d_t Fs) (tk kl) (pk kl)) _ (pk kl)),
    (dot_cyl (d_p (d_p Fs) (tk kl) (pk kl)) _ (pk kl)), (dot_cyl (Fs (tk kl) (pk kl)) _ (pk kl)).
  rewrite T1, T2, T3, U1, U2, U3, V1, V2, V3, W1, W2, W3, N1, N2, N3.
  rewrite !der_val.
  rewrite !point_q by (try assumption; left; rewrite Hf; reflexivity).
  unfold point_quantities, upd. cbv zeta. rewrite Z.eqb_refl.
  assert (A : forall c, is_pos c = false -> a' c (kl - derivOffset s ztMin)%Z = pD c (tk kl) (pk kl)).
  { intros c P. replace (derivOffset s ztMin) with (off s ztMin c) by (unfold off; rewrite P; reflexivity).
    apply arrays_at; [assumption|auto]. }
  assert (B : forall c, is_pos c = true -> a' c kl = pD c (tk kl) (pk kl)).
  { intros c P. replace kl with (kl - off s ztMin c)%Z at 1 by (unfold off; rewrite P; lia).
    apply arrays_at; [assumption|auto]. }
  rewrite !A by reflexivity. rewrite !B by reflexivity. rewrite mult_IZR.
  unfold pD. cbn [is_r ou ov].
  assert (Hn : IZR (sz_nfp s) <> 0) by (apply not_0_IZR; pose proof (so_nfp s OK); lia).
  repeat split; field; auto.
Qed.

(** Positions on the whole surface. *)
Lemma reflect_D c l k : (1 <= l < nT)%Z -> (0 <= k < nz)%Z -> sz_lasym s = false ->
  pD c (ang nT (lrev s l)) (tor_angle (krev s k)) = eps c * pD c (ang nT l) (tor_angle k).
Proof.
  intros Hl Hk EL. rewrite <- !total_series, <- !ang_tor. unfold total. rewrite EL, !Rplus_0_r.
  rewrite ang_lrev by assumption.
  rewrite (clos_reflect s X false c (ang nT l) (ang nz k) (ang nz (krev s k))); [ring|pose proof (so_ntor s OK); lia|].
  intros n Hn. apply ang_krev; assumption.
Qed.
Lemma position_arrays l k : fullUpdate = true -> (0 <= l < nT)%Z -> (0 <= k < nz)%Z ->
  let j := (l * nz + k)%Z in
  let t := ang nT l in let p := tor_angle k in
  sf_rcosuv g' j = vx (Fs t p) /\ sf_rsinuv g' j = vy (Fs t p) /\ sf_sym g' Z1 j = vz (Fs t p) /\
  sf_sym g' R1 j = dot (Fs t p) (e_R p) /\ sf_rzb2 g' j = dot (Fs t p) (Fs t p).
Proof.
  intros Hf Hl Hk. cbv zeta. pose proof (so_nT s OK) as HT. pose proof (so_nTR s OK) as HTR. pose proof (so_nZnT s OK) as HZ. pose proof (so_nTE s OK) as HE.
  destruct (curv_comp rD zD r_t r_p z_t z_p (ang nT l) (tor_angle k)) as (_ & _ & _ & (W1 & _ & _) & W4).
  change (surface (rD 0 0) (zD 0 0)) with Fs in *. rewrite W1, W4.
  assert (B : forall l k c, (0 <= l)%Z -> (l < if sz_lasym s then nT else nTR)%Z -> (0 <= k < nz)%Z -> is_pos c = true ->
     a' c (l * nz + k)%Z = pD c (ang nT l) (tor_angle k)).
  { intros l1 k1 c L1 L2 K P. replace (l1 * nz + k1)%Z with (l1 * nz + k1 - off s ztMin c)%Z by (unfold off; rewrite P; lia).
    apply inverse_series; try assumption. unfold writes. rewrite P. reflexivity. }
  unfold update. destruct (inverseDFT s ztMin ztMax fullUpdate fb X (sf_sym g, sf_asym g)) as [a b]. cbn [fst] in B.
  unfold derivedSurfaceQuantities. rewrite Hf. cbv zeta. cbn [sf_sym sf_asym sf_der sf_rzb2 sf_rcosuv sf_rsinuv].
  match goal with |- context [for_up 0 (sz_nZnT s) ?Bd ?S0] => set (r0 := for_up 0 (sz_nZnT s) Bd S0) end.
  assert (R0 : forall i, (0 <= i < sz_nZnT s)%Z -> r0 i = a R1 i * a R1 i + a Z1 i * a Z1 i).
  { intros i Hi. replace i with (i - 0)%Z at 1 by lia. unfold r0.
    apply (for_up_assign (fun r : Z -> R => r) 0 (sz_nZnT s) _ 0 (fun i => a R1 i * a R1 i + a Z1 i * a Z1 i)); [|exact Hi].
    intros i1 r1 j _. unfold upd. rewrite Z.sub_0_r. reflexivity. }
  assert (K : exists ar : fam * (Z -> R), (if sz_lasym s then (a, r0) else mirror_sym s (a, r0)) = ar /\
    forall l k, (0 <= l < nT)%Z -> (0 <= k < nz)%Z ->
      fst ar R1 (l * nz + k)%Z = rD 0 0 (ang nT l) (tor_angle k) /\
      fst ar Z1 (l * nz + k)%Z = zD 0 0 (ang nT l) (tor_angle k) /\
      snd ar (l * nz + k)%Z = rD 0 0 (ang nT l) (tor_angle k) * rD 0 0 (ang nT l) (tor_angle k) + zD 0 0 (ang nT l) (tor_angle k) * zD 0 0 (ang nT l) (tor_angle k)).
  { eexists; split; [reflexivity|]. intros l1 k1 L1 K1.
    destruct (sz_lasym s) eqn:EL.
    - cbn [fst snd]. assert (I : (0 <= l1 * nz + k1 < sz_nZnT s)%Z) by (rewrite HZ, HE; nia).
      rewrite (R0 _ I), !B by (try lia; reflexivity). unfold pD. cbn [is_r ou ov]. auto.
    - destruct (mirror_sym_val s OK a r0) as (M1 & M2 & _).
      destruct (Z_lt_le_dec l1 nTR) as [Lo|Hi].
      + destruct (M2 (l1 * nz + k1)%Z ltac:(nia)) as (E1 & E2 & E3). rewrite E1, E2, E3.
        assert (I : (0 <= l1 * nz + k1 < sz_nZnT s)%Z) by (rewrite HZ, HE; nia).
        rewrite (R0 _ I), !B by (try lia; reflexivity). unfold pD. cbn [is_r ou ov]. auto.
      + assert (EQ : lrev s (nT - l1) = l1) by (rewrite lrev_val by lia; lia).
        assert (KR : (0 <= krev s k1 < nz)%Z) by (apply krev_range; assumption).
        assert (EK : krev s (krev s k1) = k1) by (apply krev_krev; assumption).
        destruct (M1 (nT - l1)%Z (krev s k1) ltac:(lia) KR) as (E1 & E2 & E3). rewrite EQ, EK in E1, E2, E3.
        rewrite E1, E2, E3.
        assert (I : (0 <= (nT - l1) * nz + krev s k1 < sz_nZnT s)%Z) by (rewrite HZ, HE; nia).
        rewrite (R0 _ I), !B by (try lia; reflexivity).
        pose proof (reflect_D R1 (nT - l1) (krev s k1) ltac:(lia) KR EL) as P1.
        pose proof (reflect_D Z1 (nT - l1) (krev s k1) ltac:(lia) KR EL) as P2.
        rewrite EQ, EK in P1, P2. unfold eps in P1, P2. cbn [even_mirror] in P1, P2.
        unfold pD in *. cbn [is_r ou ov] in *. rewrite P1, P2. repeat split; ring. }
  destruct K as ([a1 r1] & -> & KV). cbn [fst snd] in KV.
  match goal with |- context [for_up 0 (nT * nz) ?Bd ?S0] => set (rc := for_up 0 (nT * nz) Bd S0) end.
  assert (RC : forall i, (0 <= i < nT * nz)%Z -> fst rc i = a1 R1 i * cos_phi s (i mod nz) /\ snd rc i = a1 R1 i * sin_phi s (i mod nz)).
  { intros i Hi. split; replace i with (i - 0)%Z at 1 by lia; unfold rc.
    - apply (for_up_assign (fun q : (Z -> R) * (Z -> R) => fst q) 0 (nT * nz) _ 0 (fun i => a1 R1 i * cos_phi s (i mod nz))); [|exact Hi].
      intros i1 [u v] j _. cbn [fst]. unfold upd. rewrite Z.sub_0_r. reflexivity.
    - apply (for_up_assign (fun q : (Z -> R) * (Z -> R) => snd q) 0 (nT * nz) _ 0 (fun i => a1 R1 i * sin_phi s (i mod nz))); [|exact Hi].
      intros i1 [u v] j _. cbn [snd]. unfold upd. rewrite Z.sub_0_r. reflexivity. }
  destruct (RC (l * nz + k)%Z ltac:(nia)) as [C1 C2].
  destruct rc as [rc1 rc2]. cbn [fst snd] in C1, C2. cbn [sf_sym sf_asym sf_der sf_rzb2 sf_rcosuv sf_rsinuv].
  destruct (KV l k Hl Hk) as (V1 & V2 & V3). rewrite C1, C2, V1, V2, V3.
  assert (E : ((l * nz + k) mod nz = k)%Z) by (rewrite Z.add_comm, Z.mod_add by lia; apply Z.mod_small; lia).
  rewrite E. unfold Fs, surface, cos_phi, sin_phi. cbn [vx vy vz].
  assert (EA : 2 * PI / IZR (sz_nfp s * nz) * IZR k = tor_angle k).
  { unfold tor_angle. rewrite mult_IZR. pose proof (so_nfp s OK). field. split; apply not_0_IZR; lia. }
  rewrite EA. auto.
Qed.
End D.
End W.

(** Lagrange's identity: a non-zero normal means a regular metric. *)
Lemma regular_of_normal sg u v (nfp : R) : 0 < nfp -> sg * sg = 1 ->
  dot (scale sg (cross v u)) (scale sg (cross v u)) <> 0 ->
  regular_metric (dot u u) (2 * dot u v / nfp) (dot v v / (nfp * nfp)).
Proof.
  intros Hn Hs H. unfold regular_metric.
  assert (L : dot (scale sg (cross v u)) (scale sg (cross v u)) = dot u u * dot v v - dot u v * dot u v).
  { unfold dot, scale, cross. cbn [vx vy vz].
    transitivity (sg * sg * ((vx u * vx u + vy u * vy u + vz u * vz u) * (vx v * vx v + vy v * vy v + vz v * vz v) -
      (vx u * vx v + vy u * vy v + vz u * vz v) * (vx u * vx v + vy u * vy v + vz u * vz v))); [ring|rewrite Hs; ring]. }
  assert (P : 0 < dot u u * dot v v - dot u v * dot u v).
  { rewrite <- L. assert (0 <= dot (scale sg (cross v u)) (scale sg (cross v u))) by (unfold dot; nra). lra. }
  assert (U : 0 <= dot u u) by (unfold dot; nra). assert (V : 0 <= dot v v) by (unfold dot; nra).
  assert (U' : 0 < dot u u) by nra. assert (V' : 0 < dot v v) by nra.
  assert (I : 0 < / nfp) by (apply Rinv_0_lt_compat; assumption).
  assert (I2 : 0 < / (nfp * nfp)) by (apply Rinv_0_lt_compat; nra).
  split; [assumption|]. split; [unfold Rdiv; apply Rmult_lt_0_compat; assumption|].
  replace (2 * dot u v / nfp * (2 * dot u v / nfp)) with (4 * (dot u v * dot u v) * / (nfp * nfp)) by (field; lra).
  replace (4 * dot u u * (dot v v / (nfp * nfp))) with (4 * (dot u u * dot v v) * / (nfp * nfp)) by (field; lra).
  apply Rmult_lt_compat_r; [assumption|lra].
Qed.

Lemma make_sizes_nfp lasym nfp mpol ntor ntheta nzeta mg ng s :
  make_sizes lasym nfp mpol ntor ntheta nzeta mg ng = Some s ->
  sz_lasym s = lasym /\ sz_nfp s = nfp /\ sz_mpol s = mpol /\ sz_ntor s = ntor.
Proof.
  unfold make_sizes. destruct ((nfp <? 1) || (mpol <? 1) || (ntor <? 0))%Z%bool; [discriminate|].
  intros E. apply some_inj in E. subst s. cbn [sz_lasym sz_mpol sz_ntor sz_nfp]. auto.
Qed.

Lemma first_sizes lasym nfp mpol ntor ntheta nzeta mg ng s b0 ztMin ztMax fullUpdate X sg g kl :
  make_sizes lasym nfp mpol ntor ntheta nzeta mg ng = Some s ->
  (0 <= ztMin <= ztMax)%Z -> (ztMax <= sz_nZnT s)%Z -> (ztMin <= kl < ztMax)%Z ->
  let F := boundary lasym nfp mpol ntor X in
  let t := 2 * PI * IZR (kl / sz_nZeta s) / IZR (sz_nThetaEven s) in
  let p := 2 * PI * IZR (kl mod sz_nZeta s) / (IZR nfp * IZR (sz_nZeta s)) in
  let N := normal (IZR sg) F t p in
  let q x := sf_der (update s ztMin ztMax fullUpdate (vtab s b0) X sg g) x (kl - ztMin)%Z in
  q Snr = dot N (e_R p) /\ q Snv = dot N (e_phi p) /\ q Snz = dot N e_Z /\
  q Guu = dot (d_t F t p) (d_t F t p) /\
  q Guv = 2 * dot (d_t F t p) (d_p F t p) / IZR nfp /\
  q Gvv = dot (d_p F t p) (d_p F t p) / (IZR nfp * IZR nfp).
Proof.
  intros E H1 H2 H3. pose proof (make_sizes_ok _ _ _ _ _ _ _ _ _ E) as OK.
  destruct (make_sizes_mnyq2 _ _ _ _ _ _ _ _ _ E) as [MQ _]. destruct (make_sizes_nfp _ _ _ _ _ _ _ _ _ E) as (E1 & E2 & E3 & E4).
  clear E. subst lasym nfp mpol ntor.
  exact (first_order s OK MQ b0 ztMin ztMax H1 H2 fullUpdate X g sg kl H3).
Qed.
Lemma second_sizes lasym nfp mpol ntor ntheta nzeta mg ng s b0 ztMin ztMax X sg g kl :
  make_sizes lasym nfp mpol ntor ntheta nzeta mg ng = Some s ->
  (0 <= ztMin <= ztMax)%Z -> (ztMax <= sz_nZnT s)%Z -> (ztMin <= kl < ztMax)%Z ->
  let F := boundary lasym nfp mpol ntor X in
  let t := 2 * PI * IZR (kl / sz_nZeta s) / IZR (sz_nThetaEven s) in
  let p := 2 * PI * IZR (kl mod sz_nZeta s) / (IZR nfp * IZR (sz_nZeta s)) in
  let N := normal (IZR sg) F t p in
  let q x := sf_der (update s ztMin ztMax true (vtab s b0) X sg g) x (kl - ztMin)%Z in
  q Auu = dot (d_t (d_t F) t p) N / 2 /\
  q Auv = dot (d_p (d_t F) t p) N / IZR nfp /\
  q Avv = dot (d_p (d_p F) t p) N / 2 / (IZR nfp * IZR nfp) /\
  q Drv = - dot (F t p) N.
Proof.
  intros E H1 H2 H3. pose proof (make_sizes_ok _ _ _ _ _ _ _ _ _ E) as OK.
  destruct (make_sizes_mnyq2 _ _ _ _ _ _ _ _ _ E) as [MQ _]. destruct (make_sizes_nfp _ _ _ _ _ _ _ _ _ E) as (E1 & E2 & E3 & E4).
  clear E. subst lasym nfp mpol ntor.
  exact (second_order s OK MQ b0 ztMin ztMax H1 H2 true X g sg kl eq_refl H3).
Qed.
Lemma positions_sizes lasym nfp mpol ntor ntheta nzeta mg ng s b0 ztMin ztMax X sg g l k :
  make_sizes lasym nfp mpol ntor ntheta nzeta mg ng = Some s ->
  (0 <= ztMin <= ztMax)%Z -> (ztMax <= sz_nZnT s)%Z -> (0 <= l < sz_nThetaEven s)%Z -> (0 <= k < sz_nZeta s)%Z ->
  let F := boundary lasym nfp mpol ntor X in
  let t := 2 * PI * IZR l / IZR (sz_nThetaEven s) in
  let p := 2 * PI * IZR k / (IZR nfp * IZR (sz_nZeta s)) in
  let r := update s ztMin ztMax true (vtab s b0) X sg g in
  let j := (l * sz_nZeta s + k)%Z in
  sf_rcosuv r j = vx (F t p) /\ sf_rsinuv r j = vy (F t p) /\ sf_sym r Z1 j = vz (F t p) /\
  sf_sym r R1 j = dot (F t p) (e_R p) /\ sf_rzb2 r j = dot (F t p) (F t p).
Proof.
  intros E H1 H2 H3 H4. pose proof (make_sizes_ok _ _ _ _ _ _ _ _ _ E) as OK.
  destruct (make_sizes_mnyq2 _ _ _ _ _ _ _ _ _ E) as [MQ _]. destruct (make_sizes_nfp _ _ _ _ _ _ _ _ _ E) as (E1 & E2 & E3 & E4).
  clear E. subst lasym nfp mpol ntor.
  exact (position_arrays s OK MQ b0 ztMin ztMax H1 H2 true X g sg l k eq_refl H3 H4).
Qed.
Lemma regular_sizes lasym nfp mpol ntor ntheta nzeta mg ng s b0 ztMin ztMax fullUpdate X sg g kl :
  make_sizes lasym nfp mpol ntor ntheta nzeta mg ng = Some s ->
  (0 <= ztMin <= ztMax)%Z -> (ztMax <= sz_nZnT s)%Z -> (ztMin <= kl < ztMax)%Z -> (sg = 1 \/ sg = -1)%Z ->
  let q x := sf_der (update s ztMin ztMax fullUpdate (vtab s b0) X sg g) x (kl - ztMin)%Z in
  q Snr * q Snr + q Snv * q Snv + q Snz * q Snz <> 0 -> regular_metric (q Guu) (q Guv) (q Gvv).
Proof.
  intros E H1 H2 H3 Hs q HN.
  destruct (first_sizes _ _ _ _ _ _ _ _ _ b0 ztMin ztMax fullUpdate X sg g kl E H1 H2 H3) as (A1 & A2 & A3 & A4 & A5 & A6).
  fold (q Snr) in A1. fold (q Snv) in A2. fold (q Snz) in A3. fold (q Guu) in A4. fold (q Guv) in A5. fold (q Gvv) in A6.
  rewrite A4, A5, A6. rewrite A1, A2, A3 in HN. rewrite <- dot_cyl in HN.
  pose proof (make_sizes_ok _ _ _ _ _ _ _ _ _ E) as OK. destruct (make_sizes_nfp _ _ _ _ _ _ _ _ _ E) as (_ & E2 & _ & _).
  apply (regular_of_normal (IZR sg)); [apply IZR_lt; pose proof (so_nfp s OK); lia| |exact HN].
  rewrite <- mult_IZR. destruct Hs as [-> | ->]; reflexivity.
Qed.

(** A circular torus has a non-zero normal. *)
Definition torus : coef -> Z -> R := fun x i =>
  match x with rCC => if (i =? 0)%Z then 3 else if (i =? 1)%Z then 1 else 0 | zSC => if (i =? 1)%Z then 1 else 0 | _ => 0 end.
Lemma torus_case : exists s, make_sizes false 5 2 0 0 1 0 0 = Some s /\ (0 < sz_nZnT s)%Z /\
  forall b0 g, let q x := sf_der (update s 0 (sz_nZnT s) true (vtab s b0) torus 1 g) x 0%Z in
  q Snr * q Snr + q Snv * q Snv + q Snz * q Snz <> 0.
Proof.
  assert (EN : option_map sz_nZnT (make_sizes false 5 2 0 0 1 0 0) = Some 6%Z) by reflexivity.
  assert (EZ : option_map sz_nZeta (make_sizes false 5 2 0 0 1 0 0) = Some 1%Z) by reflexivity.
  destruct (make_sizes false 5 2 0 0 1 0 0) as [s|] eqn:E; [|discriminate EN].
  cbn [option_map] in EN, EZ. apply some_inj in EN, EZ. symmetry in EN, EZ. exists s. split; [reflexivity|].
  split; [lia|]. intros b0 g q.
  destruct (first_sizes _ _ _ _ _ _ _ _ _ b0 0 (sz_nZnT s) true torus 1 g 0 E) as (A1 & _); try lia.

  destruct (make_sizes_nfp _ _ _ _ _ _ _ _ _ E) as (E1 & E2 & E3 & E4).
  assert (V : q Snr <> 0).
  { change (q Snr) with (sf_der (update s 0 (sz_nZnT s) true (vtab s b0) torus 1 g) Snr (0 - 0)%Z). rewrite A1.
    assert (EF : boundary false 5 2 0 torus = Fs s torus) by (unfold Fs, rD, zD, lz, boundary; rewrite E1, E2, E3, E4; reflexivity).
    rewrite EF.
    destruct (normal_comp (rD s torus) (zD s torus) (r_t s torus) (r_p s torus) (z_t s torus) (z_p s torus) 1
       (2 * PI * IZR (0 / sz_nZeta s) / IZR (sz_nThetaEven s)) (2 * PI * IZR (0 mod sz_nZeta s) / (5 * IZR (sz_nZeta s)))) as (N1 & _).
    change (normal (IZR 1)) with (normal 1). unfold Fs. rewrite N1.
    rewrite EZ. change (0 / 1)%Z with 0%Z. change (0 mod 1)%Z with 0%Z.
    replace (2 * PI * 0 / IZR (sz_nThetaEven s)) with 0 by (unfold Rdiv; ring).
    replace (2 * PI * 0 / (5 * 1)) with 0 by (unfold Rdiv; ring).
    unfold rD, zD, serD, lz, cf, z0. rewrite ?E1, ?E2, ?E3, ?E4.
    unfold zsum. change (zrange 0 (0 + 1)) with [0%Z]. change (zrange 0 2) with [0%Z; 1%Z].
    cbn [rsum]. unfold torus, bas. cbn [Z.mul Z.add Z.eqb Pos.eqb].
    rewrite !Rmult_0_r, cos_0, sin_0. unfold s2. cbn [Z.eqb].
    assert (0 < sqrt 2) by (apply sqrt_lt_R0; lra). nra. }
  assert (0 < q Snr * q Snr) by nra. nra.
Qed.
