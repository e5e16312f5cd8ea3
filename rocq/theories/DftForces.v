(** Forces: the loops compute grid inner products with the basis functions. *)
From Coq Require Import ZArith List Bool Reals Lia Lra.
From Verif Require Import Base BaseLemmas SumLemmas SizesModel FourierModel FourierSpec FourierProofs TrigSums
  PartModel DftModel DftSpec DftTables DftProofs DftGeo.
Import ListNotations.
Open Scope R_scope.

Lemma block_loopv {S T} (view : S -> Z -> T) (body : Z -> S -> S) (blk : Z -> Z) (F : Z -> (Z -> T) -> Z -> T) lo hi s0 :
  (forall j a i, (lo <= j < hi)%Z -> blk i <> j -> view (body j a) i = view a i) ->
  (forall j a i, (lo <= j < hi)%Z -> blk i = j -> view (body j a) i = F j (view a) i) ->
  (forall j a a' i, (lo <= j < hi)%Z -> blk i = j -> (forall i', blk i' = j -> a i' = a' i') -> F j a i = F j a' i) ->
  forall i, (lo <= blk i < hi)%Z -> view (for_up lo hi body s0) i = F (blk i) (view s0) i.
Proof.
  intros H1 H2 H3 i Hi.
  assert (G : forall i, if (lo <=? blk i)%Z && (blk i <? hi)%Z then view (for_up lo hi body s0) i = F (blk i) (view s0) i else view (for_up lo hi body s0) i = view s0 i).
  { apply (for_up_ind (fun n a => forall i, if (lo <=? blk i)%Z && (blk i <? n)%Z then view a i = F (blk i) (view s0) i else view a i = view s0 i)); [lia| |].
    - intros i'. destruct (Z.leb_spec lo (blk i')); destruct (Z.ltb_spec (blk i') lo); cbn [andb]; try lia; reflexivity.
    - intros n a Hn IH i'. destruct (Z.eq_dec (blk i') n) as [E|E].
      + destruct (Z.leb_spec lo (blk i')); destruct (Z.ltb_spec (blk i') (n + 1)); cbn [andb]; try lia.
        rewrite (H2 n a i') by (auto; lia). rewrite E. apply H3; [lia|exact E|].
        intros i2 E2. specialize (IH i2). rewrite E2 in IH.
        destruct (Z.leb_spec lo n); destruct (Z.ltb_spec n n); cbn [andb] in IH; try lia; exact IH.
      + rewrite (H1 n a i') by (auto; lia). specialize (IH i').
        destruct (Z.leb_spec lo (blk i')); destruct (Z.ltb_spec (blk i') (n + 1)); destruct (Z.ltb_spec (blk i') n); cbn [andb] in *; try lia; exact IH. }
  specialize (G i). destruct (Z.leb_spec lo (blk i)); destruct (Z.ltb_spec (blk i) hi); cbn [andb] in G; try lia; exact G.
Qed.

Lemma zsum_at lo hi j (f : Z -> R) : (forall i, (lo <= i < hi)%Z -> i <> j -> f i = 0) ->
  zsum lo hi f = if (lo <=? j)%Z && (j <? hi)%Z then f j else 0.
Proof.
  intros H. destruct (Z.leb_spec lo j); destruct (Z.ltb_spec j hi); cbn [andb].
  - apply zsum_single; [lia|exact H].
  - apply zsum_zero. intros i Hi. apply H; lia.
  - apply zsum_zero. intros i Hi. apply H; lia.
  - apply zsum_zero. intros i Hi. apply H; lia.
Qed.

Section Forces.
Variable s : sizes.
Hypothesis OK : sz_ok s.
Variable b0 : basis_tables.
Variable p : rpart.
Variable xmpq : Z -> R.
Variables (ns : Z) (lfreeb vacuum_on : bool).
Hypothesis SH : sz_lthreed s = true \/ sz_nZeta s = 1%Z.
Hypothesis P0 : (0 <= nsMinF p)%Z.
Local Notation t := (tab s b0).
Local Notation mpol := (sz_mpol s).
Local Notation ntor := (sz_ntor s).
Local Notation nfp := (sz_nfp s).
Local Notation nZeta := (sz_nZeta s).
Local Notation nTR := (sz_nThetaReduced s).
Local Notation nTE := (sz_nThetaEff s).
Local Notation nT := (sz_nThetaEven s).
Local Notation jMax := (f_jMaxRZ p ns lfreeb vacuum_on).

Definition wred (l : Z) : R := half_end s l (norm_ s).
Definition red_avg (f : Z -> Z -> R) : R := zsum 0 nZeta (fun k => zsum 0 nTR (fun l => wred l * f k l)).

Lemma end_sin m l : (l = 0 \/ l = nTR - 1)%Z -> sin (IZR m * ang nT l) = 0.
Proof.
  assert (HT := so_nT s OK). assert (HR := so_nTR s OK).
  assert (NN : IZR nT <> 0) by (apply not_0_IZR; lia).
  intros [-> | ->].
  - unfold ang. replace (IZR m * (2 * PI * 0 / IZR nT)) with 0 by (field; exact NN). apply sin_0.
  - unfold ang. replace (2 * PI * IZR (nTR - 1) / IZR nT) with PI.
    + assert (S := sin_period_Z 0 m). 
      replace (IZR m * PI) with (IZR m * PI) by ring.
      apply sin_eq_0_1. exists m. reflexivity.
    + rewrite HT, mult_IZR. field. apply not_0_IZR; lia.
Qed.
Lemma pol_a_eq b m l : (0 <= m < mpol)%Z -> (0 <= l < nTR)%Z ->
  pol_a b t (m * nTR + l)%Z = wred l * (s2 m * in_theta b (IZR m * theta_pt s l)).
Proof.
  intros Hm Hl. rewrite theta_pt_ang. unfold wred, half_end.
  destruct b; cbn [pol_a in_theta]; rewrite ?(t_cosmui s OK b0), ?(t_sinmui s OK b0) by lia; unfold half_end.
  all: destruct ((l =? 0)%Z || (l =? nTR - 1)%Z) eqn:E; try field.
  all: rewrite end_sin; [field|]; apply orb_true_iff in E; destruct E as [E|E]; apply Z.eqb_eq in E; lia.
Qed.
Lemma pol_m_eq b m l : (0 <= m < mpol)%Z -> (0 <= l < nTR)%Z ->
  pol_m b t (m * nTR + l)%Z = wred l * (s2 m * (IZR m * d_in_theta b (IZR m * theta_pt s l))).
Proof.
  intros Hm Hl. rewrite theta_pt_ang. unfold wred, half_end.
  destruct b; cbn [pol_m d_in_theta]; rewrite ?(t_cosmumi s OK b0), ?(t_sinmumi s OK b0), ?opp_IZR by lia; unfold half_end.
  all: destruct ((l =? 0)%Z || (l =? nTR - 1)%Z) eqn:E; try field.
  all: rewrite end_sin; [field|]; apply orb_true_iff in E; destruct E as [E|E]; apply Z.eqb_eq in E; lia.
Qed.
Lemma tor_a_eq b k n : (0 <= k < nZeta)%Z -> (0 <= n <= ntor)%Z ->
  tor_a b t (k * (sz_nnyq2 s + 1) + n)%Z = s2 n * in_zeta b (IZR n * (IZR nfp * phi_pt s k)).
Proof.
  intros Hk Hn. rewrite (phi_ang s OK). destruct b; cbn [tor_a in_zeta]; rewrite ?(t_cosnv s OK b0), ?(t_sinnv s OK b0) by lia; ring.
Qed.
Lemma tor_n_eq b k n : (0 <= k < nZeta)%Z -> (0 <= n <= ntor)%Z ->
  tor_n b t (k * (sz_nnyq2 s + 1) + n)%Z = s2 n * (IZR (n * nfp) * d_in_zeta b (IZR n * (IZR nfp * phi_pt s k))).
Proof.
  intros Hk Hn. rewrite (phi_ang s OK). destruct b; cbn [tor_n d_in_zeta]; rewrite ?(t_cosnvn s OK b0), ?(t_sinnvn s OK b0) by lia;
  rewrite ?mult_IZR, ?opp_IZR; ring.
Qed.

(** integrand of the inner product *)
Definition fA (d : forces) (m : Z) (c : comp) (i : Z) : R :=
  if isL c then 0 else d (c_A c) (Z.even m) i + xmpq m * d (c_con c) (Z.even m) i.
Definition fterm (d : forces) (J m n : Z) (c : comp) (b : bk) (k l : Z) : R :=
  let i := at_pt s J k l in let e := Z.even m in
  fA d m c i * Phi nfp b m n (theta_pt s l) (phi_pt s k) + d (c_B c) e i * Phi_theta nfp b m n (theta_pt s l) (phi_pt s k)
  - d (c_C c) e i * Phi_phi nfp b m n (theta_pt s l) (phi_pt s k).

Lemma force_v_eq d j m k c b n : (0 <= m < mpol)%Z -> (0 <= k < nZeta)%Z -> (0 <= n <= ntor)%Z ->
  force_v s t p xmpq d j m k c b n = zsum 0 nTR (fun l => wred l * fterm d (j - nsMinF p) m n c b k l).
Proof.
  intros Hm Hk Hn. unfold force_v, mk_p, mk_n, suml. cbv zeta. rewrite !acc_sum.
  rewrite tor_a_eq, tor_n_eq by lia. rewrite <- !zsum_scale_r, <- zsum_plus. apply zsum_ext. intros l Hl.
  rewrite pol_a_eq, pol_m_eq by lia. unfold fterm, fA, Phi, Phi_theta, Phi_phi, at_pt. cbv zeta.
  destruct c; cbn [isL c_A c_B c_C c_con]; ring.
Qed.

(** which (component, surface, m) receive a contribution *)
Definition rz_on (j m : Z) : bool := ((nsMinF p <=? j) && (j <? jMax) && (m <? (if j =? 0 then 1 else mpol)))%Z.
Definition l_on3 (j m : Z) : bool := (((nsMinF p <=? j) && (j <? jMax) && (m <? (if j =? 0 then 1 else mpol)) && (1 <=? j)) ||
  ((jMax <=? j) && (j <? nsMaxFIncludingLcfs p)))%Z.
Definition onc (c : comp) (j m : Z) : bool := if isL c then l_on3 j m else rz_on j m.

Lemma at_mn_bounds j m n : at_mn s j m n = ((j * mpol + m) * (ntor + 1) + n)%Z. Proof. reflexivity. Qed.
Lemma loop3 (tgt : comp -> bk -> bool) (d : forces) lo hi (mm : Z -> Z) (cond : Z -> comp -> bool) (f : coefs) c b j m n :
  (forall jF, mm jF <= mpol)%Z -> (0 <= m < mpol)%Z -> (0 <= n <= ntor)%Z ->
  for_up lo hi (fun jF f => for_up 0 (mm jF) (fun m f => for_up 0 nZeta (fun k f => fun c b =>
     if tgt c b && cond jF c then seg_add (f c b) (((jF - nsMinF p) * mpol + m) * (ntor + 1)) (ntor + 1) (force_v s t p xmpq d jF m k c b) else f c b) f) f) f
   c b (at_mn s (j - nsMinF p) m n) = f c b (at_mn s (j - nsMinF p) m n) +
  (if tgt c b && ((lo <=? j) && (j <? hi) && (m <? mm j) && cond j c)%Z then red_avg (fterm d (j - nsMinF p) m n c b) else 0).
Proof.
  intros HM Hm Hn. set (i := at_mn s (j - nsMinF p) m n).
  rewrite (for_up_proj (fun f : coefs => f c b i) _ (fun jF => zsum 0 (mm jF) (fun m' => zsum 0 nZeta (fun k =>
    if tgt c b && cond jF c then seg_c (((jF - nsMinF p) * mpol + m') * (ntor + 1)) (ntor + 1) (force_v s t p xmpq d jF m' k c b) i else 0)))).
  - apply f_equal. rewrite (zsum_at _ _ j).
    2:{ intros j' Hj' Hne. apply zsum_zero. intros m' Hm'. apply zsum_zero. intros k Hk. destruct (tgt c b && cond j' c); [|reflexivity].
        unfold i, at_mn. apply seg_c_miss; [lia|lia|]. intros E. specialize (HM j'). apply flat_inj in E; lia. }
    destruct (tgt c b); cbn [andb].
    2:{ destruct ((lo <=? j)%Z && (j <? hi)%Z); [|reflexivity]. apply zsum_zero; intros; apply zsum_zero; reflexivity. }
    destruct ((lo <=? j)%Z && (j <? hi)%Z); cbn [andb]; [|reflexivity].
    rewrite (zsum_at _ _ m).
    2:{ intros m' Hm' Hne. apply zsum_zero. intros k Hk. destruct (cond j c); [|reflexivity].
        unfold i, at_mn. apply seg_c_miss; [lia|lia|]. lia. }
    destruct (Z.leb_spec 0 m); [|lia]. cbn [andb]. destruct (m <? mm j)%Z; cbn [andb]; [|reflexivity].
    destruct (cond j c); [|apply zsum_zero; reflexivity].
    unfold red_avg. apply zsum_ext. intros k Hk. unfold i, at_mn. rewrite seg_c_hit by lia. apply force_v_eq; lia.
  - intros jF g _. rewrite (for_up_proj (fun f : coefs => f c b i) _ (fun m' => zsum 0 nZeta (fun k =>
    if tgt c b && cond jF c then seg_c (((jF - nsMinF p) * mpol + m') * (ntor + 1)) (ntor + 1) (force_v s t p xmpq d jF m' k c b) i else 0))).
    { reflexivity. }
    intros m' g' _. rewrite (for_up_proj (fun f : coefs => f c b i) _ (fun k =>
    if tgt c b && cond jF c then seg_c (((jF - nsMinF p) * mpol + m') * (ntor + 1)) (ntor + 1) (force_v s t p xmpq d jF m' k c b) i else 0)).
    { reflexivity. }
    intros k g2 _. cbv beta. destruct (tgt c b && cond jF c); [apply seg_add_at|lra].
Qed.

Lemma FF3_at d tgt f c b j m n : (0 <= m < mpol)%Z -> (0 <= n <= ntor)%Z ->
  ForcesToFourier3D s t p xmpq ns lfreeb vacuum_on d tgt f c b (at_mn s (j - nsMinF p) m n) =
  f c b (at_mn s (j - nsMinF p) m n) + if tgt c b && onc c j m then red_avg (fterm d (j - nsMinF p) m n c b) else 0.
Proof.
  intros Hm Hn. unfold ForcesToFourier3D. cbv zeta. assert (M1 := so_mpol s OK).
  rewrite (loop3 tgt d jMax (nsMaxFIncludingLcfs p) (fun _ => mpol) (fun _ c => isL c)) by (auto; lia).
  rewrite (loop3 tgt d (nsMinF p) jMax (fun jF => if (jF =? 0)%Z then 1%Z else mpol) (fun jF c => negb (isL c) || (1 <=? jF)%Z)).
  2:{ intros jF. destruct (jF =? 0)%Z; lia. } 2: lia. 2: lia.
  rewrite Rplus_assoc. apply f_equal. unfold onc, l_on3, rz_on.
  destruct (Z.ltb_spec m mpol); [|lia].
  destruct (tgt c b); cbn [andb]; [|lra]. destruct (isL c); cbn [negb orb andb].
  - rewrite !andb_true_r.
    destruct ((jMax <=? j)%Z && (j <? nsMaxFIncludingLcfs p)%Z) eqn:E; cbn [orb].
    + rewrite orb_true_r. apply andb_true_iff in E. destruct E as [E _]. apply Z.leb_le in E.
      destruct (Z.ltb_spec j jMax); [lia|]. rewrite andb_false_r. cbn [andb]. lra.
    + rewrite orb_false_r. lra.
  - rewrite !andb_false_r, !andb_true_r. lra.
Qed.

(** 2D *)
Definition l_on2 (j m : Z) : bool := ((Z.max 1 (nsMinF p) <=? j) && (j <? nsMaxFIncludingLcfs p))%Z.
Definition onc2 (c : comp) (j m : Z) : bool := if isL c then l_on2 j m else rz_on j m.
Lemma force2_sum d j m c b : sz_lthreed s = false -> (0 <= m < mpol)%Z -> tor_cos b = true ->
  zsum 0 nTR (force2_v s t p xmpq d j m c b) = red_avg (fterm d (j - nsMinF p) m 0 c b).
Proof.
  intros H3 Hm Hb. destruct SH as [?|Z1]; [congruence|]. unfold red_avg. rewrite Z1.
  change (zsum 0 1) with (zsum 0 (0 + 1)). rewrite zsum01. apply zsum_ext. intros l Hl.
  unfold force2_v. cbv zeta. rewrite pol_a_eq, pol_m_eq by lia.
  unfold fterm, fA, Phi, Phi_theta, Phi_phi, at_pt. cbv zeta. rewrite Z1.
  replace (((j - nsMinF p) * 1 + 0) * nTE + l)%Z with ((j - nsMinF p) * nTE + l)%Z by ring.
  assert (C0 : forall y, cos (IZR 0 * y) = 1) by (intros; rewrite Rmult_0_l; apply cos_0).
  destruct b; try discriminate; cbn [in_zeta d_in_zeta]; rewrite C0; change (s2 0) with 1; rewrite Z.mul_0_l;
  destruct c; cbn [isL c_A c_B c_C c_con]; ring.
Qed.
Lemma loop2 (tgt : comp -> bk -> bool) (d : forces) lo hi (mm : Z -> Z) (cond : comp -> bool) (f : coefs) c b j m :
  sz_lthreed s = false ->
  (forall jF, mm jF <= mpol)%Z -> (0 <= m < mpol)%Z ->
  for_up lo hi (fun jF f => for_up 0 (mm jF) (fun m f => fun c b =>
     if tgt c b && tor_cos b && cond c then for_up 0 nTR (fun l a =>
    upd a ((jF - nsMinF p) * mpol + m)%Z (a ((jF - nsMinF p) * mpol + m)%Z + force2_v s t p xmpq d jF m c b l)) (f c b) else f c b) f) f
   c b ((j - nsMinF p) * mpol + m)%Z = f c b ((j - nsMinF p) * mpol + m)%Z +
  (if tgt c b && tor_cos b && ((lo <=? j) && (j <? hi) && (m <? mm j) && cond c)%Z then red_avg (fterm d (j - nsMinF p) m 0 c b) else 0).
Proof.
  intros H3 HM Hm. set (i := ((j - nsMinF p) * mpol + m)%Z).
  rewrite (for_up_proj (fun f : coefs => f c b i) _ (fun jF => zsum 0 (mm jF) (fun m' => 
    if tgt c b && tor_cos b && cond c then (if (i =? (jF - nsMinF p) * mpol + m')%Z then zsum 0 nTR (force2_v s t p xmpq d jF m' c b) else 0) else 0))).
  - apply f_equal. rewrite (zsum_at _ _ j).
    2:{ intros j' Hj' Hne. apply zsum_zero. intros m' Hm'. destruct (tgt c b && tor_cos b && cond c); [|reflexivity].
        unfold i. destruct (Z.eqb_spec ((j - nsMinF p) * mpol + m) ((j' - nsMinF p) * mpol + m')) as [E|]; [|reflexivity].
        specialize (HM j'). apply flat_inj in E; lia. }
    destruct (tgt c b && tor_cos b) eqn:ET; cbn [andb].
    2:{ destruct ((lo <=? j)%Z && (j <? hi)%Z); [|reflexivity]. apply zsum_zero; reflexivity. }
    destruct ((lo <=? j)%Z && (j <? hi)%Z); cbn [andb]; [|reflexivity].
    rewrite (zsum_at _ _ m).
    2:{ intros m' Hm' Hne. destruct (cond c); [|reflexivity].
        unfold i. destruct (Z.eqb_spec ((j - nsMinF p) * mpol + m) ((j - nsMinF p) * mpol + m')); [lia|reflexivity]. }
    destruct (Z.leb_spec 0 m); [|lia]. cbn [andb]. destruct (m <? mm j)%Z; cbn [andb]; [|reflexivity].
    destruct (cond c); [|reflexivity]. unfold i. rewrite Z.eqb_refl. apply force2_sum; [exact H3|lia|].
    apply andb_true_iff in ET. tauto.
  - intros jF g _. rewrite (for_up_proj (fun f : coefs => f c b i) _ (fun m' => 
    if tgt c b && tor_cos b && cond c then (if (i =? (jF - nsMinF p) * mpol + m')%Z then zsum 0 nTR (force2_v s t p xmpq d jF m' c b) else 0) else 0)).
    { reflexivity. }
    intros m' g' _. cbv beta. destruct (tgt c b && tor_cos b && cond c); [|lra].
    rewrite (for_up_proj (fun a : Z -> R => a i) _ (fun l => if (i =? (jF - nsMinF p) * mpol + m')%Z then force2_v s t p xmpq d jF m' c b l else 0)).
    + apply f_equal. destruct (i =? (jF - nsMinF p) * mpol + m')%Z; [reflexivity|apply zsum_zero; reflexivity].
    + intros l a _. unfold upd. destruct (Z.eqb_spec i ((jF - nsMinF p) * mpol + m')) as [->|]; lra.
Qed.
Lemma FF2_at d tgt f c b j m : sz_lthreed s = false -> (0 <= m < mpol)%Z ->
  ForcesToFourier2D s t p xmpq ns lfreeb vacuum_on d tgt f c b ((j - nsMinF p) * mpol + m)%Z =
  f c b ((j - nsMinF p) * mpol + m)%Z + if tgt c b && tor_cos b && onc2 c j m then red_avg (fterm d (j - nsMinF p) m 0 c b) else 0.
Proof.
  intros H3 Hm. unfold ForcesToFourier2D. cbv zeta. assert (M1 := so_mpol s OK).
  rewrite (loop2 tgt d (Z.max 1 (nsMinF p)) (nsMaxFIncludingLcfs p) (fun _ => mpol) (fun c => isL c)) by (auto; lia).
  rewrite (loop2 tgt d (nsMinF p) jMax (fun jF => if (jF =? 0)%Z then 1%Z else mpol) (fun c => negb (isL c))); [|exact H3| |lia].
  2:{ intros jF. destruct (jF =? 0)%Z; lia. }
  rewrite Rplus_assoc. apply f_equal. unfold onc2, l_on2, rz_on.
  destruct (Z.ltb_spec m mpol); [|lia].
  destruct (tgt c b && tor_cos b); cbn [andb]; [|lra]. destruct (isL c); cbn [negb orb andb].
  - rewrite !andb_true_r, !andb_false_r. lra.
  - rewrite !andb_true_r, !andb_false_r. lra.
Qed.

(** both cases *)
Definition FF (d : forces) (tgt : comp -> bk -> bool) (f : coefs) : coefs :=
  if sz_lthreed s then ForcesToFourier3D s t p xmpq ns lfreeb vacuum_on d tgt f else ForcesToFourier2D s t p xmpq ns lfreeb vacuum_on d tgt f.
Definition on_ (c : comp) (j m : Z) : bool := if isL c then l_on2 j m else rz_on j m.
Hypothesis JL : (1 <= jMax)%Z.
Hypothesis JI : (nsMinF p <= jMax)%Z.
Hypothesis JM : (jMax <= nsMaxFIncludingLcfs p)%Z.
Lemma sin_kind_zero d J m c b : tor_cos b = false -> red_avg (fterm d J m 0 c b) = 0.
Proof.
  intros Hb. unfold red_avg. apply zsum_zero. intros k _. apply zsum_zero. intros l _.
  unfold fterm, Phi, Phi_theta, Phi_phi. cbv zeta.
  assert (S0 : forall y, sin (IZR 0 * y) = 0) by (intros; rewrite Rmult_0_l; apply sin_0).
  destruct b; try discriminate; cbn [in_zeta]; rewrite S0, Z.mul_0_l; ring.
Qed.
Lemma FF_at d tgt f c b j m n : (0 <= m < mpol)%Z -> (0 <= n <= ntor)%Z -> (0 <= j)%Z ->
  FF d tgt f c b (at_mn s (j - nsMinF p) m n) =
  f c b (at_mn s (j - nsMinF p) m n) + if tgt c b && on_ c j m then red_avg (fterm d (j - nsMinF p) m n c b) else 0.
Proof.
  intros Hm Hn Hj. unfold FF. case_eq (sz_lthreed s); intros E3.
  - rewrite FF3_at by lia. apply f_equal. replace (onc c j m) with (on_ c j m); [reflexivity|].
    unfold on_, onc. destruct (isL c); [|reflexivity]. unfold l_on2, l_on3.
    destruct (Z.leb_spec (nsMinF p) j); destruct (Z.ltb_spec j jMax); destruct (Z.eqb_spec j 0); destruct (Z.leb_spec 1 j);
    destruct (Z.leb_spec jMax j); destruct (Z.ltb_spec j (nsMaxFIncludingLcfs p)); destruct (Z.leb_spec (Z.max 1 (nsMinF p)) j);
    destruct (Z.ltb_spec m mpol); cbn [andb orb]; rewrite ?andb_false_r, ?andb_true_r; try reflexivity; try lia.
  - assert (N0 := ntor2 s OK E3). assert (n = 0)%Z by lia. subst n.
    replace (at_mn s (j - nsMinF p) m 0) with ((j - nsMinF p) * mpol + m)%Z by (unfold at_mn; rewrite N0; ring).
    rewrite FF2_at by (auto; lia). apply f_equal. change (onc2 c j m) with (on_ c j m).
    destruct (tor_cos b) eqn:ET.
    + rewrite andb_true_r. reflexivity.
    + rewrite andb_false_r. cbn [andb]. rewrite sin_kind_zero by exact ET. destruct (tgt c b && on_ c j m); reflexivity.
Qed.
End Forces.
