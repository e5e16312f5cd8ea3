(** Forces from transforms with a relative error. *)
From Coq Require Import ZArith List Bool Reals Lia Lra FunctionalExtensionality.
From Verif Require Import Base BaseLemmas SumLemmas SizesModel FourierModel FourierSpec FourierProofs TrigSums
  PartModel DftModel DftSpec DftTables DftProofs DftForces FftModel FftSpec FftProofs FluxProofs GeoMag FftCodSpec FftNearSpec FftNearProofs.
Open Scope R_scope.

Lemma for_up_rel2 {S T U} (Q : S -> T -> U -> Prop) (f : Z -> S -> S) (g : Z -> T -> T) (h : Z -> U -> U) lo hi s t u :
  (forall j s t u, (lo <= j < hi)%Z -> Q s t u -> Q (f j s) (g j t) (h j u)) -> Q s t u ->
  Q (for_up lo hi f s) (for_up lo hi g t) (for_up lo hi h u).
Proof.
  intros H H0. destruct (Z_le_gt_dec lo hi) as [L|L]; [|rewrite !for_up_empty by lia; exact H0].
  assert (G : forall n, (Z.of_nat n <= hi - lo)%Z -> Q (for_up lo (lo + Z.of_nat n) f s) (for_up lo (lo + Z.of_nat n) g t) (for_up lo (lo + Z.of_nat n) h u)).
  { induction n as [|n IH]; intros Hn; [rewrite Z.add_0_r, !for_up_empty by lia; exact H0|].
    rewrite Nat2Z.inj_succ in *. unfold Z.succ in *. rewrite Z.add_assoc, !for_up_snoc by lia. apply H; [lia|]. apply IH. lia. }
  specialize (G (Z.to_nat (hi - lo)) ltac:(lia)). replace (lo + Z.of_nat (Z.to_nat (hi - lo)))%Z with hi in G by lia. exact G.
Qed.
Lemma zsum_at' lo hi k f : (forall j, (lo <= j < hi)%Z -> j <> k -> f j = 0) ->
  zsum lo hi f = if (lo <=? k)%Z && (k <? hi)%Z then f k else 0.
Proof.
  intros H. destruct (Z.leb_spec lo k); destruct (Z.ltb_spec k hi); cbn [andb]; [apply zsum_single; [lia|exact H]| | |];
  apply zsum_zero; intros j Hj; apply H; lia.
Qed.

Section F.
Variable s : sizes.
Hypothesis OK : sz_ok s.
Hypothesis N3 : (0 < sz_ntor s)%Z.
Variable b0 : basis_tables.
Variable p : rpart.
Variables (eps : R) (r2c ex : kernel).
Local Notation t := (tab s b0).
Local Notation mpol := (sz_mpol s).
Local Notation ntor := (sz_ntor s).
Local Notation nfp := (sz_nfp s).
Local Notation N := (sz_nZeta s).
Local Notation nTR := (sz_nThetaReduced s).
Hypothesis E0 : 0 <= eps.
Hypothesis NF : (0 <= nfp)%Z.
Hypothesis HC : near eps false N (kBatch * mpol) r2c.
Hypothesis HX : r2c_ok N (kBatch * mpol) ex.
Variable xmpq : Z -> R.
Variables (ns : Z) (lfreeb vacuum_on : bool).

Lemma out_near o1 o2 I M q n : (0 <= M < mpol)%Z -> (0 <= q < 12)%Z -> (0 <= n <= ntor)%Z ->
  let B := eps * zsum 0 N (fun k => Rabs (I (rslot s M q + k)%Z)) in
  Rabs (o_re s (r2c o1 I) M q n - o_re s (ex o2 I) M q n) <= B /\ Rabs (o_im s (r2c o1 I) M q n - o_im s (ex o2 I) M q n) <= B.
Proof.
  intros HM Hq Hn B. set (i := (M * 12 + q)%Z). destruct (ntor_half s OK N3) as [Hh _].
  assert (Hl : half_len N = nhalf s) by (symmetry; apply nhalf_len; exact OK).
  assert (Hi : (0 <= i < kBatch * mpol)%Z) by (unfold i, kBatch; nia).
  assert (HB : B = eps * zsum 0 N (fun b => Rabs (I (N * i + b)%Z))).
  { unfold B. f_equal. apply zsum_ext. intros k Hk. f_equal. f_equal. unfold rslot, kBatch, i. ring. }
  destruct (HX o2 I i n Hi ltac:(lia)) as [X1 X2].
  assert (D1 : ((2 * n) / 2)%Z = n) by (rewrite Z.mul_comm, Z.div_mul by lia; lia).
  assert (D2 : ((2 * n + 1) / 2)%Z = n) by (rewrite Z.mul_comm, Z.div_add_l by lia; change (1 / 2)%Z with 0%Z; lia).
  assert (M1 : ((2 * n) mod 2)%Z = 0%Z) by (rewrite Z.mul_comm, Z.mod_mul by lia; lia).
  assert (M2 : ((2 * n + 1) mod 2)%Z = 1%Z) by (rewrite Z.add_comm, Z.mul_comm, Z.mod_add by lia; reflexivity).
  pose proof (HC o1 I i (2 * n)%Z Hi ltac:(cbn [write_len]; unfold spec_len; lia)) as A1.
  pose proof (HC o1 I i (2 * n + 1)%Z Hi ltac:(cbn [write_len]; unfold spec_len; lia)) as A2.
  cbn [write_len read_len] in A1, A2. unfold exact_out in A1, A2. cbv zeta in A1, A2. rewrite D1, M1 in A1. rewrite D2, M2 in A2. cbn [Z.eqb] in A1, A2.
  assert (ES : forall g : Z -> R, zsum 0 N (fun k => I (N * i + k)%Z * g k) = zsum 0 N (fun k => I (i * N + k)%Z * g k)).
  { intros g. apply zsum_ext. intros. rewrite (Z.mul_comm N). reflexivity. }
  rewrite ES in A1, A2. rewrite HB. unfold o_re, o_im.
  assert (C : (cslot s M q + n)%Z = (i * half_len N + n)%Z) by (rewrite Hl; unfold cslot, kBatch, i; ring). rewrite C, X1, X2.
  replace (2 * (i * half_len N + n))%Z with (spec_len N * i + 2 * n)%Z by (unfold spec_len; ring).
  replace (spec_len N * i + 2 * n + 1)%Z with (spec_len N * i + (2 * n + 1))%Z by ring.
  split; [exact A1|exact A2].
Qed.

(** entries of the integrating tables *)
Lemma tab_i m l : (0 <= m < mpol)%Z -> (0 <= l < nTR)%Z ->
  let W := sqrt 2 / IZR (N * (nTR - 1)) in
  0 <= W /\
  Rabs (bt_cosmui t (m * nTR + l)%Z) <= W /\ Rabs (bt_sinmui t (m * nTR + l)%Z) <= W /\
  Rabs (bt_cosmumi t (m * nTR + l)%Z) <= W * IZR m /\ Rabs (bt_sinmumi t (m * nTR + l)%Z) <= W * IZR m.
Proof.
  intros Hm Hl W. rewrite (t_cosmui s OK), (t_sinmui s OK), (t_cosmumi s OK), (t_sinmumi s OK) by assumption.
  pose proof (so_nZeta s OK). 
  assert (Hn : 0 <= norm_ s).
  { unfold norm_, intNorm. unfold Rdiv. rewrite Rmult_1_l. destruct (Z.eq_dec (N * (nTR - 1)) 0) as [E|E].
    - rewrite E. rewrite Rinv_0. lra.
    - left. apply Rinv_0_lt_compat. apply IZR_lt. nia. }
  assert (HW : W = sqrt 2 * norm_ s) by (unfold W, norm_, intNorm, Rdiv; ring).
  pose proof (s2_le m). set (th := IZR m * ang _ l). pose proof (abs_cos th). pose proof (abs_sin th).
  pose proof (Rabs_pos (cos th)). pose proof (Rabs_pos (sin th)).
  assert (Hm0 : 0 <= IZR m) by (apply IZR_le; lia).
  assert (A : Rabs (cos th * s2 m * norm_ s) <= W).
  { rewrite !Rabs_mult, (Rabs_right (s2 m)), (Rabs_right (norm_ s)) by lra. rewrite HW. apply Rmult_le_compat_r; [lra|]. nra. }
  assert (B : Rabs (sin th * s2 m * norm_ s) <= W).
  { rewrite !Rabs_mult, (Rabs_right (s2 m)), (Rabs_right (norm_ s)) by lra. rewrite HW. apply Rmult_le_compat_r; [lra|]. nra. }
  assert (A' : Rabs (half_end s l (cos th * s2 m * norm_ s)) <= W).
  { unfold half_end. destruct (_ || _); [|exact A]. unfold Rdiv. rewrite Rabs_mult, (Rabs_right (/ 2)) by lra.
    pose proof (Rabs_pos (cos th * s2 m * norm_ s)). lra. }
  assert (W0 : 0 <= W) by (rewrite HW; apply Rmult_le_pos; lra).
  split; [exact W0|]. split; [exact A'|]. split; [exact B|].
  rewrite opp_IZR, !(Rabs_mult (IZR m)), (Rabs_mult (- IZR m)), Rabs_Ropp, !(Rabs_right (IZR m)) by lra.
  rewrite (Rmult_comm W). split; apply Rmult_le_compat_l; assumption.
Qed.

Lemma abs3 a x f b ta tm W wm : 0 <= W -> Rabs ta <= W -> Rabs tm <= W * wm ->
  Rabs ((a + x * f) * ta + b * tm) <= W * (Rabs a + Rabs x * Rabs f + wm * Rabs b).
Proof.
  intros HW Ta Tm. eapply Rle_trans; [apply Rabs_triang|]. rewrite !Rabs_mult.
  pose proof (Rabs_triang a (x * f)) as T. rewrite Rabs_mult in T.
  pose proof (Rabs_pos (a + x * f)). pose proof (Rabs_pos b). pose proof (Rabs_pos ta). pose proof (Rabs_pos tm).
  assert (Rabs (a + x * f) * Rabs ta <= (Rabs a + Rabs x * Rabs f) * W) by (apply Rmult_le_compat; lra).
  assert (Rabs b * Rabs tm <= Rabs b * (W * wm)) by (apply Rmult_le_compat_l; lra). lra.
Qed.
Lemma absC c ta W : 0 <= W -> Rabs ta <= W -> Rabs (- (c * ta)) <= W * Rabs c.
Proof. intros HW Ta. rewrite Rabs_Ropp, Rabs_mult. pose proof (Rabs_pos c). rewrite Rmult_comm. apply Rmult_le_compat_r; assumption. Qed.
Lemma absB b tm W wm : Rabs tm <= W * wm -> Rabs (b * tm) <= W * (wm * Rabs b).
Proof. intros Tm. rewrite Rabs_mult. pose proof (Rabs_pos b). replace (W * (wm * Rabs b)) with (Rabs b * (W * wm)) by ring. apply Rmult_le_compat_l; assumption. Qed.

Lemma sums_size d jF m n c b : (0 <= m < mpol)%Z -> (0 <= n)%Z ->
  zsum 0 N (fun k => Rabs (mk_p s t p xmpq d jF m k c b)) + IZR (n * nfp) * zsum 0 N (fun k => Rabs (mk_n s t p d jF m k c b))
  <= force_size s xmpq d (jF - nsMinF p) m n c.
Proof.
  intros Hm Hn. unfold force_size. cbv zeta. set (W := sqrt 2 / _). rewrite <- zsum_scale, <- zsum_plus, <- zsum_scale. apply zsum_le. intros k Hk.
  unfold mk_p, mk_n, suml. rewrite !acc_sum.
  assert (Hnf : 0 <= IZR (n * nfp)) by (apply IZR_le; nia).
  eapply Rle_trans; [apply Rplus_le_compat; [apply zsum_triangle|apply Rmult_le_compat_l; [exact Hnf|apply zsum_triangle]]|].
  rewrite <- zsum_scale, <- zsum_plus, <- zsum_scale. apply zsum_le. intros l Hl. destruct (tab_i m l Hm Hl) as (W0 & T1 & T2 & T3 & T4). fold W in W0, T1, T2, T3, T4.
  set (i := ((((jF - nsMinF p) * N + k) * sz_nThetaEff s) + l)%Z).
  assert (Pa : Rabs (pol_a b t (m * nTR + l)%Z) <= W) by (destruct b; assumption).
  assert (Pm : Rabs (pol_m b t (m * nTR + l)%Z) <= W * IZR m) by (destruct b; assumption).
  set (ta := pol_a b t (m * nTR + l)%Z) in *. set (tm := pol_m b t (m * nTR + l)%Z) in *.
  assert (GC : forall x, IZR (n * nfp) * Rabs (- (x * ta)) <= W * (IZR (n * nfp) * Rabs x)).
  { intros x. replace (W * (IZR (n * nfp) * Rabs x)) with (IZR (n * nfp) * (W * Rabs x)) by ring. apply Rmult_le_compat_l; [exact Hnf|]. apply absC; assumption. }
  destruct c; cbn [isL c_A c_B c_C c_con].
  - pose proof (abs3 (d F_ar (Z.even m) i) (xmpq m) (d F_frcon (Z.even m) i) (d F_br (Z.even m) i) ta tm W (IZR m) W0 Pa Pm). specialize (GC (d F_cr (Z.even m) i)). lra.
  - pose proof (abs3 (d F_az (Z.even m) i) (xmpq m) (d F_fzcon (Z.even m) i) (d F_bz (Z.even m) i) ta tm W (IZR m) W0 Pa Pm). specialize (GC (d F_cz (Z.even m) i)). lra.
  - pose proof (absB (d F_bl (Z.even m) i) tm W (IZR m) Pm). specialize (GC (d F_cl (Z.even m) i)). lra.
Qed.

Lemma comb a a' x b b' P Q : 0 <= x -> Rabs (a - a') <= P -> Rabs (b - b') <= Q -> Rabs (a + x * b - (a' + x * b')) <= P + x * Q.
Proof.
  intros Hx A B. replace (a + x * b - (a' + x * b')) with ((a - a') + x * (b - b')) by ring. eapply Rle_trans; [apply Rabs_triang|].
  rewrite Rabs_mult, (Rabs_right x) by lra. assert (x * Rabs (b - b') <= x * Q) by (apply Rmult_le_compat_l; assumption). lra.
Qed.
Lemma comb_o a a' x b b' P Q : 0 <= x -> Rabs (a - a') <= P -> Rabs (b - b') <= Q -> Rabs (- a + x * b - (- a' + x * b')) <= P + x * Q.
Proof. intros Hx A B. apply comb; [exact Hx| |exact B]. replace (- a - - a') with (- (a - a')) by ring. rewrite Rabs_Ropp. exact A. Qed.

Lemma force_near o1 o2 d jF mm lo I M c b n : (0 <= lo)%Z -> (lo <= if isL c then 8 else 0)%Z -> (0 <= M < mm)%Z -> (mm <= mpol)%Z -> (0 <= n <= ntor)%Z ->
  sym_kind c b = true ->
  Rabs (fft_force s (r2c o1 (fill_in s t p xmpq d jF mm lo I)) M c b n - fft_force s (ex o2 (fill_in s t p xmpq d jF mm lo I)) M c b n)
  <= eps * force_size s xmpq d (jF - nsMinF p) M n c.
Proof.
  intros Hlo Hl HM Hmm Hn Hs. set (J := fill_in s t p xmpq d jF mm lo I).
  assert (E : forall q, (lo <= q < 12)%Z -> let B := eps * zsum 0 N (fun k => Rabs (sum_l s b0 p xmpq d jF M k q)) in
    Rabs (o_re s (r2c o1 J) M q n - o_re s (ex o2 J) M q n) <= B /\ Rabs (o_im s (r2c o1 J) M q n - o_im s (ex o2 J) M q n) <= B).
  { intros q Hq B. destruct (out_near o1 o2 J M q n ltac:(lia) ltac:(lia) Hn) as [A1 A2].
    assert (EB : B = eps * zsum 0 N (fun k => Rabs (J (rslot s M q + k)%Z))).
    { unfold B. f_equal. apply zsum_ext. intros k Hk. unfold J. rewrite fill_in_at by (try exact OK; lia). reflexivity. }
    rewrite EB. split; assumption. }
  eapply Rle_trans; [|apply Rmult_le_compat_l; [exact E0|apply (sums_size d jF M n c b); lia]].
  rewrite Rmult_plus_distr_l, <- Rmult_assoc, (Rmult_comm eps (IZR (n * nfp))), Rmult_assoc.
  assert (Hx : 0 <= IZR n * IZR nfp) by (rewrite <- mult_IZR; apply IZR_le; nia). rewrite mult_IZR.
  assert (EP : forall q, q = (match c with cR => 0 | cZ => 4 | cL => 8 end + match b with b_cc | b_sc => 0 | _ => 1 end)%Z ->
    zsum 0 N (fun k => Rabs (mk_p s t p xmpq d jF M k c b)) = zsum 0 N (fun k => Rabs (sum_l s b0 p xmpq d jF M k q)) /\
    zsum 0 N (fun k => Rabs (mk_n s t p d jF M k c b)) = zsum 0 N (fun k => Rabs (sum_l s b0 p xmpq d jF M k (q + 2)%Z))).
  { intros q Eq. split; apply zsum_ext; intros k Hk; destruct (sum_l_p s b0 p xmpq d jF M k c b q Hs Eq) as [S1 S2]; [rewrite S1|rewrite S2]; reflexivity. }
  destruct (EP _ eq_refl) as [-> ->]. clear EP. unfold fft_force. cbv zeta.
  destruct c, b; try discriminate; cbn [isL] in Hl; cbn [Z.add Pos.add Pos.succ];
  unfold kRmkcc, kRmkss, kRmkccN, kRmkssN, kZmksc, kZmkcs, kZmkscN, kZmkcsN, kLmksc, kLmkcs, kLmkscN, kLmkcsN.
  all: first [apply comb; [exact Hx|apply E; lia|apply E; lia] | apply comb_o; [exact Hx|apply E; lia|apply E; lia]].
Qed.

(** the loops with a given contribution per (jF, m) *)
Lemma loopv (cond : Z -> comp -> bk -> bool) (v : Z -> Z -> comp -> bk -> Z -> R) lo hi (mm : Z -> Z) (f : coefs) c b j m n :
  (forall jF, mm jF <= mpol)%Z -> (0 <= m < mpol)%Z -> (0 <= n <= ntor)%Z ->
  for_up lo hi (fun jF f => for_up 0 (mm jF) (fun m f => fun c b =>
     if cond jF c b then seg_add (f c b) (((jF - nsMinF p) * mpol + m) * (ntor + 1)) (ntor + 1) (v jF m c b) else f c b) f) f
   c b (at_mn s (j - nsMinF p) m n) = f c b (at_mn s (j - nsMinF p) m n) +
  (if ((lo <=? j) && (j <? hi) && (m <? mm j))%Z && cond j c b then v j m c b n else 0).
Proof.
  intros HM Hm Hn. set (i := at_mn s (j - nsMinF p) m n).
  rewrite (for_up_proj (fun f : coefs => f c b i) _ (fun jF => zsum 0 (mm jF) (fun m' =>
    if cond jF c b then seg_c (((jF - nsMinF p) * mpol + m') * (ntor + 1)) (ntor + 1) (v jF m' c b) i else 0))).
  - apply f_equal. rewrite (zsum_at' _ _ j).
    2:{ intros j' Hj' Hne. apply zsum_zero. intros m' Hm'. destruct (cond j' c b); [|reflexivity].
        unfold i, at_mn. apply seg_c_miss; [lia|lia|]. intros E. specialize (HM j'). apply flat_inj in E; lia. }
    destruct ((lo <=? j)%Z && (j <? hi)%Z); cbn [andb]; [|reflexivity].
    rewrite (zsum_at' _ _ m).
    2:{ intros m' Hm' Hne. destruct (cond j c b); [|reflexivity].
        unfold i, at_mn. apply seg_c_miss; [lia|lia|]. lia. }
    destruct (Z.leb_spec 0 m); [|lia]. cbn [andb]. destruct (m <? mm j)%Z; cbn [andb]; [|reflexivity].
    destruct (cond j c b); [|reflexivity]. unfold i, at_mn. rewrite seg_c_hit by lia. reflexivity.
  - intros jF g _. rewrite (for_up_proj (fun f : coefs => f c b i) _ (fun m' =>
    if cond jF c b then seg_c (((jF - nsMinF p) * mpol + m') * (ntor + 1)) (ntor + 1) (v jF m' c b) i else 0)).
    { reflexivity. }
    intros m' g' _. cbv beta. destruct (cond jF c b); [apply seg_add_at|lra].
Qed.

Definition st3 : Type := (Z -> R) * (Z -> R) * coefs.
Definition close (a b : st3) (D : coefs) : Prop :=
  fst (fst a) = fst (fst b) /\ forall c k i, Rabs (snd a c k i - snd b c k i) <= D c k i.
Lemma seg_close (a b D : Z -> R) base w u v e i : (forall i, Rabs (a i - b i) <= D i) -> (forall l, (0 <= l < w)%Z -> Rabs (u l - v l) <= e l) ->
  Rabs (seg_add a base w u i - seg_add b base w v i) <= seg_add D base w e i.
Proof.
  intros H1 H2. rewrite !seg_add_at. specialize (H1 i). unfold seg_c. destruct (Z.leb_spec base i); destruct (Z.ltb_spec i (base + w)); cbn [andb]; try (rewrite !Rplus_0_r; exact H1).
  specialize (H2 (i - base)%Z ltac:(lia)). replace (a i + u (i - base)%Z - (b i + v (i - base)%Z)) with ((a i - b i) + (u (i - base)%Z - v (i - base)%Z)) by ring.
  eapply Rle_trans; [apply Rabs_triang|]. lra.
Qed.
Definition bnd (d : forces) (jF m : Z) (c : comp) (b : bk) (n : Z) : R := eps * force_size s xmpq d (jF - nsMinF p) m n c.
Lemma seg_rows (c1 : comp -> bk -> bool) base u v e (f g D : coefs) c b i :
  (forall c b i, Rabs (f c b i - g c b i) <= D c b i) -> (forall c b l, c1 c b = true -> (0 <= l < ntor + 1)%Z -> Rabs (u c b l - v c b l) <= e c b l) ->
  Rabs ((if c1 c b then seg_add (f c b) base (ntor + 1) (u c b) else f c b) i - (if c1 c b then seg_add (g c b) base (ntor + 1) (v c b) else g c b) i)
  <= (if c1 c b then seg_add (D c b) base (ntor + 1) (e c b) else D c b) i.
Proof. intros H1 H2. destruct (c1 c b) eqn:E; [apply seg_close; auto|apply H1]. Qed.

Theorem forces_close d I0 O0 c b j m n : (0 <= m < mpol)%Z -> (0 <= n <= ntor)%Z ->
  Rabs (snd (ForcesToFourier3DFft s t p xmpq r2c ns lfreeb vacuum_on d I0 O0) c b (at_mn s (j - nsMinF p) m n)
      - snd (ForcesToFourier3DFft s t p xmpq ex ns lfreeb vacuum_on d I0 O0) c b (at_mn s (j - nsMinF p) m n))
  <= if sym_kind c b && onc s p ns lfreeb vacuum_on c j m then eps * force_size s xmpq d (j - nsMinF p) m n c else 0.
Proof.
  intros Hm Hn. pose proof (so_mpol s OK) as M1. pose proof (so_ntor s OK) as T0.
  unfold ForcesToFourier3DFft. cbv zeta.
  set (jm := if lfreeb && vacuum_on then Z.min (nsMaxF p) ns else Z.min (nsMaxF p) (ns - 1)).
  match goal with |- Rabs (snd (for_up _ _ ?b2 (for_up _ _ ?b1 ?s0)) _ _ _ - snd (for_up _ _ ?c2 (for_up _ _ ?c1 ?f0)) _ _ _) <= _ =>
    set (B2 := b2); set (B1 := b1); set (C2 := c2); set (C1 := c1); set (st0 := s0) end.
  set (co1 := fun (jF : Z) (c : comp) (b : bk) => sym_kind c b && (negb (isL c) || (1 <=? jF)%Z)).
  set (co2 := fun (jF : Z) (c : comp) (b : bk) => sym_kind c b && isL c).
  set (mm1 := fun jF : Z => if (jF =? 0)%Z then 1%Z else mpol).
  set (D1 := fun jF (f : coefs) => for_up 0 (mm1 jF) (fun m f => fun c b =>
     if co1 jF c b then seg_add (f c b) (((jF - nsMinF p) * mpol + m) * (ntor + 1)) (ntor + 1) (bnd d jF m c b) else f c b) f).
  set (D2 := fun jF (f : coefs) => for_up 0 mpol (fun m f => fun c b =>
     if co2 jF c b then seg_add (f c b) (((jF - nsMinF p) * mpol + m) * (ntor + 1)) (ntor + 1) (bnd d jF m c b) else f c b) f).
  set (Z0 := (fun _ _ _ => 0) : coefs).
  assert (C : close (for_up jm (nsMaxFIncludingLcfs p) B2 (for_up (nsMinF p) jm B1 st0))
                    (for_up jm (nsMaxFIncludingLcfs p) C2 (for_up (nsMinF p) jm C1 st0))
                    (for_up jm (nsMaxFIncludingLcfs p) D2 (for_up (nsMinF p) jm D1 Z0))).
  { apply for_up_rel2; [|apply for_up_rel2].
    - intros jF [[X Y] f] [[X' Y'] g] D Hj [HI HF]. cbn [fst snd] in HI, HF. subst X'. unfold B2, C2, D2. split; [reflexivity|]. cbn [snd].
      apply (for_up_rel2 (fun f g D => forall c k i, Rabs (f c k i - g c k i) <= D c k i)); [|exact HF].
      intros m' f' g' D' Hm' IH c' k' i'. unfold co2. apply (seg_rows (fun c b => sym_kind c b && isL c)); [exact IH|].
      intros c1 b1 l Hs Hl. apply andb_true_iff in Hs. destruct Hs as [Hs HL]. apply force_near; try lia; [rewrite HL; lia|exact Hs].
    - intros jF [[X Y] f] [[X' Y'] g] D Hj [HI HF]. cbn [fst snd] in HI, HF. subst X'. unfold B1, C1, D1. split; [reflexivity|]. cbn [snd].
      apply (for_up_rel2 (fun f g D => forall c k i, Rabs (f c k i - g c k i) <= D c k i)); [|exact HF].
      intros m' f' g' D' Hm' IH c' k' i'. unfold co1. apply (seg_rows (fun c b => sym_kind c b && (negb (isL c) || (1 <=? jF)%Z))); [exact IH|].
      intros c1 b1 l Hs Hl. apply andb_true_iff in Hs. destruct Hs as [Hs _].
      unfold mm1 in Hm'. apply force_near; try lia; [destruct (isL c1); lia|destruct (jF =? 0)%Z; lia|exact Hs].
    - unfold st0, Z0, close. cbn [fst snd]. split; [reflexivity|]. intros. rewrite Rminus_0_r, Rabs_R0. lra. }
  destruct C as [_ C]. eapply Rle_trans; [apply C|]. clear C. unfold D1, D2.
  rewrite (loopv co2 (bnd d) jm (nsMaxFIncludingLcfs p) (fun _ => mpol)) by (auto; lia).
  rewrite (loopv co1 (bnd d) (nsMinF p) jm mm1).
  2:{ intros jF. unfold mm1. destruct (jF =? 0)%Z; lia. } 2: lia. 2: lia.
  unfold Z0, co1, co2, mm1, bnd, onc, l_on3, rz_on. unfold f_jMaxRZ. fold jm.
  destruct (Z.ltb_spec m mpol); [|lia].
  destruct (sym_kind c b); cbn [andb]; rewrite ?andb_false_r; [|cbn; lra]. destruct (isL c); cbn [negb orb andb]; rewrite ?andb_true_r, ?andb_false_r.
  - destruct ((jm <=? j)%Z && (j <? nsMaxFIncludingLcfs p)%Z) eqn:E; cbn [orb].
    + rewrite orb_true_r. apply andb_true_iff in E. destruct E as [E _]. apply Z.leb_le in E.
      destruct (Z.ltb_spec j jm); [lia|]. rewrite andb_false_r. cbn [andb]. lra.
    + rewrite orb_false_r. destruct (_ && _); lra.
  - destruct (_ && _); lra.
Qed.
End F.
