(** Geometry from transforms with a relative error. *)
From Coq Require Import ZArith List Bool Reals Lia Lra FunctionalExtensionality.
From Verif Require Import Base BaseLemmas SumLemmas SizesModel FourierModel FourierSpec FourierProofs TrigSums
  PartModel DftModel DftSpec DftTables DftProofs FftModel FftSpec FftProofs FluxProofs GeoMag FftCodSpec FftNearSpec.
Open Scope R_scope.

Lemma zsum_two h f : (0 <= h)%Z -> zsum 0 (2 * h) f = zsum 0 h (fun j => f (2 * j)%Z + f (2 * j + 1)%Z).
Proof.
  intros Hh. replace h with (Z.of_nat (Z.to_nat h)) by lia. induction (Z.to_nat h) as [|n IH]; [reflexivity|].
  rewrite Nat2Z.inj_succ. unfold Z.succ. rewrite (zsum_snoc 0 (Z.of_nat n)) by lia. rewrite <- IH.
  replace (2 * (Z.of_nat n + 1))%Z with (2 * Z.of_nat n + 1 + 1)%Z by lia. rewrite !zsum_snoc by lia. ring.
Qed.
Lemma half_s2 n : 0 <= s2 n * (1 / 2) <= 1.
Proof.
  assert (S : 0 <= sqrt 2 <= 2).
  { split; [apply sqrt_pos|]. rewrite <- (sqrt_square 2) at 2 by lra. apply sqrt_le_1_alt. lra. }
  unfold s2. destruct (n =? 0)%Z; lra.
Qed.
Lemma s2_le m : 0 <= s2 m <= sqrt 2.
Proof.
  assert (S : 1 <= sqrt 2) by (rewrite <- sqrt_1 at 1; apply sqrt_le_1_alt; lra).
  unfold s2. destruct (m =? 0)%Z; lra.
Qed.
Lemma abs_cos x : Rabs (cos x) <= 1. Proof. apply Rabs_le. pose proof (COS_bound x). lra. Qed.
Lemma abs_sin x : Rabs (sin x) <= 1. Proof. apply Rabs_le. pose proof (SIN_bound x). lra. Qed.

Section F.
Variable s : sizes.
Hypothesis OK : sz_ok s.
Hypothesis N3 : (0 < sz_ntor s)%Z.
Variable b0 : basis_tables.
Variable p : rpart.
Variables (eps : R) (c2r : kernel).
Local Notation t := (tab s b0).
Local Notation mpol := (sz_mpol s).
Local Notation ntor := (sz_ntor s).
Local Notation nfp := (sz_nfp s).
Local Notation N := (sz_nZeta s).
Local Notation nTR := (sz_nThetaReduced s).
Hypothesis E0 : 0 <= eps.
Hypothesis NF : (0 <= nfp)%Z.
Hypothesis HC : near eps true N (kBatch * mpol) c2r.

Definition fk_w (k : fk) : R := match k with k_dct | k_dst => 1 | _ => IZR (ntor * nfp) end.
Lemma fk_w_pos k : 0 <= fk_w k.
Proof. destruct k; cbn; try lra; apply IZR_le; nia. Qed.
Lemma fk_abs k sp n : (0 <= n <= ntor)%Z -> Rabs (fk_re s k sp n) + Rabs (fk_im s k sp n) <= fk_w k * Rabs (sp n).
Proof.
  intros Hn. pose proof (half_s2 n) as H. pose proof (Rabs_pos (sp n)) as P.
  assert (Hd : 0 <= IZR (n * nfp) <= IZR (ntor * nfp)) by (split; apply IZR_le; nia).
  assert (Q : Rabs (sp n * nscale n * (1 / 2)) <= Rabs (sp n)).
  { rewrite nscale_s2, Rmult_assoc, Rabs_mult, (Rabs_right (s2 n * _)) by lra. nra. }
  assert (Q2 : Rabs (- sp n * nscale n * (1 / 2)) <= Rabs (sp n)).
  { replace (- sp n * nscale n * (1 / 2)) with (- (sp n * nscale n * (1 / 2))) by ring. rewrite Rabs_Ropp. exact Q. }
  assert (Q3 : Rabs (sp n * IZR (n * nfp) * nscale n * (1 / 2)) <= IZR (ntor * nfp) * Rabs (sp n)).
  { replace (sp n * IZR (n * nfp) * nscale n * (1 / 2)) with (IZR (n * nfp) * (sp n * nscale n * (1 / 2))) by ring.
    rewrite Rabs_mult, (Rabs_right (IZR (n * nfp))) by lra. pose proof (Rabs_pos (sp n * nscale n * (1 / 2))).
    apply Rmult_le_compat; lra. }
  assert (P3 : 0 <= IZR (ntor * nfp) * Rabs (sp n)) by (apply Rmult_le_pos; lra).
  destruct k; unfold fk_re, fk_im, fk_w; destruct (Z.eqb_spec n 0) as [->|]; rewrite ?Rabs_R0; try lra.
  rewrite nscale_s2. change (s2 0) with 1. rewrite Rmult_1_r. lra.
Qed.

Lemma packed_near x jF X Y M q K : (0 <= M < mpol)%Z -> (0 <= q < 12)%Z -> (0 <= K < N)%Z -> m_in jF M = true ->
  Rabs (c2r Y (pack s p x jF X) (rslot s M q + K)%Z - fk_syn s b0 (slot_kind q) (fun n => slot_coef x q (ib s p jF M + n)%Z) K)
  <= eps * (fk_w (slot_kind q) * row_size s (slot_coef x q) (jF - nsMinF1 p) M).
Proof.
  intros HM Hq HK Hin. set (i := (M * 12 + q)%Z).
  assert (Hi : (0 <= i < kBatch * mpol)%Z) by (unfold i, kBatch; nia).
  pose proof (HC Y (pack s p x jF X) i K Hi ltac:(cbn; lia)) as H. cbn [write_len read_len] in H.
  replace (N * i + K)%Z with (rslot s M q + K)%Z in H by (unfold rslot, kBatch, i; ring).
  assert (Hh : half_len N = nhalf s) by (symmetry; apply nhalf_len; exact OK).
  assert (Hp : forall j e, (0 <= e <= 1)%Z -> (0 <= j < half_len N)%Z -> pack s p x jF X (spec_len N * i + (2 * j + e))%Z =
    if (j <=? ntor)%Z then val2 e (fk_re s (slot_kind q) (fun n => slot_coef x q (ib s p jF M + n)%Z) j)
    (fk_im s (slot_kind q) (fun n => slot_coef x q (ib s p jF M + n)%Z) j) else 0).
  { intros j e He Hj. rewrite <- (pack_at s OK N3 p x jF X M q j e He HM Hq ltac:(lia) Hin). f_equal.
    unfold spec_len, cslot, kBatch, i. rewrite Hh. ring. }
  assert (Hp0 : forall j, (0 <= j < half_len N)%Z -> pack s p x jF X (spec_len N * i + (2 * j))%Z =
    if (j <=? ntor)%Z then fk_re s (slot_kind q) (fun n => slot_coef x q (ib s p jF M + n)%Z) j else 0).
  { intros j Hj. replace (2 * j)%Z with (2 * j + 0)%Z by lia. rewrite Hp by lia. reflexivity. }
  assert (Hp1 : forall j, (0 <= j < half_len N)%Z -> pack s p x jF X (spec_len N * i + (2 * j + 1))%Z =
    if (j <=? ntor)%Z then fk_im s (slot_kind q) (fun n => slot_coef x q (ib s p jF M + n)%Z) j else 0).
  { intros j Hj. rewrite Hp by lia. reflexivity. }
  unfold exact_out in H. rewrite (signal_ext s _ _ _ _ K (fun j Hj => conj (Hp0 j Hj) (Hp1 j Hj))) in H.
  rewrite (signal_syn s OK N3 b0) in H by exact HK. eapply Rle_trans; [exact H|]. apply Rmult_le_compat_l; [exact E0|].
  destruct (ntor_half s OK N3) as [Hn _]. pose proof (so_ntor s OK). unfold spec_len at 1. rewrite zsum_two by lia.
  rewrite (zsum_split 0 (ntor + 1) (half_len N)) by lia.
  rewrite (zsum_zero (ntor + 1)).
  2:{ intros j Hj. rewrite Hp0, Hp1 by lia. destruct (Z.leb_spec j ntor); [lia|]. rewrite Rabs_R0. ring. }
  rewrite Rplus_0_r. unfold row_size. rewrite <- zsum_scale. apply zsum_le. intros j Hj. rewrite Hp0, Hp1 by lia.
  destruct (Z.leb_spec j ntor); [|lia]. exact (fk_abs (slot_kind q) (fun n => slot_coef x q (ib s p jF M + n)%Z) j ltac:(lia)).
Qed.

Lemma two_terms a b a' b' t1 t2 e Sa Sb W : Rabs (a - a') <= e * Sa -> Rabs (b - b') <= e * Sb -> 0 <= e * Sa -> 0 <= e * Sb ->
  Rabs t1 <= W -> Rabs t2 <= W -> Rabs (a * t1 + b * t2 - (a' * t1 + b' * t2)) <= W * (e * Sa + e * Sb).
Proof.
  intros A B Pa Pb T1 T2. replace (a * t1 + b * t2 - (a' * t1 + b' * t2)) with ((a - a') * t1 + (b - b') * t2) by ring.
  eapply Rle_trans; [apply Rabs_triang|]. rewrite !Rabs_mult.
  pose proof (Rabs_pos (a - a')). pose proof (Rabs_pos (b - b')). pose proof (Rabs_pos t1). pose proof (Rabs_pos t2).
  assert (Rabs (a - a') * Rabs t1 <= e * Sa * W) by (apply Rmult_le_compat; lra).
  assert (Rabs (b - b') * Rabs t2 <= e * Sb * W) by (apply Rmult_le_compat; lra). lra.
Qed.
Lemma row_pos a j m : 0 <= row_size s a j m.
Proof. apply GeoMag.zsum_nonneg. intros. apply Rabs_pos. Qed.
Lemma tab_b m l : (0 <= m < mpol)%Z -> (0 <= l < nTR)%Z ->
  Rabs (bt_cosmu t (m * nTR + l)%Z) <= sqrt 2 /\ Rabs (bt_sinmu t (m * nTR + l)%Z) <= sqrt 2 /\
  Rabs (bt_cosmum t (m * nTR + l)%Z) <= sqrt 2 * IZR m /\ Rabs (bt_sinmum t (m * nTR + l)%Z) <= sqrt 2 * IZR m.
Proof.
  intros Hm Hl. rewrite (t_cosmu s OK), (t_sinmu s OK), (t_cosmum s OK), (t_sinmum s OK) by assumption.
  pose proof (s2_le m). set (th := IZR m * ang _ l). pose proof (abs_cos th). pose proof (abs_sin th).
  pose proof (Rabs_pos (cos th)). pose proof (Rabs_pos (sin th)).
  assert (0 <= IZR m) by (apply IZR_le; lia). rewrite opp_IZR, !Rabs_mult, Rabs_Ropp, !(Rabs_right (s2 m)), !(Rabs_right (IZR m)) by lra.
  assert (A : Rabs (cos th) * s2 m <= sqrt 2) by nra. assert (B : Rabs (sin th) * s2 m <= sqrt 2) by nra.
  repeat split; try assumption; rewrite (Rmult_comm (sqrt 2)); apply Rmult_le_compat_l; assumption.
Qed.
Lemma fft_v_near x jF X Y M K q l : (0 <= M < mpol)%Z -> (0 <= K < N)%Z -> (0 <= l < nTR)%Z -> m_in jF M = true ->
  Rabs (fft_v s t (c2r Y (pack s p x jF X)) M K q l - sym_v s t p x jF M K q l) <= eps * size_of s x q (jF - nsMinF1 p) M.
Proof.
  intros HM HK Hl Hin. unfold fft_v, sym_v. cbv zeta.
  assert (E : forall i, (0 <= i < 12)%Z -> Rabs (c2r Y (pack s p x jF X) (rslot s M i + K)%Z - fk_syn s b0 (slot_kind i) (fun n => slot_coef x i (ib s p jF M + n)%Z) K)
     <= eps * (fk_w (slot_kind i) * row_size s (slot_coef x i) (jF - nsMinF1 p) M))
    by (intros; apply packed_near; auto; lia).
  unfold kdot, dotn. rewrite !acc_sum. destruct (tab_b M l HM Hl) as (B1 & B2 & B3 & B4).
  assert (PS : forall k a, 0 <= eps * (fk_w k * row_size s a (jF - nsMinF1 p) M)).
  { intros. apply Rmult_le_pos; [exact E0|]. apply Rmult_le_pos; [apply fk_w_pos|apply row_pos]. }
  destruct q.
  - pose proof (two_terms _ _ _ _ _ _ _ _ _ _ (E kRmkcc ltac:(unfold kRmkcc; lia)) (E kRmkss ltac:(unfold kRmkss; lia)) (PS _ _) (PS _ _) B1 B2) as G.
    eapply Rle_trans; [exact G|]. unfold size_of, parts_of, weight. apply Req_le. cbn. ring.
  - pose proof (two_terms _ _ _ _ _ _ _ _ _ _ (E kRmkcc ltac:(unfold kRmkcc; lia)) (E kRmkss ltac:(unfold kRmkss; lia)) (PS _ _) (PS _ _) B4 B3) as G.
    eapply Rle_trans; [exact G|]. unfold size_of, parts_of, weight. apply Req_le. cbn. ring.
  - pose proof (two_terms _ _ _ _ _ _ _ _ _ _ (E kRmkccN ltac:(unfold kRmkccN; lia)) (E kRmkssN ltac:(unfold kRmkssN; lia)) (PS _ _) (PS _ _) B1 B2) as G.
    eapply Rle_trans; [exact G|]. unfold size_of, parts_of, weight. apply Req_le. cbn -[IZR]. ring.
  - pose proof (two_terms _ _ _ _ _ _ _ _ _ _ (E kZmksc ltac:(unfold kZmksc; lia)) (E kZmkcs ltac:(unfold kZmkcs; lia)) (PS _ _) (PS _ _) B2 B1) as G.
    eapply Rle_trans; [exact G|]. unfold size_of, parts_of, weight. apply Req_le. cbn. ring.
  - pose proof (two_terms _ _ _ _ _ _ _ _ _ _ (E kZmksc ltac:(unfold kZmksc; lia)) (E kZmkcs ltac:(unfold kZmkcs; lia)) (PS _ _) (PS _ _) B3 B4) as G.
    eapply Rle_trans; [exact G|]. unfold size_of, parts_of, weight. apply Req_le. cbn. ring.
  - pose proof (two_terms _ _ _ _ _ _ _ _ _ _ (E kZmkscN ltac:(unfold kZmkscN; lia)) (E kZmkcsN ltac:(unfold kZmkcsN; lia)) (PS _ _) (PS _ _) B2 B1) as G.
    eapply Rle_trans; [exact G|]. unfold size_of, parts_of, weight. apply Req_le. cbn -[IZR]. ring.
  - pose proof (two_terms _ _ _ _ _ _ _ _ _ _ (E kLmksc ltac:(unfold kLmksc; lia)) (E kLmkcs ltac:(unfold kLmkcs; lia)) (PS _ _) (PS _ _) B3 B4) as G.
    eapply Rle_trans; [exact G|]. unfold size_of, parts_of, weight. apply Req_le. cbn. ring.
  - pose proof (two_terms _ _ _ _ _ _ _ _ _ _ (E kLmkscN ltac:(unfold kLmkscN; lia)) (E kLmkcsN ltac:(unfold kLmkcsN; lia)) (PS _ _) (PS _ _) B2 B1) as G.
    match goal with |- Rabs (- ?a - - ?b) <= _ => replace (- a - - b) with (- (a - b)) by ring end. rewrite Rabs_Ropp.
    eapply Rle_trans; [exact G|]. unfold size_of, parts_of, weight. apply Req_le. cbn -[IZR]. ring.
Qed.

Variables xmpq sqrtSF : Z -> R.
(** the buffers before surface jF *)
Definition bufs (x : coefs) (X0 Y0 : Z -> R) (jF : Z) : (Z -> R) * (Z -> R) :=
  for_up (nsMinF1 p) jF (fun jF st => let X := pack s p x jF (fst st) in (X, c2r (snd st) X)) (X0, Y0).
Definition v_of (x : coefs) (X0 Y0 : Z -> R) (jF m k : Z) (q : gq) (l : Z) : R :=
  fft_v s t (c2r (snd (bufs x X0 Y0 jF)) (pack s p x jF (fst (bufs x X0 Y0 jF)))) m k q l.
Lemma as_dft x X0 Y0 : snd (FourierToReal3DFft s t p xmpq sqrtSF c2r x X0 Y0) = FourierToReal3D s p xmpq sqrtSF (v_of x X0 Y0).
Proof.
  unfold FourierToReal3DFft, FourierToReal3D. set (Z0 := mkGeom _ _ _).
  match goal with |- snd (for_up _ _ ?b ?s0) = for_up _ _ ?b' _ => set (bd := b); set (bd' := b'); set (st0 := s0) end.
  assert (G : forall hi, (nsMinF1 p <= hi)%Z -> for_up (nsMinF1 p) hi bd st0 = (bufs x X0 Y0 hi, for_up (nsMinF1 p) hi bd' Z0)).
  { intros hi Hhi. replace hi with (nsMinF1 p + Z.of_nat (Z.to_nat (hi - nsMinF1 p)))%Z by lia.
    induction (Z.to_nat (hi - nsMinF1 p)) as [|h IH].
    - rewrite Z.add_0_r. unfold bufs. rewrite !for_up_empty by lia. reflexivity.
    - rewrite Nat2Z.inj_succ. unfold Z.succ. rewrite Z.add_assoc. unfold bufs. rewrite !for_up_snoc by lia. fold (bufs x X0 Y0 (nsMinF1 p + Z.of_nat h)).
      rewrite IH. unfold bd at 1. destruct (bufs x X0 Y0 (nsMinF1 p + Z.of_nat h)) as [X Y] eqn:EB. cbn [fst snd]. f_equal.
      unfold bd'. unfold v_of. rewrite EB. reflexivity. }
  destruct (Z_le_gt_dec (nsMinF1 p) (nsMaxF1 p)); [rewrite G by lia; reflexivity|].
  rewrite !for_up_empty by lia. reflexivity.
Qed.

Lemma m_on_in j m : m_on j m = m_in j m. Proof. reflexivity. Qed.
Theorem geometry_near x X0 Y0 q e j k l : (nsMinF1 p <= j < nsMaxF1 p)%Z -> (0 <= k < N)%Z -> (0 <= l < nTR)%Z ->
  Rabs (g_q (snd (FourierToReal3DFft s t p xmpq sqrtSF c2r x X0 Y0)) q e (at_pt s (j - nsMinF1 p) k l)
        - g_q (FourierToReal3D s p xmpq sqrtSF (sym_v s t p x)) q e (at_pt s (j - nsMinF1 p) k l))
  <= eps * zsum 0 mpol (fun m => if m_on j m && Bool.eqb e (Z.even m) then size_of s x q (j - nsMinF1 p) m else 0).
Proof.
  intros Hj Hk Hl. rewrite as_dft. rewrite !F3_at by assumption. rewrite <- zsum_minus, <- zsum_scale.
  eapply Rle_trans; [apply zsum_triangle|]. apply zsum_le. intros m Hm. rewrite m_on_in. destruct (m_in j m) eqn:Em; cbn [andb].
  - destruct (Bool.eqb e (Z.even m)); [apply fft_v_near; assumption|]. rewrite Rminus_0_r, Rabs_R0. lra.
  - rewrite Rminus_0_r, Rabs_R0. lra.
Qed.
Theorem con_near x X0 Y0 j k l : (nsMinF1 p <= j < nsMaxF1 p)%Z -> (nsMinF p <= j < nsMaxFIncludingLcfs p)%Z -> (0 <= k < N)%Z -> (0 <= l < nTR)%Z ->
  let g := snd (FourierToReal3DFft s t p xmpq sqrtSF c2r x X0 Y0) in let g' := FourierToReal3D s p xmpq sqrtSF (sym_v s t p x) in
  let bound q := eps * zsum 0 mpol (fun m => if m_on j m then Rabs (con_f p xmpq sqrtSF j m) * size_of s x q (j - nsMinF1 p) m else 0) in
  Rabs (g_rCon g (at_pt s (j - nsMinF p) k l) - g_rCon g' (at_pt s (j - nsMinF p) k l)) <= bound G_r1 /\
  Rabs (g_zCon g (at_pt s (j - nsMinF p) k l) - g_zCon g' (at_pt s (j - nsMinF p) k l)) <= bound G_z1.
Proof.
  intros Hj Hjc Hk Hl g g' bound. unfold g, g'. rewrite as_dft.
  assert (F := fun v => F3_con s OK p xmpq sqrtSF v j k l Hj Hjc Hk Hl).
  rewrite (proj1 (F (v_of x X0 Y0))), (proj1 (F (sym_v s t p x))), (proj2 (F (v_of x X0 Y0))), (proj2 (F (sym_v s t p x))).
  unfold bound. rewrite <- !zsum_minus, <- !zsum_scale.
  split; (eapply Rle_trans; [apply zsum_triangle|]; apply zsum_le; intros m Hm; rewrite m_on_in; destruct (m_in j m) eqn:Em;
    [rewrite <- Rmult_minus_distr_r, Rabs_mult, (Rmult_comm (Rabs (con_f _ _ _ _ _))), <- Rmult_assoc; apply Rmult_le_compat_r; [apply Rabs_pos|]; apply fft_v_near; assumption
    |rewrite Rminus_0_r, Rabs_R0; lra]).
Qed.
End F.
