(** The FFT path computes what the DFT path computes. *)
From Coq Require Import ZArith List Bool Reals Lia Lra FunctionalExtensionality.
From Verif Require Import Base BaseLemmas SumLemmas SizesModel FourierModel FourierSpec FourierProofs TrigSums
  PartModel DftModel DftSpec DftTables DftProofs FftModel FftSpec.
Open Scope R_scope.

Definition val2 (e : Z) (re im : R) : R := if (e =? 0)%Z then re else im.
Lemma setc_at X i re im c e : (0 <= e <= 1)%Z ->
  setc X i re im (2 * c + e)%Z = if (c =? i)%Z then val2 e re im else X (2 * c + e)%Z.
Proof.
  intros He. unfold setc, upd, val2. destruct (Z.eqb_spec c i) as [->|N].
  - destruct (Z.eqb_spec e 0) as [->|N0].
    + destruct (Z.eqb_spec (2 * i + 0) (2 * i + 1)); [lia|]. destruct (Z.eqb_spec (2 * i + 0) (2 * i)); [reflexivity|lia].
    + destruct (Z.eqb_spec (2 * i + e) (2 * i + 1)); [reflexivity|lia].
  - destruct (Z.eqb_spec (2 * c + e) (2 * i + 1)); [lia|]. destruct (Z.eqb_spec (2 * c + e) (2 * i)); [lia|reflexivity].
Qed.
Definition inr (lo j hi : Z) : bool := (lo <=? j)%Z && (j <? hi)%Z.
Lemma loop_setc b (fr fi : Z -> R) lo hi X c e : (0 <= e <= 1)%Z -> (lo <= hi)%Z ->
  for_up lo hi (fun n X => setc X (b + n) (fr n) (fi n)) X (2 * c + e)%Z =
  if inr lo (c - b) hi then val2 e (fr (c - b)%Z) (fi (c - b)%Z) else X (2 * c + e)%Z.
Proof.
  intros He Hle. apply (for_up_ind (fun h Y => Y (2 * c + e)%Z = if inr lo (c - b) h then val2 e (fr (c - b)%Z) (fi (c - b)%Z) else X (2 * c + e)%Z)); [exact Hle| |].
  - unfold inr. destruct (Z.leb_spec lo (c - b)); destruct (Z.ltb_spec (c - b) lo); cbn [andb]; try lia; reflexivity.
  - intros j Y Hj IH. rewrite setc_at by exact He. rewrite IH. unfold inr.
    destruct (Z.eqb_spec c (b + j)) as [->|N].
    + replace (b + j - b)%Z with j by lia. destruct (Z.leb_spec lo j); destruct (Z.ltb_spec j (j + 1)); cbn [andb]; try lia; reflexivity.
    + destruct (Z.leb_spec lo (c - b)); destruct (Z.ltb_spec (c - b) (j + 1)); destruct (Z.ltb_spec (c - b) j); cbn [andb]; try lia; reflexivity.
Qed.

Section F.
Variable s : sizes.
Hypothesis OK : sz_ok s.
Hypothesis N3 : (0 < sz_ntor s)%Z.
Variable b0 : basis_tables.
Variable p : rpart.
Local Notation t := (tab s b0).
Local Notation mpol := (sz_mpol s).
Local Notation ntor := (sz_ntor s).
Local Notation nfp := (sz_nfp s).
Local Notation N := (sz_nZeta s).
Local Notation nTR := (sz_nThetaReduced s).

Lemma nhalf_len : nhalf s = half_len N.
Proof. unfold nhalf, half_len. pose proof (so_nZeta s OK). rewrite Z.quot_div_nonneg by lia. reflexivity. Qed.
Lemma ntor_half : (ntor + 1 <= nhalf s)%Z /\ (forall n, (0 <= n <= ntor)%Z -> 2 * n < N)%Z.
Proof.
  pose proof (so_tor s OK N3). split; [|intros; lia]. rewrite nhalf_len. unfold half_len.
  assert (ntor <= N / 2)%Z by (apply Z.div_le_lower_bound; lia). lia.
Qed.

(** the four kinds of half-spectra *)
Inductive fk := k_dct | k_dst | k_dctd | k_dstd.
Definition fk_re (k : fk) (sp : Z -> R) (n : Z) : R :=
  match k with
  | k_dct => if (n =? 0)%Z then sp 0%Z * nscale 0 else sp n * nscale n * (1 / 2)
  | k_dstd => if (n =? 0)%Z then 0 else sp n * IZR (n * nfp) * nscale n * (1 / 2)
  | _ => 0 end.
Definition fk_im (k : fk) (sp : Z -> R) (n : Z) : R :=
  match k with
  | k_dst => if (n =? 0)%Z then 0 else - sp n * nscale n * (1 / 2)
  | k_dctd => if (n =? 0)%Z then 0 else sp n * IZR (n * nfp) * nscale n * (1 / 2)
  | _ => 0 end.
Definition fk_fill (k : fk) : (Z -> R) -> Z -> Z -> (Z -> R) -> Z -> R :=
  match k with k_dct => FillDct s | k_dst => FillDst s | k_dctd => FillDctDeriv s | k_dstd => FillDstDeriv s end.
Lemma fill_at k sp ib b X c e : (0 <= e <= 1)%Z ->
  fk_fill k sp ib b X (2 * c + e)%Z = if inr 0 (c - b) (nhalf s) then
    (if (c - b <=? ntor)%Z then val2 e (fk_re k (fun n => sp (ib + n)%Z) (c - b)) (fk_im k (fun n => sp (ib + n)%Z) (c - b)) else 0)
    else X (2 * c + e)%Z.
Proof.
  intros He. destruct ntor_half as [Hh _]. pose proof (so_ntor s OK).
  destruct k; unfold fk_fill, FillDct, FillDst, FillDctDeriv, FillDstDeriv; cbv zeta.
  all: rewrite (loop_setc b (fun _ => 0) (fun _ => 0)) by lia.
  1: rewrite (loop_setc b (fun n => sp (ib + n)%Z * nscale n * (1 / 2)) (fun _ => 0)) by lia.
  2: rewrite (loop_setc b (fun _ => 0) (fun n => - sp (ib + n)%Z * nscale n * (1 / 2))) by lia.
  3: rewrite (loop_setc b (fun _ => 0) (fun n => sp (ib + n)%Z * IZR (n * nfp) * nscale n * (1 / 2))) by lia.
  4: rewrite (loop_setc b (fun n => sp (ib + n)%Z * IZR (n * nfp) * nscale n * (1 / 2)) (fun _ => 0)) by lia.
  all: rewrite setc_at by lia; unfold inr, fk_re, fk_im, val2; cbv beta.
  all: destruct (Z.eqb_spec c b) as [->|Hcb]; [replace (b - b)%Z with 0%Z by lia; rewrite ?Z.add_0_r|];
    [destruct (Z.leb_spec (ntor + 1) 0); [lia|]; destruct (Z.leb_spec 1 0); [lia|]; destruct (Z.leb_spec 0 0); [|lia];
     destruct (Z.ltb_spec 0 (nhalf s)); [|lia]; destruct (Z.leb_spec 0 ntor); [|lia]; cbn [andb]; rewrite Z.eqb_refl; reflexivity|].
  all: destruct (Z.eqb_spec (c - b) 0); [lia|].
  all: destruct (Z.leb_spec (ntor + 1) (c - b)); destruct (Z.leb_spec 1 (c - b)); destruct (Z.leb_spec 0 (c - b));
    destruct (Z.ltb_spec (c - b) (ntor + 1)); destruct (Z.ltb_spec (c - b) (nhalf s)); destruct (Z.leb_spec (c - b) ntor); cbn [andb]; try lia; try reflexivity.
  all: destruct (e =? 0)%Z; reflexivity.
Qed.

(** contents of slot q *)
Definition slot_kind (q : Z) : fk :=
  if (q mod 4 =? 0)%Z then k_dct else if (q mod 4 =? 1)%Z then k_dst else if (q mod 4 =? 2)%Z then k_dctd else k_dstd.
Definition slot_coef (x : coefs) (q : Z) : Z -> R :=
  if (q =? 0)%Z || (q =? 2)%Z then x cR b_cc else if (q =? 1)%Z || (q =? 3)%Z then x cR b_ss else
  if (q =? 4)%Z || (q =? 6)%Z then x cZ b_sc else if (q =? 5)%Z || (q =? 7)%Z then x cZ b_cs else
  if (q =? 8)%Z || (q =? 10)%Z then x cL b_sc else x cL b_cs.

Lemma cslot_inr m q m' q' n : (0 <= q < 12)%Z -> (0 <= q' < 12)%Z -> (0 <= n < nhalf s)%Z ->
  inr 0 (cslot s m q + n - cslot s m' q') (nhalf s) = (m =? m')%Z && (q =? q')%Z.
Proof.
  intros Hq Hq' Hn. unfold inr, cslot, kBatch.
  destruct (Z.eqb_spec m m') as [->|Nm]; cbn [andb].
  - destruct (Z.eqb_spec q q') as [->|Nq].
    + destruct (Z.leb_spec 0 ((m' * 12 + q') * nhalf s + n - (m' * 12 + q') * nhalf s)); destruct (Z.ltb_spec ((m' * 12 + q') * nhalf s + n - (m' * 12 + q') * nhalf s) (nhalf s)); cbn [andb]; try lia; reflexivity.
    + destruct (Z.leb_spec 0 ((m' * 12 + q) * nhalf s + n - (m' * 12 + q') * nhalf s)); destruct (Z.ltb_spec ((m' * 12 + q) * nhalf s + n - (m' * 12 + q') * nhalf s) (nhalf s)); cbn [andb]; try reflexivity.
      exfalso. apply Nq. assert (E : ((m' * 12 + q) = (m' * 12 + q'))%Z).
      { apply (flat_inj (nhalf s) (m' * 12 + q) n (m' * 12 + q') ((m' * 12 + q) * nhalf s + n - (m' * 12 + q') * nhalf s)); lia. } lia.
  - destruct (Z.leb_spec 0 ((m * 12 + q) * nhalf s + n - (m' * 12 + q') * nhalf s)); destruct (Z.ltb_spec ((m * 12 + q) * nhalf s + n - (m' * 12 + q') * nhalf s) (nhalf s)); cbn [andb]; try reflexivity.
      exfalso. apply Nm. assert (E : ((m * 12 + q) = (m' * 12 + q'))%Z).
      { apply (flat_inj (nhalf s) (m * 12 + q) n (m' * 12 + q') ((m * 12 + q) * nhalf s + n - (m' * 12 + q') * nhalf s)); lia. } lia.
Qed.

Definition m_in (jF m : Z) : bool := negb (jF <? (if (m =? 0) || (m =? 1) then 0 else 1))%Z.
Definition ib (jF m : Z) : Z := (((jF - nsMinF1 p) * mpol + m) * (ntor + 1))%Z.
Lemma zero_frame m X M q n e : (0 <= e <= 1)%Z -> (0 <= q < 12)%Z -> (0 <= n < nhalf s)%Z -> m <> M ->
  for_up 0 kBatch (fun q X => for_up 0 (nhalf s) (fun n X => setc X (cslot s m q + n) 0 0) X) X (2 * (cslot s M q + n) + e)%Z = X (2 * (cslot s M q + n) + e)%Z.
Proof.
  intros He Hq Hn Hm. apply (for_up_ind (fun _ Y => Y (2 * (cslot s M q + n) + e)%Z = X (2 * (cslot s M q + n) + e)%Z)); [unfold kBatch; lia|reflexivity|].
  intros j Y Hj IH. rewrite (loop_setc (cslot s m j) (fun _ => 0) (fun _ => 0)) by lia. unfold kBatch in Hj.
  rewrite cslot_inr by lia. destruct (Z.eqb_spec M m); [congruence|]. exact IH.
Qed.
Lemma pack_at x jF X M q n e : (0 <= e <= 1)%Z -> (0 <= M < mpol)%Z -> (0 <= q < 12)%Z -> (0 <= n < nhalf s)%Z -> m_in jF M = true ->
  pack s p x jF X (2 * (cslot s M q + n) + e)%Z =
  if (n <=? ntor)%Z then val2 e (fk_re (slot_kind q) (fun n => slot_coef x q (ib jF M + n)%Z) n)
    (fk_im (slot_kind q) (fun n => slot_coef x q (ib jF M + n)%Z) n) else 0.
Proof.
  intros He HM Hq Hn Hin. set (V := if (n <=? ntor)%Z then _ else 0). unfold pack.
  assert (G : forall h, (0 <= h <= mpol)%Z -> (M < h)%Z ->
    for_up 0 h (fun m X =>
    let jMin := if (m =? 0)%Z || (m =? 1)%Z then 0%Z else 1%Z in
    if (jF <? jMin)%Z then
      for_up 0 kBatch (fun q X => for_up 0 (nhalf s) (fun n X => setc X (cslot s m q + n) 0%R 0%R) X) X
    else
      let ib := (((jF - nsMinF1 p) * mpol + m) * (ntor + 1))%Z in
      let X := FillDct s (x cR b_cc) ib (cslot s m kRmkcc) X in
      let X := FillDst s (x cR b_ss) ib (cslot s m kRmkss) X in
      let X := FillDctDeriv s (x cR b_cc) ib (cslot s m kRmkccN) X in
      let X := FillDstDeriv s (x cR b_ss) ib (cslot s m kRmkssN) X in
      let X := FillDct s (x cZ b_sc) ib (cslot s m kZmksc) X in
      let X := FillDst s (x cZ b_cs) ib (cslot s m kZmkcs) X in
      let X := FillDctDeriv s (x cZ b_sc) ib (cslot s m kZmkscN) X in
      let X := FillDstDeriv s (x cZ b_cs) ib (cslot s m kZmkcsN) X in
      let X := FillDct s (x cL b_sc) ib (cslot s m kLmksc) X in
      let X := FillDst s (x cL b_cs) ib (cslot s m kLmkcs) X in
      let X := FillDctDeriv s (x cL b_sc) ib (cslot s m kLmkscN) X in
      FillDstDeriv s (x cL b_cs) ib (cslot s m kLmkcsN) X) X (2 * (cslot s M q + n) + e)%Z = V).
  2:{ apply G; lia. }
  intros h Hh Hlt. match goal with |- for_up 0 h ?bd X _ = _ => set (body := bd) end.
  assert (Hb : forall m Y, body m Y (2 * (cslot s M q + n) + e)%Z = if (m =? M)%Z then V else Y (2 * (cslot s M q + n) + e)%Z).
  { intros m Y. unfold body. cbv zeta.
    destruct (Z.eqb_spec m M) as [->|Nm].
    - unfold m_in in Hin. apply negb_true_iff in Hin. rewrite Hin.
      change (FillDct s) with (fk_fill k_dct). change (FillDst s) with (fk_fill k_dst).
      change (FillDctDeriv s) with (fk_fill k_dctd). change (FillDstDeriv s) with (fk_fill k_dstd).
      rewrite !fill_at by exact He.
      unfold kRmkcc, kRmkss, kRmkccN, kRmkssN, kZmksc, kZmkcs, kZmkscN, kZmkcsN, kLmksc, kLmkcs, kLmkscN, kLmkcsN.
      rewrite !cslot_inr by lia. rewrite !Z.eqb_refl. cbn [andb].
      unfold V, slot_kind, slot_coef, ib.
      assert (C : (q = 0 \/ q = 1 \/ q = 2 \/ q = 3 \/ q = 4 \/ q = 5 \/ q = 6 \/ q = 7 \/ q = 8 \/ q = 9 \/ q = 10 \/ q = 11)%Z) by lia.
      decompose [or] C; subst q; cbn [Z.eqb Pos.eqb orb]; change (0 mod 4)%Z with 0%Z; change (1 mod 4)%Z with 1%Z; change (2 mod 4)%Z with 2%Z; change (3 mod 4)%Z with 3%Z;
      change (4 mod 4)%Z with 0%Z; change (5 mod 4)%Z with 1%Z; change (6 mod 4)%Z with 2%Z; change (7 mod 4)%Z with 3%Z;
      change (8 mod 4)%Z with 0%Z; change (9 mod 4)%Z with 1%Z; change (10 mod 4)%Z with 2%Z; change (11 mod 4)%Z with 3%Z; cbn [Z.eqb Pos.eqb];
      match goal with |- context [(cslot s M ?a + n - cslot s M ?a)%Z] => replace (cslot s M a + n - cslot s M a)%Z with n by lia end; reflexivity.
    - destruct (jF <? _)%Z; [apply zero_frame; auto|].
      change (FillDct s) with (fk_fill k_dct). change (FillDst s) with (fk_fill k_dst).
      change (FillDctDeriv s) with (fk_fill k_dctd). change (FillDstDeriv s) with (fk_fill k_dstd).
      rewrite !fill_at by exact He.
      unfold kRmkcc, kRmkss, kRmkccN, kRmkssN, kZmksc, kZmkcs, kZmkscN, kZmkcsN, kLmksc, kLmkcs, kLmkscN, kLmkcsN.
      rewrite !cslot_inr by lia. destruct (Z.eqb_spec M m); [congruence|]. reflexivity. }
  assert (G : if (M <? h)%Z then for_up 0 h body X (2 * (cslot s M q + n) + e)%Z = V else True).
  { apply (for_up_ind (fun h Y => if (M <? h)%Z then Y (2 * (cslot s M q + n) + e)%Z = V else True)); [lia| |].
    - destruct (Z.ltb_spec M 0); [lia|trivial].
    - intros j Y Hj IH. destruct (Z.ltb_spec M (j + 1)); [|trivial]. rewrite Hb.
      destruct (Z.eqb_spec j M); [reflexivity|]. destruct (Z.ltb_spec M j); [exact IH|lia]. }
  destruct (Z.ltb_spec M h); [exact G|lia].
Qed.

Variables (c2r r2c : kernel).
Hypothesis HC : c2r_ok N (kBatch * mpol) c2r.
Hypothesis HR : r2c_ok N (kBatch * mpol) r2c.

(** synthesis of each kind *)
Definition fk_syn (k : fk) (sp : Z -> R) (K : Z) : R :=
  zsum 0 (ntor + 1) (fun n => sp n * match k with
    | k_dct => bt_cosnv t (K * (sz_nnyq2 s + 1) + n)%Z | k_dst => bt_sinnv t (K * (sz_nnyq2 s + 1) + n)%Z
    | k_dctd => bt_sinnvn t (K * (sz_nnyq2 s + 1) + n)%Z | k_dstd => bt_cosnvn t (K * (sz_nnyq2 s + 1) + n)%Z end).
Lemma turn_ang n K : turn N n K = IZR n * ang N K.
Proof. unfold turn, ang. unfold Rdiv. ring. Qed.
Lemma signal_syn k sp K : (0 <= K < N)%Z ->
  signal N (fun n => if (n <=? ntor)%Z then fk_re k sp n else 0) (fun n => if (n <=? ntor)%Z then fk_im k sp n else 0) K = fk_syn k sp K.
Proof.
  intros HK. destruct ntor_half as [Hh H2]. rewrite nhalf_len in Hh. pose proof (so_ntor s OK). unfold signal, fk_syn.
  rewrite (zsum_split 0 (ntor + 1) (half_len N)) by lia.
  rewrite (zsum_zero (ntor + 1)).
  2:{ intros j Hj. destruct (Z.leb_spec j ntor); [lia|]. destruct (alone N j); ring. }
  rewrite Rplus_0_r. apply zsum_ext. intros n Hn. destruct (Z.leb_spec n ntor); [|lia].
  specialize (H2 n ltac:(lia)). unfold alone. destruct (Z.eqb_spec (2 * n) N); [lia|]. rewrite orb_false_r. rewrite turn_ang.
  destruct (Z.eqb_spec n 0) as [->|Hn0].
  - rewrite Rmult_0_l, cos_0.
    destruct k; unfold fk_re; rewrite ?(t_cosnv s OK b0), ?(t_sinnv s OK b0), ?(t_sinnvn s OK b0), ?(t_cosnvn s OK b0) by lia;
    rewrite ?Rmult_0_l, ?cos_0, ?sin_0; rewrite ?Z.eqb_refl; change (- 0 * nfp)%Z with 0%Z; change (0 * nfp)%Z with 0%Z; rewrite ?nscale_s2; ring.
  - destruct k; unfold fk_re, fk_im; destruct (Z.eqb_spec n 0); try lia; rewrite ?(t_cosnv s OK b0), ?(t_sinnv s OK b0), ?(t_sinnvn s OK b0), ?(t_cosnvn s OK b0) by lia;
    rewrite ?nscale_s2, ?mult_IZR, ?opp_IZR; field.
Qed.
Lemma signal_ext re im re' im' K : (forall j, (0 <= j < half_len N)%Z -> re j = re' j /\ im j = im' j) -> signal N re im K = signal N re' im' K.
Proof. intros H. unfold signal. apply zsum_ext. intros j Hj. destruct (H j Hj) as [-> ->]. reflexivity. Qed.
Lemma packed_signal x jF X Y M q K : (0 <= M < mpol)%Z -> (0 <= q < 12)%Z -> (0 <= K < N)%Z -> m_in jF M = true ->
  c2r Y (pack s p x jF X) (rslot s M q + K)%Z = fk_syn (slot_kind q) (fun n => slot_coef x q (ib jF M + n)%Z) K.
Proof.
  intros HM Hq HK Hin. unfold rslot. rewrite HC by (unfold kBatch; nia).
  rewrite <- signal_syn by exact HK. apply signal_ext. intros j Hj. rewrite <- nhalf_len in *.
  change ((M * kBatch + q) * nhalf s)%Z with (cslot s M q).
  split.
  - assert (P := pack_at x jF X M q j 0%Z ltac:(lia) HM Hq Hj Hin). rewrite Z.add_0_r in P. rewrite P. unfold val2. reflexivity.
  - rewrite pack_at by (auto; lia). unfold val2. reflexivity.
Qed.

Variables xmpq sqrtSF : Z -> R.
Lemma fft_v_eq x jF X Y M K q l : (0 <= M < mpol)%Z -> (0 <= K < N)%Z -> m_in jF M = true ->
  fft_v s t (c2r Y (pack s p x jF X)) M K q l = sym_v s t p x jF M K q l.
Proof.
  intros HM HK Hin. unfold fft_v, sym_v. cbv zeta.
  assert (E : forall i, (0 <= i < 12)%Z -> c2r Y (pack s p x jF X) (rslot s M i + K)%Z = fk_syn (slot_kind i) (fun n => slot_coef x i (ib jF M + n)%Z) K)
    by (intros; apply packed_signal; auto; lia).
  unfold kdot, dotn. rewrite !acc_sum. 
  destruct q; rewrite !E by (unfold kRmkcc, kRmkss, kRmkccN, kRmkssN, kZmksc, kZmkcs, kZmkscN, kZmkcsN, kLmksc, kLmkcs, kLmkscN, kLmkcsN; lia); reflexivity.
Qed.

Lemma acc_eq x jF X Y g : fft_accumulate s t p xmpq sqrtSF (c2r Y (pack s p x jF X)) jF g =
  for_up 0 mpol (fun m g =>
      let jMin := if (m =? 0)%Z || (m =? 1)%Z then 0%Z else 1%Z in
      if (jF <? jMin)%Z then g else
      let con_factor := if Z.even m then xmpq m else (xmpq m * sqrtSF (jF - nsMinF1 p)%Z)%R in
      for_up 0 N (fun k g =>
        let base := (((jF - nsMinF1 p) * N + k) * sz_nThetaEff s)%Z in
        let gq' := fun q e => if Bool.eqb e (Z.even m)
                              then seg_add (g_q g q e) base nTR (sym_v s t p x jF m k q) else g_q g q e in
        if (nsMinF p <=? jF)%Z && (jF <? nsMaxFIncludingLcfs p)%Z then
          let bcon := (((jF - nsMinF p) * N + k) * sz_nThetaEff s)%Z in
          mkGeom gq'
            (seg_add (g_rCon g) bcon nTR (fun l => (sym_v s t p x jF m k G_r1 l * con_factor)%R))
            (seg_add (g_zCon g) bcon nTR (fun l => (sym_v s t p x jF m k G_z1 l * con_factor)%R))
        else mkGeom gq' (g_rCon g) (g_zCon g)) g) g.
Proof.
  unfold fft_accumulate. apply for_up_ext. intros m g' Hm. cbv zeta.
  destruct (jF <? _)%Z eqn:E; [reflexivity|].
  apply for_up_ext. intros k g2 Hk.
  assert (V : fft_v s t (c2r Y (pack s p x jF X)) m k = sym_v s t p x jF m k).
  { extensionality q. extensionality l. apply fft_v_eq; auto. unfold m_in. rewrite E. reflexivity. }
  rewrite V. reflexivity.
Qed.

Theorem forward_eq x X0 Y0 : snd (FourierToReal3DFft s t p xmpq sqrtSF c2r x X0 Y0) = FourierToReal3D s p xmpq sqrtSF (sym_v s t p x).
Proof.
  unfold FourierToReal3DFft, FourierToReal3D. set (Z0 := mkGeom _ _ _).
  match goal with |- snd (for_up _ _ ?b ?s0) = for_up _ _ ?b' _ => set (bd := b); set (bd' := b'); set (st0 := s0) end.
  assert (G : forall hi, (nsMinF1 p <= hi)%Z -> snd (for_up (nsMinF1 p) hi bd st0) = for_up (nsMinF1 p) hi bd' Z0).
  { intros hi Hhi. replace hi with (nsMinF1 p + Z.of_nat (Z.to_nat (hi - nsMinF1 p)))%Z by lia.
    induction (Z.to_nat (hi - nsMinF1 p)) as [|h IH].
    - rewrite Z.add_0_r. rewrite !for_up_empty by lia. reflexivity.
    - rewrite Nat2Z.inj_succ. unfold Z.succ. rewrite Z.add_assoc. rewrite !for_up_snoc by lia.
      rewrite <- IH. destruct (for_up (nsMinF1 p) _ bd st0) as [[X Y] g]. unfold bd at 1. cbn [snd].
      rewrite acc_eq. reflexivity. }
  destruct (Z_le_gt_dec (nsMinF1 p) (nsMaxF1 p)); [apply G; lia|].
  rewrite !for_up_empty by lia. reflexivity.
Qed.

(** ** Forces *)
Variables (ns : Z) (lfreeb vacuum_on : bool).
Lemma rslot_eqb m q k m' q' k' : (0 <= q < 12)%Z -> (0 <= q' < 12)%Z -> (0 <= k < N)%Z -> (0 <= k' < N)%Z ->
  ((rslot s m q + k) =? (rslot s m' q' + k'))%Z = (m =? m')%Z && (q =? q')%Z && (k =? k')%Z.
Proof.
  intros Hq Hq' Hk Hk'. unfold rslot, kBatch. destruct (Z.eqb_spec ((m * 12 + q) * N + k) ((m' * 12 + q') * N + k')) as [E|E].
  - apply flat_inj in E; [|lia|lia]. destruct E as [E1 ->]. apply flat_inj in E1; [|lia|lia]. destruct E1 as [-> ->]. rewrite !Z.eqb_refl. reflexivity.
  - destruct (Z.eqb_spec m m') as [->|]; [|reflexivity]. destruct (Z.eqb_spec q q') as [->|]; [|reflexivity]. destruct (Z.eqb_spec k k') as [->|]; [congruence|reflexivity].
Qed.
Definition sum_l (d : forces) (jF m k q : Z) : R := zsum 0 nTR (fft_term s t p xmpq d jF m k q).
Lemma fill_in_at d jF mm lo I M q K : (0 <= lo)%Z -> (lo <= q < 12)%Z -> (0 <= M < mm)%Z -> (0 <= K < N)%Z ->
  fill_in s t p xmpq d jF mm lo I (rslot s M q + K)%Z = sum_l d jF M K q.
Proof.
  intros Hlo Hq HM HK. unfold fill_in. set (i := (rslot s M q + K)%Z).
  assert (B : forall m k J, (0 <= k < N)%Z -> for_up lo kBatch (fun q I => upd I (rslot s m q + k) (for_up 0 nTR (fun l acc => acc + fft_term s t p xmpq d jF m k q l) 0)) J i
     = if (M =? m)%Z && (K =? k)%Z then sum_l d jF M K q else J i).
  { intros m k J Hk. assert (G : for_up lo kBatch (fun q I => upd I (rslot s m q + k) (for_up 0 nTR (fun l acc => acc + fft_term s t p xmpq d jF m k q l) 0)) J i
       = if (q <? kBatch)%Z && ((M =? m)%Z && (K =? k)%Z) then sum_l d jF M K q else J i).
    { apply (for_up_ind (fun h Y => Y i = if (q <? h)%Z && ((M =? m)%Z && (K =? k)%Z) then sum_l d jF M K q else J i)); [unfold kBatch; lia| |].
      - destruct (Z.ltb_spec q lo); [lia|reflexivity].
      - intros j Y Hj IH. unfold kBatch in Hj. unfold upd, i. rewrite rslot_eqb by lia. fold i. rewrite IH.
        destruct (Z.eqb_spec M m) as [<-|]; cbn [andb].
        2:{ rewrite !andb_false_r. reflexivity. }
        destruct (Z.eqb_spec K k) as [<-|]; rewrite ?andb_true_r, ?andb_false_r; [|reflexivity].
        destruct (Z.eqb_spec q j) as [<-|].
        + destruct (Z.ltb_spec q (q + 1)); [|lia]. unfold sum_l. apply acc_sum.
        + destruct (Z.ltb_spec q (j + 1)); destruct (Z.ltb_spec q j); try lia; reflexivity. }
    rewrite G. destruct (Z.ltb_spec q kBatch); [reflexivity|unfold kBatch in *; lia]. }
  assert (B2 : forall m J, for_up 0 N (fun k I => for_up lo kBatch (fun q I => upd I (rslot s m q + k) (for_up 0 nTR (fun l acc => acc + fft_term s t p xmpq d jF m k q l) 0)) I) J i
     = if (M =? m)%Z then sum_l d jF M K q else J i).
  { intros m J. assert (G : for_up 0 N (fun k I => for_up lo kBatch (fun q I => upd I (rslot s m q + k) (for_up 0 nTR (fun l acc => acc + fft_term s t p xmpq d jF m k q l) 0)) I) J i
       = if (K <? N)%Z && (M =? m)%Z then sum_l d jF M K q else J i).
    { apply (for_up_ind (fun h Y => Y i = if (K <? h)%Z && (M =? m)%Z then sum_l d jF M K q else J i)); [lia| |].
      - destruct (Z.ltb_spec K 0); [lia|reflexivity].
      - intros j Y Hj IH. rewrite B by exact Hj. rewrite IH. destruct (M =? m)%Z; cbn [andb]; rewrite ?andb_false_r, ?andb_true_r; [|reflexivity].
        destruct (Z.eqb_spec K j); destruct (Z.ltb_spec K j); destruct (Z.ltb_spec K (j + 1)); try lia; reflexivity. }
    rewrite G. destruct (Z.ltb_spec K N); [reflexivity|lia]. }
  assert (G : for_up 0 mm (fun m I => for_up 0 N (fun k I => for_up lo kBatch (fun q I => upd I (rslot s m q + k) (for_up 0 nTR (fun l acc => acc + fft_term s t p xmpq d jF m k q l) 0)) I) I) I i
     = if (M <? mm)%Z then sum_l d jF M K q else I i).
  { apply (for_up_ind (fun h Y => Y i = if (M <? h)%Z then sum_l d jF M K q else I i)); [lia| |].
    - destruct (Z.ltb_spec M 0); [lia|reflexivity].
    - intros j Y Hj IH. rewrite B2, IH. destruct (Z.eqb_spec M j); destruct (Z.ltb_spec M j); destruct (Z.ltb_spec M (j + 1)); try lia; reflexivity. }
  rewrite G. destruct (Z.ltb_spec M mm); [reflexivity|lia].
Qed.

Lemma out_at out d jF mm lo I M q n : (0 <= lo)%Z -> (lo <= q < 12)%Z -> (0 <= M < mm)%Z -> (mm <= mpol)%Z -> (0 <= n <= ntor)%Z ->
  let Out := r2c out (fill_in s t p xmpq d jF mm lo I) in
  o_re s Out M q n = zsum 0 N (fun k => sum_l d jF M k q * (s2 n * cos (IZR n * ang N k))) /\
  o_im s Out M q n = - zsum 0 N (fun k => sum_l d jF M k q * (s2 n * sin (IZR n * ang N k))).
Proof.
  intros Hlo Hq HM Hmm Hn Out. destruct ntor_half as [Hh _]. unfold o_re, o_im, Out, cslot. rewrite nhalf_len in *.
  destruct (HR out (fill_in s t p xmpq d jF mm lo I) (M * kBatch + q)%Z n) as [A B]; [unfold kBatch; nia|lia|].
  rewrite A, B. fold (s2 n). rewrite <- !zsum_scale. split; [|apply f_equal]; apply zsum_ext; intros k Hk;
  change ((M * kBatch + q) * N)%Z with (rslot s M q); rewrite fill_in_at by lia; rewrite turn_ang; ring.
Qed.

Lemma sum_l_p d jF m k c b q : sym_kind c b = true -> q = (match c with cR => 0 | cZ => 4 | cL => 8 end + match b with b_cc | b_sc => 0 | _ => 1 end)%Z ->
  sum_l d jF m k q = mk_p s t p xmpq d jF m k c b /\ sum_l d jF m k (q + 2) = mk_n s t p d jF m k c b.
Proof.
  intros Hs ->. unfold sum_l, mk_p, mk_n, suml. rewrite !acc_sum.
  destruct c, b; try discriminate; split; apply zsum_ext; intros l Hl; reflexivity.
Qed.
Ltac fold_sums EP :=
  match goal with
  | |- zsum _ _ _ = zsum _ _ _ => apply zsum_ext; let k := fresh in intros k ?; first [rewrite (proj1 (EP k)); reflexivity | rewrite (proj2 (EP k)); reflexivity]
  | |- _ => let k := fresh in extensionality k; first [rewrite (proj1 (EP k)); reflexivity | rewrite (proj2 (EP k)); reflexivity]
  end.
Lemma force_eq out d jF mm lo I M c b n : (0 <= lo)%Z -> (lo <= if isL c then 8 else 0)%Z -> (0 <= M < mm)%Z -> (mm <= mpol)%Z -> (0 <= n <= ntor)%Z ->
  sym_kind c b = true ->
  fft_force s (r2c out (fill_in s t p xmpq d jF mm lo I)) M c b n = zsum 0 N (fun k => force_v s t p xmpq d jF M k c b n).
Proof.
  intros Hlo Hl HM Hmm Hn Hs.
  assert (E : forall q, (lo <= q < 12)%Z -> _) by (intros q Hq; exact (out_at out d jF mm lo I M q n Hlo Hq HM Hmm Hn)).
  cbv zeta in E. unfold fft_force, force_v. cbv zeta.
  assert (T : zsum 0 N (fun k => mk_p s t p xmpq d jF M k c b * tor_a b t (k * (sz_nnyq2 s + 1) + n)%Z + mk_n s t p d jF M k c b * tor_n b t (k * (sz_nnyq2 s + 1) + n)%Z) =
    match b with
    | b_cc | b_sc => zsum 0 N (fun k => mk_p s t p xmpq d jF M k c b * (s2 n * cos (IZR n * ang N k))) + IZR n * IZR nfp * - zsum 0 N (fun k => mk_n s t p d jF M k c b * (s2 n * sin (IZR n * ang N k)))
    | _ => - - zsum 0 N (fun k => mk_p s t p xmpq d jF M k c b * (s2 n * sin (IZR n * ang N k))) + IZR n * IZR nfp * zsum 0 N (fun k => mk_n s t p d jF M k c b * (s2 n * cos (IZR n * ang N k)))
    end).
  { destruct b; cbn [tor_a tor_n]; rewrite ?Ropp_involutive, <- ?Ropp_mult_distr_r, ?Ropp_mult_distr_l, <- ?zsum_scale, <- ?zsum_plus; apply zsum_ext; intros k Hk;
    rewrite ?(t_cosnv s OK b0), ?(t_sinnv s OK b0), ?(t_sinnvn s OK b0), ?(t_cosnvn s OK b0) by lia; rewrite ?mult_IZR, ?opp_IZR; ring. }
  rewrite T. clear T.
  destruct c, b; try discriminate; cbn [isL] in Hl;
  unfold kRmkcc, kRmkss, kRmkccN, kRmkssN, kZmksc, kZmkcs, kZmkscN, kZmkcsN, kLmksc, kLmkcs, kLmkscN, kLmkcsN;
  (match goal with |- context [o_re _ _ _ ?a _] => rewrite (proj1 (E a ltac:(lia))) end;
   match goal with |- context [o_im _ _ _ ?a _] => rewrite (proj2 (E a ltac:(lia))) end;
   match goal with |- context [mk_p _ _ _ _ _ _ _ _ ?c ?b] =>
    assert (EP : forall k, _) by (intros k; exact (sum_l_p d jF M k c b _ Hs eq_refl)); cbn [Z.add Pos.add Pos.succ] in EP end;
   apply f_equal2; [|apply f_equal2; [reflexivity|]];
   try (apply f_equal); try (apply f_equal); fold_sums EP).
Qed.

(** adding the toroidal planes one by one or at once *)
Lemma k_fold (cond : comp -> bk -> bool) base w (v : Z -> comp -> bk -> Z -> R) (f : coefs) :
  for_up 0 N (fun k f => fun c b => if cond c b then seg_add (f c b) base w (v k c b) else f c b) f =
  (fun c b => if cond c b then seg_add (f c b) base w (fun l => zsum 0 N (fun k => v k c b l)) else f c b).
Proof.
  extensionality c. extensionality b. extensionality i.
  rewrite (for_up_proj (fun f : coefs => f c b i) _ (fun k => if cond c b then seg_c base w (v k c b) i else 0)).
  - destruct (cond c b); [|rewrite zsum_zero by reflexivity; lra]. rewrite seg_add_at. apply f_equal. unfold seg_c.
    destruct ((base <=? i)%Z && (i <? base + w)%Z); [reflexivity|apply zsum_zero; reflexivity].
  - intros k g _. destruct (cond c b); [apply seg_add_at|lra].
Qed.
Lemma seg_ext (a : Z -> R) base w u v : (forall l, (0 <= l < w)%Z -> u l = v l) -> seg_add a base w u = seg_add a base w v.
Proof. intros H. unfold seg_add. apply for_up_ext. intros l g Hl. cbv zeta. rewrite (H l Hl). reflexivity. Qed.

Theorem backward_eq d I0 O0 : snd (ForcesToFourier3DFft s t p xmpq r2c ns lfreeb vacuum_on d I0 O0) =
  ForcesToFourier3D s t p xmpq ns lfreeb vacuum_on d sym_kind (fun _ _ _ => 0).
Proof.
  unfold ForcesToFourier3DFft, ForcesToFourier3D. cbv zeta. unfold f_jMaxRZ.
  set (jm := if lfreeb && vacuum_on then Z.min (nsMaxF p) ns else Z.min (nsMaxF p) (ns - 1)).
  pose proof (so_mpol s OK) as M1. pose proof (so_ntor s OK) as T0.
  match goal with |- snd (for_up _ _ ?b2 (for_up _ _ ?b1 ?s0)) = for_up _ _ ?c2 (for_up _ _ ?c1 ?f0) =>
    set (B2 := b2); set (B1 := b1); set (C2 := c2); set (C1 := c1); set (st0 := s0); set (F0 := f0) end.
  assert (G : forall (B : Z -> (Z -> R) * (Z -> R) * coefs -> (Z -> R) * (Z -> R) * coefs) (C : Z -> coefs -> coefs) lo hi st,
    (forall j st, snd (B j st) = C j (snd st)) -> snd (for_up lo hi B st) = for_up lo hi C (snd st)).
  { intros B C lo hi st H. destruct (Z_le_gt_dec lo hi) as [L|L]; [|rewrite !for_up_empty by lia; reflexivity].
    replace hi with (lo + Z.of_nat (Z.to_nat (hi - lo)))%Z by lia. induction (Z.to_nat (hi - lo)) as [|h IH].
    - rewrite Z.add_0_r, !for_up_empty by lia. reflexivity.
    - rewrite Nat2Z.inj_succ. unfold Z.succ. rewrite Z.add_assoc, !for_up_snoc by lia. rewrite H, IH. reflexivity. }
  rewrite (G B2 C2), (G B1 C1); [reflexivity| |].
  - intros j [[X Y] f]. unfold B1, C1. cbn [snd]. apply for_up_ext. intros m f' Hm.
    rewrite k_fold. extensionality c. extensionality b. destruct (sym_kind c b) eqn:SK; cbn [andb]; [|reflexivity].
    destruct (negb (isL c) || (1 <=? j)%Z); [|reflexivity]. apply seg_ext. intros n Hn.
    apply force_eq; try lia; [destruct (isL c); lia|destruct (j =? 0)%Z; lia|exact SK].
  - intros j [[X Y] f]. unfold B2, C2. cbn [snd]. apply for_up_ext. intros m f' Hm.
    rewrite k_fold. extensionality c. extensionality b. destruct (sym_kind c b) eqn:SK; cbn [andb]; [|reflexivity].
    destruct (isL c) eqn:EL; [|reflexivity]. apply seg_ext. intros n Hn.
    apply force_eq; try lia; [rewrite EL; lia|exact SK].
Qed.
End F.
