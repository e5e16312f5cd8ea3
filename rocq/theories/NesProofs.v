From Coq Require Import ZArith List Bool Reals Lia Lra Permutation.
From Coquelicot Require Import Coquelicot.
From Verif Require Import Base BaseLemmas SumLemmas PartModel PartSpec PartProofs SizesModel FourierModel FourierSpec TrigSums DftSpec DftTables VacTables
  DftForces DftFold SurfModel SurfSpec SurfMain SurfFinal SingSumModel SingSumSpec SingSumProofs SingSumFinal LapModel LapSpec LapProofs LapMain LapFinal LapThreads LapEnd
  RegSpec ExtSeg ExtFinal NesModel NesSpec.
Import ListNotations.
Open Scope R_scope.

Section N.
Variable s : sizes.
Hypothesis OK : sz_ok s.
Hypothesis MQ : (sz_mpol s + 1 <= sz_mnyq2 s)%Z.
Variable b0 : basis_tables.
Local Notation fb := (vtab s b0).
Local Notation nT := (sz_nThetaEven s).
Local Notation nTR := (sz_nThetaReduced s).
Local Notation nTE := (sz_nThetaEff s).
Local Notation nz := (sz_nZeta s).
Variables mf nf : Z.
Hypothesis Hmf : (0 <= mf <= sz_mpol s + 1)%Z.
Hypothesis Hnf : (0 <= nf <= sz_ntor s)%Z.
Local Notation M := (nes_mnpd mf nf).
Variable bvec : Z -> R.
Definition psin m n := bvec (mode_at mf nf m n).
Definition pcos m n := if sz_lasym s then bvec (M + mode_at mf nf m n)%Z else 0.

(** Increments of one mode. *)
Definition du m n l k : R := psin m n * IZR m * cos (ph s m n l k) - pcos m n * IZR m * sin (ph s m n l k).
Definition dv m n l k : R := psin m n * IZR (- n * sz_nfp s) * cos (ph s m n l k) - pcos m n * IZR (- n * sz_nfp s) * sin (ph s m n l k).

Lemma step_val ztMin kl mn uv j : (0 <= kl < sz_nZnT s)%Z -> (0 <= mn < M)%Z ->
  let n := (mn / (mf + 1) - nf)%Z in let m := (mn mod (mf + 1))%Z in
  let l := (kl / nz)%Z in let k := (kl mod nz)%Z in
  fst (pot_step s fb mf nf ztMin bvec kl mn uv) j = fst uv j + ind (kl - ztMin) j * du m n l k /\
  snd (pot_step s fb mf nf ztMin bvec kl mn uv) j = snd uv j + ind (kl - ztMin) j * dv m n l k.
Proof.
  intros Hk Hm. cbv zeta. destruct uv as [u v].
  destruct (kl_split s OK kl Hk) as (K1 & K2 & K3 & _).
  set (l := (kl / nz)%Z) in *. set (k := (kl mod nz)%Z) in *.
  set (n := (mn / (mf + 1) - nf)%Z). set (m := (mn mod (mf + 1))%Z).
  unfold nes_mnpd in Hm.
  assert (M1 : (0 <= m <= mf)%Z) by (pose proof (Z.mod_pos_bound mn (mf + 1) ltac:(lia)); lia).
  assert (N1 : (- nf <= n <= nf)%Z).
  { unfold n. pose proof (Z.div_pos mn (mf + 1) ltac:(lia) ltac:(lia)). pose proof (Z.div_lt_upper_bound mn (mf + 1) (2 * nf + 1) ltac:(lia) ltac:(lia)). lia. }
  assert (EM : mode_at mf nf m n = mn).
  { unfold mode_at, m, n. rewrite (Z.div_mod mn (mf + 1)) at 3 by lia. ring. }
  pose proof (so_nT s OK) as HT. pose proof (so_nTR s OK) as HTR. pose proof (so_nnyq s OK) as HNQ.
  set (lr := if (l <? nTR)%Z then l else (nT - l)%Z).
  set (sg := if (l <? nTR)%Z then 1 else -1).
  assert (LR : (0 <= lr < nTR)%Z).
  { unfold lr. destruct (Z.ltb_spec l nTR); [lia|]. destruct (sz_lasym s); lia. }
  assert (CM : bt_cosmu fb (lr * (sz_mnyq2 s + 1) + m)%Z / mscale m = cos (IZR m * ang nT l)).
  { rewrite v_cosmu by lia. change (mscale m) with (s2 m). pose proof (s2_nz m). unfold lr. destruct (Z.ltb_spec l nTR).
    - field. assumption.
    - destruct (refl_trig nT l m ltac:(lia)) as [-> _]. field. assumption. }
  assert (SM : sg * bt_sinmu fb (lr * (sz_mnyq2 s + 1) + m)%Z / mscale m = sin (IZR m * ang nT l)).
  { rewrite v_sinmu by lia. change (mscale m) with (s2 m). pose proof (s2_nz m). unfold lr, sg. destruct (Z.ltb_spec l nTR).
    - field. assumption.
    - destruct (refl_trig nT l m ltac:(lia)) as [_ ->]. field. assumption. }
  assert (CN : bt_cosnv fb (Z.abs n * nz + k)%Z / nscale (Z.abs n) = cos (IZR n * ang nz k)).
  { rewrite v_cosnv by lia. change (nscale (Z.abs n)) with (s2 (Z.abs n)). pose proof (s2_nz (Z.abs n)).
    replace (cos (IZR n * ang nz k)) with (cos (IZR (Z.abs n) * ang nz k)); [field; assumption|].
    destruct (Z.abs_eq_or_opp n) as [->| ->]; [reflexivity|]. rewrite opp_IZR, <- Ropp_mult_distr_l. apply cos_neg. }
  assert (SN : IZR (Z.sgn n) * (bt_sinnv fb (Z.abs n * nz + k)%Z / nscale (Z.abs n)) = sin (IZR n * ang nz k)).
  { rewrite v_sinnv by lia. change (nscale (Z.abs n)) with (s2 (Z.abs n)). pose proof (s2_nz (Z.abs n)).
    transitivity (IZR (Z.sgn n) * sin (IZR (Z.abs n) * ang nz k)); [field; assumption|].
    destruct (Z.lt_trichotomy n 0) as [H0|[H0|H0]].
    - rewrite Z.sgn_neg, Z.abs_neq by lia. rewrite opp_IZR, <- Ropp_mult_distr_l, sin_neg. ring.
    - rewrite H0. cbn [Z.sgn]. rewrite !Rmult_0_l, sin_0. reflexivity.
    - rewrite Z.sgn_pos, Z.abs_eq by lia. ring. }
  assert (E1 : cos (ph s m n l k) = cos (IZR m * ang nT l) * cos (IZR n * ang nz k) + sin (IZR m * ang nT l) * sin (IZR n * ang nz k)) by (unfold ph; apply cos_minus).
  assert (E2 : sin (ph s m n l k) = sin (IZR m * ang nT l) * cos (IZR n * ang nz k) - cos (IZR m * ang nT l) * sin (IZR n * ang nz k)) by (unfold ph; apply sin_minus).
  assert (CC : cos (IZR m * ang nT l) * cos (IZR n * ang nz k) + IZR (Z.sgn n) * sin (IZR m * ang nT l) * (bt_sinnv fb (Z.abs n * nz + k)%Z / nscale (Z.abs n)) = cos (ph s m n l k)).
  { rewrite E1, <- SN. ring. }
  assert (SS : sin (IZR m * ang nT l) * cos (IZR n * ang nz k) - IZR (Z.sgn n) * cos (IZR m * ang nT l) * (bt_sinnv fb (Z.abs n * nz + k)%Z / nscale (Z.abs n)) = sin (ph s m n l k)).
  { rewrite E2, <- SN. ring. }
  unfold pot_step. cbv zeta. fold l k n m. fold lr sg.
  rewrite CM, SM, CN, CC, SS. clear CM SM CN SN CC SS E1 E2.
  unfold du, dv, psin, pcos. rewrite EM. cbn [fst snd].
  destruct (sz_lasym s); cbn [fst snd]; unfold upd, ind; rewrite ?(Z.eqb_sym (kl - ztMin) j), ?Z.eqb_refl;
    destruct (Z.eqb_spec j (kl - ztMin)) as [->|Ne]; split; ring.
Qed.

Definition gradU l k := zsum (- nf) (nf + 1) (fun n => zsum 0 (mf + 1) (fun m => du m n l k)).
Definition gradV l k := zsum (- nf) (nf + 1) (fun n => zsum 0 (mf + 1) (fun m => dv m n l k)).

Lemma modes_div (f : Z -> Z -> R) : zsum 0 M (fun mn => f (mn mod (mf + 1))%Z (mn / (mf + 1) - nf)%Z) =
  zsum (- nf) (nf + 1) (fun n => zsum 0 (mf + 1) (fun m => f m n)).
Proof.
  unfold nes_mnpd. rewrite Z.mul_comm. rewrite zsum_flat by lia.
  replace (zsum (- nf) (nf + 1) (fun n => zsum 0 (mf + 1) (fun m => f m n))) with (zsum (0 + - nf) (2 * nf + 1 + - nf) (fun n => zsum 0 (mf + 1) (fun m => f m n))) by (f_equal; lia).
  rewrite zsum_shift. apply zsum_ext. intros l _. apply zsum_ext. intros k Hk.
  rewrite Z.div_add_l, Z.div_small by lia. rewrite (Z.add_comm (l * (mf + 1)) k), Z.mod_add, Z.mod_small by lia. f_equal; lia.
Qed.

Lemma deriv_val ztMin ztMax kl : (0 <= ztMin <= ztMax)%Z -> (ztMax <= sz_nZnT s)%Z -> (ztMin <= kl < ztMax)%Z ->
  fst (potential_derivatives s fb mf nf ztMin ztMax bvec) (kl - ztMin)%Z = gradU (kl / nz) (kl mod nz) /\
  snd (potential_derivatives s fb mf nf ztMin ztMax bvec) (kl - ztMin)%Z = gradV (kl / nz) (kl mod nz).
Proof.
  intros Hz Hz2 Hk. unfold potential_derivatives. split.
  - rewrite (for_up_delta (fun uv => fst uv (kl - ztMin)%Z) _ (fun q => ind (q - ztMin) (kl - ztMin) * gradU (q / nz) (q mod nz))).
    + cbn [fst]. rewrite (zsum_single ztMin ztMax kl); [rewrite ind_refl; ring|exact Hk|]. intros q _ Ne. rewrite ind_neq by lia. ring.
    + intros q uv Hq. rewrite (for_up_delta (fun uv => fst uv (kl - ztMin)%Z) _ (fun mn => ind (q - ztMin) (kl - ztMin) * du (mn mod (mf + 1)) (mn / (mf + 1) - nf) (q / nz) (q mod nz))).
      * f_equal. rewrite zsum_scale. f_equal. apply (modes_div (fun m n => du m n (q / nz) (q mod nz))).
      * intros mn uv' Hm. apply step_val; lia.
  - rewrite (for_up_delta (fun uv => snd uv (kl - ztMin)%Z) _ (fun q => ind (q - ztMin) (kl - ztMin) * gradV (q / nz) (q mod nz))).
    + cbn [snd]. rewrite (zsum_single ztMin ztMax kl); [rewrite ind_refl; ring|exact Hk|]. intros q _ Ne. rewrite ind_neq by lia. ring.
    + intros q uv Hq. rewrite (for_up_delta (fun uv => snd uv (kl - ztMin)%Z) _ (fun mn => ind (q - ztMin) (kl - ztMin) * dv (mn mod (mf + 1)) (mn / (mf + 1) - nf) (q / nz) (q mod nz))).
      * f_equal. rewrite zsum_scale. f_equal. apply (modes_div (fun m n => dv m n (q / nz) (q mod nz))).
      * intros mn uv' Hm. apply step_val; lia.
Qed.

Lemma cov_arrays ztMin ztMax efU efV old kl : (0 <= ztMin <= ztMax)%Z -> (ztMax <= sz_nZnT s)%Z -> (ztMin <= kl < ztMax)%Z ->
  fst (covariant s fb mf nf ztMin ztMax bvec efU efV old) (kl - ztMin)%Z = gradU (kl / nz) (kl mod nz) + efU (kl - ztMin)%Z /\
  snd (covariant s fb mf nf ztMin ztMax bvec efU efV old) (kl - ztMin)%Z = gradV (kl / nz) (kl mod nz) + efV (kl - ztMin)%Z.
Proof.
  intros Hz Hz2 Hk. unfold covariant. destruct (deriv_val ztMin ztMax kl Hz Hz2 Hk) as [D1 D2].
  destruct (potential_derivatives s fb mf nf ztMin ztMax bvec) as [pu pv]. cbn [fst snd] in D1, D2. rewrite <- D1, <- D2.
  split.
  - apply (for_up_set (fun uv : (Z -> R) * (Z -> R) => fst uv (kl - ztMin)%Z) _ ztMin ztMax kl); [exact Hk| |].
    + intros [u v]. cbn [fst]. apply upd_eq.
    + intros q [u v] Hq Ne. cbn [fst]. apply upd_neq. lia.
  - apply (for_up_set (fun uv : (Z -> R) * (Z -> R) => snd uv (kl - ztMin)%Z) _ ztMin ztMax kl); [exact Hk| |].
    + intros [u v]. cbn [snd]. apply upd_eq.
    + intros q [u v] Hq Ne. cbn [snd]. apply upd_neq. lia.
Qed.

(** The increments are derivatives of the potential. *)
Lemma potential_t t p : is_derive (fun t => potential (sz_nfp s) mf nf psin pcos t p) t
  (zsum (- nf) (nf + 1) (fun n => zsum 0 (mf + 1) (fun m =>
     psin m n * IZR m * cos (IZR m * t - IZR n * (IZR (sz_nfp s) * p)) - pcos m n * IZR m * sin (IZR m * t - IZR n * (IZR (sz_nfp s) * p))))).
Proof.
  unfold potential. apply is_derive_zsum. intros n _. apply is_derive_zsum. intros m _. auto_derive; [exact I|]. unfold Rminus. ring.
Qed.
Lemma potential_p t p : is_derive (fun p => potential (sz_nfp s) mf nf psin pcos t p) p
  (zsum (- nf) (nf + 1) (fun n => zsum 0 (mf + 1) (fun m =>
     psin m n * IZR (- n * sz_nfp s) * cos (IZR m * t - IZR n * (IZR (sz_nfp s) * p)) - pcos m n * IZR (- n * sz_nfp s) * sin (IZR m * t - IZR n * (IZR (sz_nfp s) * p))))).
Proof.
  unfold potential. apply is_derive_zsum. intros n _. apply is_derive_zsum. intros m _. auto_derive; [exact I|]. rewrite mult_IZR, opp_IZR. unfold Rminus. ring.
Qed.
Lemma grad_derive l k :
  gradU l k = Derive (fun t => potential (sz_nfp s) mf nf psin pcos t (tor_angle s k)) (ang nT l) /\
  gradV l k = Derive (fun p => potential (sz_nfp s) mf nf psin pcos (ang nT l) p) (tor_angle s k).
Proof.
  split; symmetry.
  - etransitivity; [apply is_derive_unique; apply potential_t|]. rewrite <- !ang_tor by assumption. reflexivity.
  - etransitivity; [apply is_derive_unique; apply potential_p|]. rewrite <- !ang_tor by assumption. reflexivity.
Qed.
End N.
