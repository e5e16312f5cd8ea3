From Coq Require Import ZArith List Bool Reals Lia Lra Permutation.
From Coquelicot Require Import Coquelicot.
From Verif Require Import Base BaseLemmas SumLemmas PartModel PartSpec PartProofs SizesModel FourierModel FourierSpec TrigSums DftSpec DftTables VacTables
  DftForces DftFold SurfModel SurfSpec SurfMain SurfFinal SingSumModel SingSumSpec SingSumProofs SingSumFinal LapModel LapSpec LapProofs LapMain LapFinal LapThreads LapEnd
  SurfProofs RegSpec ExtModel ExtSpec ExtSeg ExtFinal NesModel NesSpec NesProofs.
Import ListNotations.
Open Scope R_scope.

Section F.
Variable s : sizes.
Hypothesis OK : sz_ok s.
Hypothesis MQ : (sz_mpol s + 1 <= sz_mnyq2 s)%Z.
Variable b0 : basis_tables.
Local Notation fb := (vtab s b0).
Local Notation nT := (sz_nThetaEven s).
Local Notation nTR := (sz_nThetaReduced s).
Local Notation nTE := (sz_nThetaEff s).
Local Notation nz := (sz_nZeta s).
Variables mf nf : Z.
Hypothesis Hmf : (0 <= mf <= sz_mpol s + 1)%Z.
Hypothesis Hnf : (0 <= nf <= sz_ntor s)%Z.
Hypothesis HTm : (sz_mpol s + 1 < nT)%Z.

Section P.
Variables ztMin ztMax : Z.
Hypothesis Hz : (0 <= ztMin <= ztMax)%Z.
Hypothesis Hz2 : (ztMax <= sz_nZnT s)%Z.
Variable fullUpdate : bool.
Variable X : coef -> Z -> R.
Variables (g : surf) (sg : Z).
Local Notation g' := (update s ztMin ztMax fullUpdate (vtab s b0) X sg g).
Local Notation F := (Fs s X).

Lemma vac_val b w kl : (ztMin <= kl < ztMax)%Z ->
  let t := tk s kl in let p := pk s kl in let j := (kl - ztMin)%Z in
  let gtt := dot (d_t F t p) (d_t F t p) in let gtp := dot (d_t F t p) (d_p F t p) in let gpp := dot (d_p F t p) (d_p F t p) in
  let det := gtt * gpp - gtp * gtp in
  let su := (gpp * fst b j - gtp * snd b j) / det in
  let sv := (- gtp * fst b j + gtt * snd b j) / det in
  let w' := vacuum_field s ztMin ztMax g' b w in
  v_bsq w' kl = (fst b j * su + snd b j * sv) * (1 / 2) /\
  from_cylindrical p (v_r w' kl) (v_phi w' kl) (v_z w' kl) = vadd (scale su (d_t F t p)) (scale sv (d_p F t p)).
Proof.
  intros Hk. cbv zeta. destruct b as [bu bv]. cbn [fst snd].
  destruct (first_order s OK MQ b0 ztMin ztMax Hz Hz2 fullUpdate X g sg kl Hk) as (_ & _ & _ & G1 & G2 & G3).
  assert (NP : IZR (sz_nfp s) <> 0) by (apply not_0_IZR; pose proof (so_nfp s OK); lia).
  set (t := tk s kl) in *. set (p := pk s kl) in *. set (j := (kl - ztMin)%Z) in *.
  set (gtt := dot (d_t F t p) (d_t F t p)) in *. set (gtp := dot (d_t F t p) (d_p F t p)) in *. set (gpp := dot (d_p F t p) (d_p F t p)) in *.
  set (su := (gpp * bu j - gtp * bv j) / (gtt * gpp - gtp * gtp)). set (sv := (- gtp * bu j + gtt * bv j) / (gtt * gpp - gtp * gtp)).
  set (w' := vacuum_field s ztMin ztMax g' (bu, bv) w).
  assert (V : let d := (kl - derivOffset s ztMin)%Z in
    (v_bsq w' kl, v_r w' kl, v_phi w' kl, v_z w' kl) =
    ((bu j * su + bv j * sv) * (1 / 2), sf_sym g' Ru d * su + sf_sym g' Rv d * sv, sf_sym g' R1 kl * sv, sf_sym g' Zu d * su + sf_sym g' Zv d * sv)).
  { cbv zeta. unfold w', vacuum_field.
    apply (for_up_set (fun w => (v_bsq w kl, v_r w kl, v_phi w kl, v_z w kl)) _ ztMin ztMax kl); [exact Hk| |].
    - intros w0. cbv zeta. cbn [v_bsq v_r v_phi v_z]. rewrite !upd_eq. fold j. rewrite G1, G2, G3.
      replace (2 * gtp / IZR (sz_nfp s) * IZR (sz_nfp s) * (1 / 2)) with gtp by (field; exact NP).
      replace (gpp / (IZR (sz_nfp s) * IZR (sz_nfp s)) * IZR (sz_nfp s) * IZR (sz_nfp s)) with gpp by (field; exact NP).
      reflexivity.
    - intros q w0 Hq Ne. cbv zeta. cbn [v_bsq v_r v_phi v_z]. rewrite !upd_neq by lia. reflexivity. }
  cbv zeta in V. clearbody w'. injection V. intros V4 V3 V2 V1. clear V. split; [exact V1|]. rewrite V2, V3, V4. clear V1 V2 V3 V4.
  assert (SYM : forall c, is_second c = false -> is_pos c = false -> sf_sym g' c (kl - derivOffset s ztMin)%Z = pD s X c t p).
  { intros c H1 H2. unfold t, p. rewrite <- (sym_at s OK MQ b0 ztMin ztMax Hz Hz2 fullUpdate X g sg kl c Hk H1). unfold SurfModel.off. rewrite H2. reflexivity. }
  assert (SR : sf_sym g' R1 kl = pD s X R1 t p).
  { unfold t, p. rewrite <- (sym_at s OK MQ b0 ztMin ztMax Hz Hz2 fullUpdate X g sg kl R1 Hk eq_refl). unfold SurfModel.off. cbn [is_pos]. rewrite Z.sub_0_r. reflexivity. }
  rewrite !SYM by reflexivity. rewrite SR. unfold pD. cbn [is_r ou ov].
  unfold Fs. rewrite (F_t _ _ (r_t s X) (z_t s X)), (F_p _ _ (r_p s X) (z_p s X)).
  unfold from_cylindrical, vadd, scale. cbn [vx vy vz]. apply vec_eq; cbn [vx vy vz]; ring.
Qed.

Lemma field_val bvec efU efV old w kl : (ztMin <= kl < ztMax)%Z ->
  let t := tk s kl in let p := pk s kl in let j := (kl - ztMin)%Z in
  let Phi := potential (sz_nfp s) mf nf (psin mf nf bvec) (pcos s mf nf bvec) in
  dot (normal 1 F t p) (normal 1 F t p) <> 0 ->
  let w' := vacuum_field s ztMin ztMax g' (covariant s fb mf nf ztMin ztMax bvec efU efV old) w in
  let B := from_cylindrical p (v_r w' kl) (v_phi w' kl) (v_z w' kl) in
  dot B (d_t F t p) = efU j + Derive (fun t => Phi t p) t /\
  dot B (d_p F t p) = efV j + Derive (fun p => Phi t p) p /\
  dot B (normal (IZR sg) F t p) = 0 /\ v_bsq w' kl = dot B B / 2.
Proof.
  intros Hk. cbv zeta. intros HN.
  destruct (vac_val (covariant s fb mf nf ztMin ztMax bvec efU efV old) w kl Hk) as [V1 V2]. rewrite V1, V2. clear V1 V2.
  destruct (cov_arrays s OK MQ b0 mf nf Hmf Hnf bvec ztMin ztMax efU efV old kl Hz Hz2 Hk) as [C1 C2]. rewrite C1, C2. clear C1 C2.
  destruct (grad_derive s OK mf nf bvec (kl / nz) (kl mod nz)) as [D1 D2]. 
  fold (tk s kl) in D1, D2. change (tor_angle s (kl mod nz)) with (pk s kl) in D1, D2. unfold tk in D1, D2.
  rewrite D1, D2. fold (tk s kl).
  match goal with |- context [?x + efU _] => set (a := x) end. match goal with |- context [?x + efV _] => set (b := x) end.
  rewrite (Rplus_comm (efU _) a), (Rplus_comm (efV _) b). set (bu := a + _). set (bv := b + _).
  clearbody bu bv. unfold normal in *. set (u := d_t F (tk s kl) (pk s kl)) in *. set (v := d_p F (tk s kl) (pk s kl)) in *.
  assert (DET : dot u u * dot v v - dot u v * dot u v <> 0).
  { intros E. apply HN. pose proof (lagrange v u) as L. transitivity (dot (cross v u) (cross v u)); [unfold dot, scale; cbn [vx vy vz]; ring|].
    rewrite L. rewrite <- E. replace (dot v u) with (dot u v) by (unfold dot; ring). ring. }
  set (det := dot u u * dot v v - dot u v * dot u v) in *.
  set (su := (dot v v * bu - dot u v * bv) / det). set (sv := (- dot u v * bu + dot u u * bv) / det).
  assert (B1 : dot (vadd (scale su u) (scale sv v)) u = bu).
  { transitivity (su * dot u u + sv * dot u v); [unfold dot, vadd, scale; cbn [vx vy vz]; ring|]. unfold su, sv, det. field. exact DET. }
  assert (B2 : dot (vadd (scale su u) (scale sv v)) v = bv).
  { transitivity (su * dot u v + sv * dot v v); [unfold dot, vadd, scale; cbn [vx vy vz]; ring|]. unfold su, sv, det. field. exact DET. }
  repeat split; [exact B1|exact B2| |].
  - unfold dot, vadd, scale, cross. cbn [vx vy vz]. ring.
  - transitivity ((su * dot (vadd (scale su u) (scale sv v)) u + sv * dot (vadd (scale su u) (scale sv v)) v) / 2).
    + rewrite B1, B2. field.
    + unfold dot, vadd, scale. cbn [vx vy vz]. field.
Qed.
End P.

(** The potential has no net part. *)
Lemma zrow (trig : R -> R) m n l : (trig = cos \/ trig = sin) -> n <> 0%Z -> (- nf <= n <= nf)%Z ->
  zsum 0 nz (fun k => trig (ph s m n l k)) = 0.
Proof.
  intros Ht Hn Hr. pose proof (so_nZeta s OK). pose proof (so_tor s OK ltac:(lia)).
  destruct Ht as [->| ->].
  - rewrite <- (sum_cos nz ltac:(lia) (- n) (IZR m * ang nT l) ltac:(lia)). apply zsum_ext. intros k _. f_equal. unfold ph. rewrite opp_IZR. ring.
  - rewrite <- (sum_cos nz ltac:(lia) (- n) (IZR m * ang nT l - PI / 2) ltac:(lia)). apply zsum_ext. intros k _.
    assert (SC : forall x, sin x = cos (x - PI / 2)) by (intros x; rewrite cos_minus, cos_PI2, sin_PI2; ring).
    rewrite SC. f_equal. unfold ph. rewrite opp_IZR. ring.
Qed.
Lemma flat_w (f : Z -> Z -> R) : zsum 0 (sz_nZnT s) (fun kl => sz_wInt s (kl / nz) * f (kl / nz)%Z (kl mod nz)%Z) =
  zsum 0 nTE (fun l => sz_wInt s l * zsum 0 nz (fun k => f l k)).
Proof.
  pose proof (so_nZeta s OK). pose proof (nTE_nTR s OK). pose proof (so_nTR s OK). rewrite (so_nZnT s OK), Z.mul_comm. rewrite zsum_flat by lia. apply zsum_ext. intros l Hl.
  rewrite <- zsum_scale. apply zsum_ext. intros k Hk. rewrite Z.div_add_l, Z.div_small, Z.add_0_r by lia.
  rewrite (Z.add_comm (l * nz) k), Z.mod_add, Z.mod_small by lia. reflexivity.
Qed.
Lemma wsum_zero (trig : R -> R) m n : (trig = cos \/ (trig = sin /\ sz_lasym s = true)) -> (m <> 0 \/ n <> 0)%Z -> (0 <= m <= mf)%Z -> (- nf <= n <= nf)%Z ->
  zsum 0 (sz_nZnT s) (fun kl => sz_wInt s (kl / nz) * trig (ph s m n (kl / nz) (kl mod nz))) = 0.
Proof.
  intros Ht Hne Hm Hn. rewrite (flat_w (fun l k => trig (ph s m n l k))).
  pose proof (so_nZeta s OK). pose proof (so_nT s OK) as HT. pose proof (so_nTR s OK) as HTR. pose proof (so_nTE s OK) as HE.
  destruct (Z.eq_dec n 0) as [E0|E0].
  - subst n. assert (Hm0 : (0 < Z.abs m < nT)%Z) by lia.
    assert (PE : forall l k, ph s m 0 l k = IZR m * ang nT l) by (intros; unfold ph; ring).
    rewrite (zsum_ext 0 nTE _ (fun l => sz_wInt s l * (IZR nz * trig (IZR m * ang nT l)))).
    2:{ intros l Hl. f_equal. rewrite (zsum_ext _ _ _ (fun _ => trig (IZR m * ang nT l))) by (intros; rewrite PE; reflexivity).
        rewrite zsum_const by lia. rewrite Z.sub_0_r. reflexivity. }
    destruct (sz_lasym s) eqn:LA.
    + rewrite HE. rewrite (zsum_ext 0 nT _ (fun l => (/ (IZR nT * IZR nz) * IZR nz) * trig (IZR m * ang nT l))).
      2:{ intros l Hl. rewrite <- (wcos_wInt s OK l LA) by lia. ring. }
      rewrite zsum_scale. destruct Ht as [->|[-> _]].
      * rewrite (zsum_ext _ _ _ (fun l => cos (IZR m * ang nT l + 0))) by (intros; rewrite Rplus_0_r; reflexivity). rewrite sum_cos by lia. ring.
      * rewrite sum_sin by lia. ring.
    + destruct Ht as [->|[_ Hf]]; [|discriminate]. rewrite HE.
      assert (RA : red_avg s (fun k l => cos (IZR m * ang nT l)) = 0).
      { rewrite red_even; [|assumption|].
        - unfold full. rewrite (zsum_ext _ _ _ (fun _ => 0)); [rewrite zsum_zero by reflexivity; ring|]. intros k _.
          rewrite (zsum_ext _ _ _ (fun l => cos (IZR m * ang nT l + 0))) by (intros; rewrite Rplus_0_r; reflexivity). apply sum_cos; lia.
        - intros k l Hk Hl. unfold rl. destruct (Z.eq_dec l 0) as [->|Nl].
          + rewrite Z.sub_0_r, Z.mod_same by lia. reflexivity.
          + rewrite Z.mod_small by lia. apply refl_trig. lia. }
      unfold red_avg in RA. rewrite zsum_const in RA by lia. rewrite <- RA. rewrite Z.sub_0_r. rewrite <- zsum_scale. apply zsum_ext. intros l Hl.
      rewrite <- wred_wInt by assumption. ring.
  - apply zsum_zero. intros l _. rewrite zrow; [ring| |exact E0|exact Hn]. tauto.
Qed.

Lemma grad_net bvec : 
  zsum 0 (sz_nZnT s) (fun kl => sz_wInt s (kl / nz) * gradU s mf nf bvec (kl / nz) (kl mod nz)) = 0 /\
  zsum 0 (sz_nZnT s) (fun kl => sz_wInt s (kl / nz) * gradV s mf nf bvec (kl / nz) (kl mod nz)) = 0.
Proof.
  assert (K : forall c : Z -> Z -> R, c 0%Z 0%Z = 0 -> zsum 0 (sz_nZnT s) (fun kl => sz_wInt s (kl / nz) *
     zsum (- nf) (nf + 1) (fun n => zsum 0 (mf + 1) (fun m => psin mf nf bvec m n * c m n * cos (ph s m n (kl / nz) (kl mod nz))
       - pcos s mf nf bvec m n * c m n * sin (ph s m n (kl / nz) (kl mod nz))))) = 0).
  { intros c Hc.
    rewrite (zsum_ext _ _ _ (fun kl => zsum (- nf) (nf + 1) (fun n => zsum 0 (mf + 1) (fun m =>
       psin mf nf bvec m n * c m n * (sz_wInt s (kl / nz) * cos (ph s m n (kl / nz) (kl mod nz)))
       - pcos s mf nf bvec m n * c m n * (sz_wInt s (kl / nz) * sin (ph s m n (kl / nz) (kl mod nz))))))).
    2:{ intros kl _. rewrite <- zsum_scale. apply zsum_ext. intros n _. rewrite <- zsum_scale. apply zsum_ext. intros m _. ring. }
    rewrite zsum_swap. apply zsum_zero. intros n Hn. rewrite zsum_swap. apply zsum_zero. intros m Hm.
    rewrite zsum_minus, !zsum_scale.
    destruct (Z.eq_dec m 0) as [Em|Em]; [destruct (Z.eq_dec n 0) as [En|En]|].
    - subst m n. rewrite Hc. ring.
    - rewrite (wsum_zero cos) by (auto; lia). unfold pcos. destruct (sz_lasym s) eqn:LA; [rewrite (wsum_zero sin) by (auto; lia)|]; ring.
    - rewrite (wsum_zero cos) by (auto; lia). unfold pcos. destruct (sz_lasym s) eqn:LA; [rewrite (wsum_zero sin) by (auto; lia)|]; ring. }
  split.
  - apply (K (fun m n => IZR m)). reflexivity.
  - apply (K (fun m n => IZR (- n * sz_nfp s))). reflexivity.
Qed.

Lemma net_sum parts : net_field parts = (rsum parts fst, rsum parts snd).
Proof.
  unfold net_field.
  assert (K : forall a, fold_left (fun uv p => (fst uv + fst p, snd uv + snd p)) parts a = (fst a + rsum parts fst, snd a + rsum parts snd)).
  { induction parts as [|q l IH]; intros a; cbn [fold_left rsum]; [destruct a; cbn [fst snd]; f_equal; ring|]. rewrite IH. cbn [fst snd]. f_equal; ring. }
  rewrite K. cbn [fst snd]. f_equal; ring.
Qed.

Section Q.
Variables (T sg : Z) (bvec : Z -> R) (efU efV : Z -> Z -> R) (old : Z -> (Z -> R) * (Z -> R)) (Eu Ev : Z -> R).
Hypothesis HT : (1 <= T)%Z.
Local Notation lo t := (fst (tangential_range (sz_nZnT s) T t)).
Local Notation hi t := (snd (tangential_range (sz_nZnT s) T t)).
Hypothesis HU : forall t kl, (0 <= t < T)%Z -> (lo t <= kl < hi t)%Z -> efU t (kl - lo t)%Z = Eu kl.
Hypothesis HV : forall t kl, (0 <= t < T)%Z -> (lo t <= kl < hi t)%Z -> efV t (kl - lo t)%Z = Ev kl.

Lemma local_val t : (0 <= t < T)%Z ->
  let q := local_net s fb mf nf (lo t) (hi t) sg bvec (efU t) (efV t) (old t) in
  fst q = zsum (lo t) (hi t) (fun kl => sz_wInt s (kl / nz) * (gradU s mf nf bvec (kl / nz) (kl mod nz) + Eu kl)) * (IZR sg * 2 * PI) /\
  snd q = zsum (lo t) (hi t) (fun kl => sz_wInt s (kl / nz) * (gradV s mf nf bvec (kl / nz) (kl mod nz) + Ev kl)).
Proof.
  intros Ht. cbv zeta. destruct (rng s OK T HT t Ht) as [R1 R2]. unfold local_net.
  pose proof (fun kl => cov_arrays s OK MQ b0 mf nf Hmf Hnf bvec (lo t) (hi t) (efU t) (efV t) (old t) kl R1 R2) as C.
  destruct (covariant s fb mf nf (lo t) (hi t) bvec (efU t) (efV t) (old t)) as [bu bv]. cbn [fst snd] in C.
  match goal with |- context [for_up ?a ?b ?Bd (0, 0)] => set (r := for_up a b Bd (0, 0)); set (body := Bd) in r end.
  assert (A1 : fst r = 0 + zsum (lo t) (hi t) (fun kl => sz_wInt s (kl / nz) * (gradU s mf nf bvec (kl / nz) (kl mod nz) + Eu kl))).
  { unfold r. apply (for_up_delta fst body). intros kl [u v] Hk. unfold body. cbn [fst]. destruct (C kl Hk) as [C1 _]. rewrite C1, HU by assumption. ring. }
  assert (A2 : snd r = 0 + zsum (lo t) (hi t) (fun kl => sz_wInt s (kl / nz) * (gradV s mf nf bvec (kl / nz) (kl mod nz) + Ev kl))).
  { unfold r. apply (for_up_delta snd body). intros kl [u v] Hk. unfold body. cbn [snd]. destruct (C kl Hk) as [_ C2]. rewrite C2, HV by assumption. ring. }
  destruct r as [u v]. cbn [fst snd] in *. rewrite A1, A2, !Rplus_0_l. auto.
Qed.
Lemma range_ind t (f : Z -> R) : (0 <= t < T)%Z -> zsum (lo t) (hi t) f = zsum 0 (sz_nZnT s) (fun kl => if inr (lo t) (hi t) kl then f kl else 0).
Proof.
  intros Ht. destruct (rng s OK T HT t Ht) as [R1 R2].
  rewrite (zsum_split 0 (lo t) (sz_nZnT s)) by lia. rewrite (zsum_split (lo t) (hi t) (sz_nZnT s)) by lia.
  rewrite (zsum_zero 0 (lo t)), (zsum_zero (hi t) (sz_nZnT s)).
  - rewrite Rplus_0_l, Rplus_0_r. apply zsum_ext. intros kl Hk. destruct (inr (lo t) (hi t) kl) eqn:E; [reflexivity|].
    rewrite <- not_true_iff_false, inr_true in E. lia.
  - intros kl Hk. destruct (inr (lo t) (hi t) kl) eqn:E; [|reflexivity]. apply inr_true in E. lia.
  - intros kl Hk. destruct (inr (lo t) (hi t) kl) eqn:E; [|reflexivity]. apply inr_true in E. lia.
Qed.
Lemma team_sum (f : Z -> R) : zsum 0 T (fun t => zsum (lo t) (hi t) f) = zsum 0 (sz_nZnT s) f.
Proof.
  pose proof (nzt s OK).
  rewrite <- (sum_threads s T HT (sz_nZnT s) f) by lia.
  apply zsum_ext. intros t Ht. apply range_ind. exact Ht.
Qed.
Lemma net_val order : Permutation order (zrange 0 T) ->
  net_field (map (fun t => local_net s fb mf nf (lo t) (hi t) sg bvec (efU t) (efV t) (old t)) order) =
  (2 * PI * IZR sg * zsum 0 (sz_nZnT s) (fun kl => sz_wInt s (kl / nz) * Eu kl), zsum 0 (sz_nZnT s) (fun kl => sz_wInt s (kl / nz) * Ev kl)).
Proof.
  intros HP. rewrite net_sum. destruct (grad_net bvec) as [G1 G2].
  f_equal.
  - rewrite rsum_map. rewrite (rsum_perm _ _ _ HP).
    change (zsum 0 T (fun t => fst (local_net s fb mf nf (lo t) (hi t) sg bvec (efU t) (efV t) (old t))) = 2 * PI * IZR sg * zsum 0 (sz_nZnT s) (fun kl => sz_wInt s (kl / nz) * Eu kl)).
    rewrite (zsum_ext 0 T _ (fun t => (IZR sg * 2 * PI) * zsum (lo t) (hi t) (fun kl => sz_wInt s (kl / nz) * (gradU s mf nf bvec (kl / nz) (kl mod nz) + Eu kl)))).
    2:{ intros t Ht. destruct (local_val t Ht) as [L1 _]. rewrite L1. ring. }
    rewrite zsum_scale, team_sum.
    rewrite (zsum_ext _ _ _ (fun kl => sz_wInt s (kl / nz) * gradU s mf nf bvec (kl / nz) (kl mod nz) + sz_wInt s (kl / nz) * Eu kl)) by (intros; ring).
    rewrite zsum_plus, G1. ring.
  - rewrite rsum_map. rewrite (rsum_perm _ _ _ HP).
    change (zsum 0 T (fun t => snd (local_net s fb mf nf (lo t) (hi t) sg bvec (efU t) (efV t) (old t))) = zsum 0 (sz_nZnT s) (fun kl => sz_wInt s (kl / nz) * Ev kl)).
    rewrite (zsum_ext 0 T _ (fun t => zsum (lo t) (hi t) (fun kl => sz_wInt s (kl / nz) * (gradV s mf nf bvec (kl / nz) (kl mod nz) + Ev kl)))).
    2:{ intros t Ht. destruct (local_val t Ht) as [_ L1]. exact L1. }
    rewrite team_sum.
    rewrite (zsum_ext _ _ _ (fun kl => sz_wInt s (kl / nz) * gradV s mf nf bvec (kl / nz) (kl mod nz) + sz_wInt s (kl / nz) * Ev kl)) by (intros; ring).
    rewrite zsum_plus, G2. ring.
Qed.
End Q.
End F.

Lemma vac_sizes : forall lasym nfp mpol ntor ntheta nzeta mg ng s b0 ztMin ztMax fullUpdate X sg g bvec efU efV old w kl,
  make_sizes lasym nfp mpol ntor ntheta nzeta mg ng = Some s ->
  (0 <= ztMin <= ztMax)%Z -> (ztMax <= sz_nZnT s)%Z -> (ztMin <= kl < ztMax)%Z ->
  let mf := (mpol + 1)%Z in let nf := ntor in
  let F := boundary lasym nfp mpol ntor X in
  let t := 2 * PI * IZR (kl / sz_nZeta s) / IZR (sz_nThetaEven s) in
  let p := 2 * PI * IZR (kl mod sz_nZeta s) / (IZR nfp * IZR (sz_nZeta s)) in
  let Phi := potential nfp mf nf (fun m n => bvec (mode_at mf nf m n))
               (fun m n => if lasym then bvec ((mf + 1) * (2 * nf + 1) + mode_at mf nf m n)%Z else 0) in
  dot (normal 1 F t p) (normal 1 F t p) <> 0 ->
  let g' := update s ztMin ztMax fullUpdate (vtab s b0) X sg g in
  let w' := vacuum_field s ztMin ztMax g' (covariant s (vtab s b0) mf nf ztMin ztMax bvec efU efV old) w in
  let B := from_cylindrical p (v_r w' kl) (v_phi w' kl) (v_z w' kl) in
  dot B (d_t F t p) = efU (kl - ztMin)%Z + Derive (fun t => Phi t p) t /\
  dot B (d_p F t p) = efV (kl - ztMin)%Z + Derive (fun p => Phi t p) p /\
  dot B (normal (IZR sg) F t p) = 0 /\ v_bsq w' kl = dot B B / 2.
Proof.
  intros lasym nfp mpol ntor ntheta nzeta mg ng s b0 ztMin ztMax fullUpdate X sg g bvec efU efV old w kl.
  intros E. pose proof (make_sizes_ok _ _ _ _ _ _ _ _ _ E) as OK.
  destruct (make_sizes_mnyq2 _ _ _ _ _ _ _ _ _ E) as [MQ _]. destruct (make_sizes_nfp _ _ _ _ _ _ _ _ _ E) as (E1 & E2 & E3 & E4).
  pose proof (so_mpol s OK). pose proof (so_ntor s OK). pose proof (so_pol s OK).
  clear E. subst lasym nfp mpol ntor. intros H1' H2' H3'.
  exact (field_val s OK MQ b0 (sz_mpol s + 1) (sz_ntor s) ltac:(lia) ltac:(lia) ztMin ztMax H1' H2' fullUpdate X g sg bvec efU efV old w kl H3').
Qed.
Lemma vac_ext_sizes : forall lasym nfp mpol ntor ntheta nzeta mg ng s b0 ztMin ztMax fullUpdate X sg g bvec rAxis zAxis cur br bp bz e old w kl,
  make_sizes lasym nfp mpol ntor ntheta nzeta mg ng = Some s ->
  (0 <= ztMin <= ztMax)%Z -> (ztMax <= sz_nZnT s)%Z -> (ztMin <= kl < ztMax)%Z ->
  let mf := (mpol + 1)%Z in let nf := ntor in
  let F := boundary lasym nfp mpol ntor X in
  let t := 2 * PI * IZR (kl / sz_nZeta s) / IZR (sz_nThetaEven s) in
  let p := 2 * PI * IZR (kl mod sz_nZeta s) / (IZR nfp * IZR (sz_nZeta s)) in
  let Phi := potential nfp mf nf (fun m n => bvec (mode_at mf nf m n))
               (fun m n => if lasym then bvec ((mf + 1) * (2 * nf + 1) + mode_at mf nf m n)%Z else 0) in
  dot (normal 1 F t p) (normal 1 F t p) <> 0 ->
  let g' := update s ztMin ztMax fullUpdate (vtab s b0) X sg g in
  let per := if (sz_nZeta s =? 1)%Z then 64%Z else nfp in
  let n := (sz_nZeta s * per)%Z in
  let v := axis_vertex (sz_nZeta s) per rAxis zAxis in
  (forall i, (0 <= i < n)%Z -> off_segment (v i) (v ((i + 1) mod n)%Z) (F t p)) ->
  let e' := ext_update s ztMin ztMax g' rAxis zAxis cur br bp bz e in
  let j := (kl - ztMin)%Z in
  let Be := total_field cur n v (F t p) p (br j) (bp j) (bz j) in
  let w' := vacuum_field s ztMin ztMax g' (covariant s (vtab s b0) mf nf ztMin ztMax bvec (e_bSubU e') (e_bSubV e') old) w in
  let B := from_cylindrical p (v_r w' kl) (v_phi w' kl) (v_z w' kl) in
  dot B (d_t F t p) = dot Be (d_t F t p) + Derive (fun t => Phi t p) t /\
  dot B (d_p F t p) = dot Be (d_p F t p) + Derive (fun p => Phi t p) p /\
  dot B (normal (IZR sg) F t p) = 0 /\ v_bsq w' kl = dot B B / 2.
Proof.
  intros lasym nfp mpol ntor ntheta nzeta mg ng s b0 ztMin ztMax fullUpdate X sg g bvec rAxis zAxis cur br bp bz e old w kl E H1 H2 H3.
  cbv zeta. intros HN OFF.
  destruct (ext_sizes _ _ _ _ _ _ _ _ s b0 ztMin ztMax fullUpdate X sg g rAxis zAxis cur br bp bz e kl E H1 H2 H3 OFF) as (A1 & A2 & _).
  rewrite <- A1, <- A2.
  exact (vac_sizes _ _ _ _ _ _ _ _ s b0 ztMin ztMax fullUpdate X sg g bvec _ _ old w kl E H1 H2 H3 HN).
Qed.
Lemma net_sizes : forall lasym nfp mpol ntor ntheta nzeta mg ng s b0 T sg bvec efU efV old Eu Ev order,
  make_sizes lasym nfp mpol ntor ntheta nzeta mg ng = Some s -> (1 <= T)%Z ->
  let mf := (mpol + 1)%Z in let nf := ntor in
  let lo t := fst (tangential_range (sz_nZnT s) T t) in
  let hi t := snd (tangential_range (sz_nZnT s) T t) in
  (forall t kl, (0 <= t < T)%Z -> (lo t <= kl < hi t)%Z -> efU t (kl - lo t)%Z = Eu kl) ->
  (forall t kl, (0 <= t < T)%Z -> (lo t <= kl < hi t)%Z -> efV t (kl - lo t)%Z = Ev kl) ->
  Permutation order (zrange 0 T) ->
  net_field (map (fun t => local_net s (vtab s b0) mf nf (lo t) (hi t) sg bvec (efU t) (efV t) (old t)) order) =
  (2 * PI * IZR sg * zsum 0 (sz_nZnT s) (fun kl => sz_wInt s (kl / sz_nZeta s) * Eu kl),
   zsum 0 (sz_nZnT s) (fun kl => sz_wInt s (kl / sz_nZeta s) * Ev kl)).
Proof.
  intros lasym nfp mpol ntor ntheta nzeta mg ng s b0 T sg bvec efU efV old Eu Ev order.
  intros E. pose proof (make_sizes_ok _ _ _ _ _ _ _ _ _ E) as OK.
  destruct (make_sizes_mnyq2 _ _ _ _ _ _ _ _ _ E) as [MQ _]. destruct (make_sizes_nfp _ _ _ _ _ _ _ _ _ E) as (E1 & E2 & E3 & E4).
  pose proof (so_mpol s OK). pose proof (so_ntor s OK). pose proof (so_pol s OK).
  clear E. subst lasym nfp mpol ntor. intros HT mf nf lo hi HU HV HP.
  exact (net_val s OK MQ b0 (sz_mpol s + 1) (sz_ntor s) ltac:(lia) ltac:(lia) ltac:(lia) T sg bvec efU efV old Eu Ev HT HU HV order HP).
Qed.
Lemma vac_case : exists s, make_sizes false 5 2 0 0 1 0 0 = Some s /\ sz_nZeta s = 1%Z /\
  let F := boundary false 5 2 0 torus in
  dot (normal 1 F 0 0) (normal 1 F 0 0) <> 0.
Proof.
  assert (EZ : option_map sz_nZeta (make_sizes false 5 2 0 0 1 0 0) = Some 1%Z) by reflexivity.
  destruct (make_sizes false 5 2 0 0 1 0 0) as [s|] eqn:E; [|discriminate EZ].
  cbn [option_map] in EZ. apply some_inj in EZ. symmetry in EZ. exists s. split; [reflexivity|].
  split; [exact EZ|]. cbv zeta.
  destruct (make_sizes_nfp _ _ _ _ _ _ _ _ _ E) as (E1 & E2 & E3 & E4).
  assert (EF : boundary false 5 2 0 torus = Fs s torus) by (unfold Fs, rD, zD, lz, boundary; rewrite E1, E2, E3, E4; reflexivity).
  rewrite EF.
  destruct (normal_comp (rD s torus) (zD s torus) (r_t s torus) (r_p s torus) (z_t s torus) (z_p s torus) 1 0 0) as (N1 & _ & _).
  assert (V : dot (normal 1 (Fs s torus) 0 0) (e_R 0) <> 0).
  { unfold Fs. rewrite N1.
    unfold rD, zD, serD, lz, SurfFinal.cf, z0. rewrite ?E1, ?E2, ?E3, ?E4.
    unfold zsum. change (zrange 0 (0 + 1)) with [0%Z]. change (zrange 0 2) with [0%Z; 1%Z].
    cbn [rsum]. unfold torus, bas. cbn [Z.mul Z.add Z.eqb Pos.eqb].
    rewrite !Rmult_0_r, cos_0, sin_0. unfold s2. cbn [Z.eqb].
    assert (0 < sqrt 2) by (apply sqrt_lt_R0; lra). nra. }
  revert V. set (w := normal 1 (Fs s torus) 0 0). intros V D. apply V. clear V. clearbody w. destruct w as [a b c].
  unfold dot in *. cbn [vx vy vz] in *. assert (a = 0) by nra. assert (b = 0) by nra. assert (c = 0) by nra. subst. ring.
Qed.
