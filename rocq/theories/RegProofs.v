From Coq Require Import ZArith List Bool Reals Lia Lra.
From Verif Require Import Base BaseLemmas SumLemmas SizesModel DftTables SingSumModel SingSumProofs SurfModel RegModel.
Import ListNotations.
Open Scope R_scope.

Section G.
Variable s : sizes.
Variables ztMin ztMax : Z.
Variable g : surf.
Variable bDotN : Z -> R.
Local Notation nz := (sz_nZeta s).
Local Notation nT := (sz_nThetaEven s).
Local Notation nfp := (sz_nfp s).
Local Notation q := (sf_der g).
Local Notation rcosuv := (sf_rcosuv g).
Local Notation rsinuv := (sf_rsinuv g).
Local Notation r1b := (sf_sym g R1).
Local Notation z1b := (sf_sym g Z1).
Local Notation TN := (theta_by_nzeta s).
Hypothesis HZ : (1 <= nz)%Z.
Hypothesis HT : (1 <= nT)%Z.
Hypothesis Hz : (0 <= ztMin)%Z.
Hypothesis HTN : (ztMax <= TN)%Z.

(** Terms added at one pair of points. *)
Definition gval (klp kl : Z) : R := sf_rzb2 g klp + sf_rzb2 g kl - 2 * z1b kl * z1b klp.
Definition dval (klp kl : Z) : R := q Drv (klp - ztMin)%Z + z1b kl * q Snz (klp - ztMin)%Z.
Definition fval (c sn : R) (klp kl : Z) : R := 1 / (gval klp kl - 2 * (xper g c sn klp * rcosuv kl + yper g c sn klp * rsinuv kl)).
Definition dip (c sn : R) (klp kl : Z) : R :=
  sqrt (fval c sn klp kl) * fval c sn klp kl *
  (rcosuv kl * sxsave ztMin g c sn klp + rsinuv kl * sysave ztMin g c sn klp + dval klp kl).
Definition TU (klp kl : Z) : R := tanu s ((kl / nz - klp / nz + nT) mod nT)%Z.
Definition TV (klp kl : Z) : R := tanv s ((kl mod nz - klp mod nz + nz) mod nz)%Z.
Definition A1 klp kl := form1 g (klp - ztMin)%Z (TU klp kl) (TV klp kl).
Definition A2 klp kl := form2 g (klp - ztMin)%Z (TU klp kl) (TV klp kl).
Definition first_green klp kl := twopidivnfp s * (dip (cos_per s 0) (sin_per s 0) klp kl - 1 / sqrt (A1 klp kl) * (A2 klp kl / A1 klp kl)).
Definition bex klp := bDotN (klp - ztMin)%Z * sz_wInt s (klp / nz)%Z.
Definition first_store klp kl := bex klp * (twopidivnfp s * (sqrt (fval (cos_per s 0) (sin_per s 0) klp kl) - 1 / sqrt (A1 klp kl))).
Local Notation gi klp kl := (((klp - ztMin) * TN + kl)%Z).

Section C.
Variables (klp : Z) (gsave dsave : Z -> R) (kl_end : Z).
Hypothesis Hg : forall kl, (0 <= kl < TN)%Z -> gsave kl = gval klp kl.
Hypothesis Hd : forall kl, (0 <= kl < TN)%Z -> dsave kl = dval klp kl.
Hypothesis He : (kl_end <= TN)%Z.

Lemma chunk_spec st : (0 <= ch_kl st < kl_end)%Z ->
  let st' := chunk s ztMin g bDotN klp kl_end gsave dsave st in
  (ch_kl st < ch_kl st' <= kl_end)%Z /\
  (forall j, ch_green st' j = ch_green st j + zsum (ch_kl st) (ch_kl st') (fun kl => ind (gi klp kl) j * first_green klp kl)) /\
  (forall j, ch_gstore st' j = ch_gstore st j + zsum (ch_kl st) (ch_kl st') (fun kl => ind kl j * first_store klp kl)).
Proof.
  intros Hk. unfold chunk. cbv zeta. set (kl0 := ch_kl st) in *. set (l := (kl0 / nz)%Z). set (ks := (kl0 mod nz)%Z).
  set (ke := Z.min nz (kl_end - l * nz)).
  pose proof (Z.mod_pos_bound kl0 nz ltac:(lia)) as MB. fold ks in MB.
  pose proof (Z.div_mod kl0 nz ltac:(lia)) as DM. fold l ks in DM.
  assert (Hke : (ks < ke <= nz)%Z) by (unfold ke; nia).
  assert (Hke2 : (kl0 + (ke - ks) <= kl_end)%Z) by (unfold ke; nia).
  assert (ROW : forall k, (ks <= k < ke)%Z -> ((kl0 + (k - ks)) / nz = l /\ (kl0 + (k - ks)) mod nz = k)%Z).
  { intros k H. destruct (in_row nz HZ kl0 (k - ks)) as [X Y]; [unfold ks in *; lia|]. split; [exact X|rewrite Y; unfold ks; lia]. }
  assert (E1 : forall k, (ks <= k < ke)%Z ->
     form1 g (klp - ztMin) (tanu s ((l - klp / nz + nT) mod nT)) (tanv s ((k - klp mod nz + nz) mod nz)) = A1 klp (kl0 + (k - ks))).
  { intros k H. unfold A1, TU, TV. destruct (ROW k H) as [-> ->]. reflexivity. }
  assert (E2 : forall k, (ks <= k < ke)%Z ->
     form2 g (klp - ztMin) (tanu s ((l - klp / nz + nT) mod nT)) (tanv s ((k - klp mod nz + nz) mod nz)) = A2 klp (kl0 + (k - ks))).
  { intros k H. unfold A2, TU, TV. destruct (ROW k H) as [-> ->]. reflexivity. }
  (* loop 1 *)
  match goal with |- context [for_up ks ke ?B st] => set (st1 := for_up ks ke B st); assert (P1 : (forall k, (ks <= k < ke)%Z -> ch_ga1 st1 k = A1 klp (kl0 + (k - ks)) /\ ch_ga2 st1 k = A2 klp (kl0 + (k - ks))) /\ ch_green st1 = ch_green st /\ ch_gstore st1 = ch_gstore st) end.
  { unfold st1.
    apply (for_up_ind (fun i t => (forall k, (ks <= k < i)%Z -> ch_ga1 t k = A1 klp (kl0 + (k - ks)) /\ ch_ga2 t k = A2 klp (kl0 + (k - ks))) /\
       ch_green t = ch_green st /\ ch_gstore t = ch_gstore st)); [lia|split; [intros; lia|auto]|].
    intros j t Hj (P & Q & S). cbn [ch_ga1 ch_ga2 ch_green ch_gstore]. split; [|auto].
    intros k H. rewrite E1, E2 by lia. unfold upd. destruct (Z.eqb_spec k j) as [->|]; [auto|]. apply P. lia. }
  destruct P1 as (P1 & G1 & S1). clearbody st1.
  (* loop 2 *)
  match goal with |- context [for_up ks ke ?B st1] => set (st2 := for_up ks ke B st1); assert (P2 : (forall k, (ks <= k < ke)%Z -> ch_ga1 st2 k = 1 / sqrt (A1 klp (kl0 + (k - ks))) /\ ch_ga2 st2 k = A2 klp (kl0 + (k - ks)) / A1 klp (kl0 + (k - ks))) /\ ch_green st2 = ch_green st /\ ch_gstore st2 = ch_gstore st) end.
  { unfold st2.
    pose (I2 := fun (i : Z) (t : chunk_st) => (forall k, (ks <= k < i)%Z -> ch_ga1 t k = 1 / sqrt (A1 klp (kl0 + (k - ks))) /\ ch_ga2 t k = A2 klp (kl0 + (k - ks)) / A1 klp (kl0 + (k - ks))) /\
       (forall k, (i <= k < ke)%Z -> ch_ga1 t k = A1 klp (kl0 + (k - ks)) /\ ch_ga2 t k = A2 klp (kl0 + (k - ks))) /\
       ch_green t = ch_green st /\ ch_gstore t = ch_gstore st).
    assert (W : I2 ke st2).
    { unfold st2. apply (for_up_ind I2); unfold I2; [lia|split; [intros; lia|auto]|].
      intros j t Hj (P & Q & S1' & S2'). cbn [ch_ga1 ch_ga2 ch_green ch_gstore]. destruct (Q j ltac:(lia)) as [Q1 Q2].
      split; [|split; [|auto]].
      - intros k H. unfold upd. destruct (Z.eqb_spec k j) as [->|]; [rewrite Q1, Q2; auto|]. apply P. lia.
      - intros k H. unfold upd. destruct (Z.eqb_spec k j) as [->|]; [lia|]. apply Q. lia. }
    unfold I2 in W. unfold st2 in W. tauto. }
  destruct P2 as (P2 & G2 & S2). clearbody st2.
  (* loop 3 *)
  set (s2' := mkCh (ch_ga1 st2) (ch_ga2 st2) (ch_h st2) (ch_f st2) kl0 (ch_green st2) (ch_gstore st2)).
  match goal with |- context [for_up ks ke ?B s2'] => set (st3 := for_up ks ke B s2') end.
  pose (I3 := fun (i : Z) (t : chunk_st) => ch_kl t = (kl0 + (i - ks))%Z /\ (forall k, (ks <= k < i)%Z -> ch_f t k = fval (cos_per s 0) (sin_per s 0) klp (kl0 + (k - ks)) /\
       ch_h t k = sqrt (fval (cos_per s 0) (sin_per s 0) klp (kl0 + (k - ks)))) /\
       ch_ga1 t = ch_ga1 st2 /\ ch_ga2 t = ch_ga2 st2 /\ ch_green t = ch_green st /\ ch_gstore t = ch_gstore st).
  assert (P3 : I3 ke st3).
  { unfold st3. apply (for_up_ind I3); unfold I3; [lia|unfold s2'; cbn [ch_kl ch_ga1 ch_ga2 ch_green ch_gstore]; split; [lia|split; [intros; lia|auto]]|].
    intros j t Hj (K & P & Q1 & Q2 & Q3 & Q4). cbn [ch_kl ch_ga1 ch_ga2 ch_green ch_gstore ch_f ch_h].
    split; [lia|]. split; [|auto].
    intros k H. rewrite K. unfold upd. rewrite Z.eqb_refl.
    destruct (Z.eqb_spec k j) as [->|]; [|apply P; lia]. rewrite Hg by lia. split; reflexivity. }
  clearbody st3. unfold I3 in P3. destruct P3 as (_ & P3 & Q1 & Q2 & G3 & S3).
  (* loop 4 *)
  set (s3' := mkCh (ch_ga1 st3) (ch_ga2 st3) (ch_h st3) (ch_f st3) kl0 (ch_green st3) (ch_gstore st3)).
  match goal with |- context [for_up ks ke ?B s3'] => set (st4 := for_up ks ke B s3') end.
  pose (I4 := fun (i : Z) (t : chunk_st) => ch_kl t = (kl0 + (i - ks))%Z /\
       (forall k, ch_f t k = ch_f st3 k /\ ch_h t k = ch_h st3 k /\ ch_ga1 t k = ch_ga1 st3 k /\ ch_ga2 t k = ch_ga2 st3 k) /\
       (forall j, ch_green t j = ch_green st j + zsum kl0 (kl0 + (i - ks)) (fun kl => ind (gi klp kl) j * first_green klp kl)) /\
       (forall j, ch_gstore t j = ch_gstore st j + zsum kl0 (kl0 + (i - ks)) (fun kl => ind kl j * first_store klp kl))).
  assert (P4 : I4 ke st4).
  { unfold st4. apply (for_up_ind I4); unfold I4; [lia|unfold s3'; cbn [ch_kl ch_ga1 ch_ga2 ch_green ch_gstore ch_f ch_h]; split; [lia|split; [auto|]]|].
    - rewrite G3, S3. split; intros j; rewrite zsum_empty by lia; lra.
    - intros i t Hi (K & P & Q3 & Q4). cbn [ch_kl ch_ga1 ch_ga2 ch_green ch_gstore ch_f ch_h].
      destruct (P i) as (R1' & R2' & R3' & R4'). destruct (P3 i ltac:(lia)) as [F1 F2]. destruct (P2 i ltac:(lia)) as [F3 F4].
      rewrite R1', R2', R3', R4', Q1, Q2, F1, F2, F3, F4, K.
      split; [lia|]. split; [intros k; rewrite <- Q1, <- Q2; apply P|].
      split; intros j; rewrite add_at_ind; replace (kl0 + (i + 1 - ks))%Z with (kl0 + (i - ks) + 1)%Z by lia; rewrite zsum_snoc by lia.
      + rewrite Q3. rewrite Hd by lia. unfold first_green, dip. ring.
      + rewrite Q4. unfold first_store, bex. ring. }
  clearbody st4. unfold I4 in P4. destruct P4 as (K4 & _ & G4 & S4). rewrite K4. split; [lia|]. split; assumption.
Qed.

Lemma rounds_spec : forall fuel st, (0 <= ch_kl st)%Z -> (kl_end - ch_kl st <= Z.of_nat fuel)%Z ->
  let st' := rounds s ztMin g bDotN klp kl_end gsave dsave fuel st in
  (forall j, ch_green st' j = ch_green st j + zsum (ch_kl st) kl_end (fun kl => ind (gi klp kl) j * first_green klp kl)) /\
  (forall j, ch_gstore st' j = ch_gstore st j + zsum (ch_kl st) kl_end (fun kl => ind kl j * first_store klp kl)).
Proof.
  induction fuel as [|f IH]; intros st H0 Hf; cbn [rounds].
  - split; intros j; rewrite zsum_empty by lia; lra.
  - destruct (Z.ltb_spec (ch_kl st) kl_end) as [L|L].
    + destruct (chunk_spec st ltac:(lia)) as (K & G1 & S1).
      destruct (IH (chunk s ztMin g bDotN klp kl_end gsave dsave st) ltac:(lia) ltac:(lia)) as [G2 S2]. cbv zeta in *.
      split; intros j.
      * rewrite G2, G1. rewrite (zsum_split (ch_kl st) (ch_kl (chunk s ztMin g bDotN klp kl_end gsave dsave st)) kl_end) by lia. lra.
      * rewrite S2, S1. rewrite (zsum_split (ch_kl st) (ch_kl (chunk s ztMin g bDotN klp kl_end gsave dsave st)) kl_end) by lia. lra.
    + split; intros j; rewrite zsum_empty by lia; lra.
Qed.
Lemma do_loop_spec lo st : (0 <= lo)%Z ->
  let st' := do_loop s ztMin g bDotN klp lo kl_end gsave dsave st in
  (forall j, ch_green st' j = ch_green st j + zsum lo kl_end (fun kl => ind (gi klp kl) j * first_green klp kl)) /\
  (forall j, ch_gstore st' j = ch_gstore st j + zsum lo kl_end (fun kl => ind kl j * first_store klp kl)).
Proof.
  intros H. unfold do_loop. cbv zeta.
  apply (rounds_spec (Z.to_nat (kl_end - lo)) (mkCh (ch_ga1 st) (ch_ga2 st) (ch_h st) (ch_f st) lo (ch_green st) (ch_gstore st))); cbn [ch_kl]; lia.
Qed.
End C.

Lemma fill_get (v : Z -> R) N a kl : (0 <= kl < N)%Z -> for_up 0 N (fun kl a => upd a kl (v kl)) a kl = v kl.
Proof.
  intros H. unfold for_up.
  apply (local_assign (fun a : Z -> R => a) (fun a kl => upd a kl (v kl)) (fun i => i) v (zrange 0 N)) with (a := kl).
  - intros w i j _. reflexivity.
  - apply zrange_NoDup.
  - intros; assumption.
  - apply zrange_In; lia.
Qed.

Definition per_green klp p kl := twopidivnfp s * dip (cos_per s p) (sin_per s p) klp kl.
Definition per_store klp p kl := bex klp * (twopidivnfp s * sqrt (fval (cos_per s p) (sin_per s p) klp kl)).

Lemma other_spec klp gsave dsave gr gs :
  (forall kl, (0 <= kl < TN)%Z -> gsave kl = gval klp kl) -> (forall kl, (0 <= kl < TN)%Z -> dsave kl = dval klp kl) ->
  let r := other_periods s ztMin g bDotN klp gsave dsave (gr, gs) in
  (forall j, fst r j = gr j + zsum 1 nfp (fun p => zsum 0 TN (fun kl => ind (gi klp kl) j * per_green klp p kl))) /\
  (forall j, snd r j = gs j + zsum 1 nfp (fun p => zsum 0 TN (fun kl => ind kl j * per_store klp p kl))).
Proof.
  intros Hg Hd. unfold other_periods. cbv zeta.
  split; intros j.
  - change (gr j) with (fst (gr, gs) j).
    apply (for_up_delta (fun r : (Z -> R) * (Z -> R) => fst r j) _ (fun p => zsum 0 TN (fun kl => ind (gi klp kl) j * per_green klp p kl))).
    intros p st Hp.
    apply (for_up_delta (fun r : (Z -> R) * (Z -> R) => fst r j) _ (fun kl => ind (gi klp kl) j * per_green klp p kl)).
    intros kl [u v] Hkl. cbn [fst]. rewrite add_at_ind. rewrite Hg, Hd by assumption. unfold per_green, dip, fval. ring.
  - change (gs j) with (snd (gr, gs) j).
    apply (for_up_delta (fun r : (Z -> R) * (Z -> R) => snd r j) _ (fun p => zsum 0 TN (fun kl => ind kl j * per_store klp p kl))).
    intros p st Hp.
    apply (for_up_delta (fun r : (Z -> R) * (Z -> R) => snd r j) _ (fun kl => ind kl j * per_store klp p kl)).
    intros kl [u v] Hkl. cbn [snd]. rewrite add_at_ind. rewrite Hg by assumption. unfold per_store, fval, bex. ring.
Qed.

Definition pair_green klp kl := (if (kl =? klp)%Z then 0 else first_green klp kl) + zsum 1 nfp (fun p => per_green klp p kl).
Definition pair_store klp kl := (if (kl =? klp)%Z then 0 else first_store klp kl) + zsum 1 nfp (fun p => per_store klp p kl).

Lemma skip_self (f : Z -> R) klp : (0 <= klp < TN)%Z ->
  zsum 0 klp f + zsum (klp + 1) TN f = zsum 0 TN (fun kl => if (kl =? klp)%Z then 0 else f kl).
Proof.
  intros H. rewrite (zsum_split 0 klp TN (fun kl => if (kl =? klp)%Z then 0 else f kl)) by lia.
  rewrite (zsum_cons klp TN) by lia. rewrite Z.eqb_refl.
  rewrite (zsum_ext 0 klp f (fun kl => if (kl =? klp)%Z then 0 else f kl)) by (intros j Hj; destruct (Z.eqb_spec j klp); [lia|reflexivity]).
  rewrite (zsum_ext (klp + 1) TN f (fun kl => if (kl =? klp)%Z then 0 else f kl)) by (intros j Hj; destruct (Z.eqb_spec j klp); [lia|reflexivity]).
  lra.
Qed.

Lemma source_point_spec klp st j : (0 <= klp < TN)%Z ->
  let st' := source_point s ztMin g bDotN klp st in
  rg_greenp st' j = rg_greenp st j + zsum 0 TN (fun kl => ind (gi klp kl) j * pair_green klp kl) /\
  rg_gstore st' j = rg_gstore st j + zsum 0 TN (fun kl => ind kl j * pair_store klp kl).
Proof.
  intros Hk. unfold source_point. cbv zeta.
  set (gsave := fill_gsave s g klp (rg_gsave st)). set (dsave := fill_dsave s ztMin g klp (rg_dsave st)).
  assert (Hg : forall kl, (0 <= kl < TN)%Z -> gsave kl = gval klp kl) by (intros; apply (fill_get (gval klp)); assumption).
  assert (Hd : forall kl, (0 <= kl < TN)%Z -> dsave kl = dval klp kl) by (intros; apply (fill_get (dval klp)); assumption).
  set (c0 := mkCh _ _ _ _ _ _ _).
  destruct (do_loop_spec klp gsave dsave klp Hg Hd ltac:(lia) 0 c0 ltac:(lia)) as [G1 S1].
  set (c1 := do_loop s ztMin g bDotN klp 0 klp gsave dsave c0) in *.
  destruct (do_loop_spec klp gsave dsave TN Hg Hd ltac:(lia) (klp + 1) c1 ltac:(lia)) as [G2 S2].
  set (c2 := do_loop s ztMin g bDotN klp (klp + 1) TN gsave dsave c1) in *.
  destruct (other_spec klp gsave dsave (ch_green c2) (ch_gstore c2) Hg Hd) as [G3 S3].
  destruct (other_periods _ _ _ _ _ _ _ _) as [gr gs]. cbn [fst snd rg_greenp rg_gstore] in *.
  cbv zeta in *. split.
  - rewrite G3, G2, G1. cbn [c0 ch_green].
    rewrite <- (Rplus_assoc _ _ (zsum (klp + 1) TN _)) || idtac.
    transitivity (rg_greenp st j + (zsum 0 klp (fun kl => ind (gi klp kl) j * first_green klp kl) + zsum (klp + 1) TN (fun kl => ind (gi klp kl) j * first_green klp kl))
      + zsum 1 nfp (fun p => zsum 0 TN (fun kl => ind (gi klp kl) j * per_green klp p kl))); [unfold c0; cbn [ch_green]; ring|].
    rewrite skip_self by assumption. rewrite zsum_swap, Rplus_assoc, <- zsum_plus. f_equal. apply zsum_ext. intros kl _.
    unfold pair_green. rewrite zsum_scale. destruct (Z.eqb_spec kl klp); ring.
  - rewrite S3, S2, S1.
    transitivity (rg_gstore st j + (zsum 0 klp (fun kl => ind kl j * first_store klp kl) + zsum (klp + 1) TN (fun kl => ind kl j * first_store klp kl))
      + zsum 1 nfp (fun p => zsum 0 TN (fun kl => ind kl j * per_store klp p kl))); [unfold c0; cbn [ch_gstore]; ring|].
    rewrite skip_self by assumption. rewrite zsum_swap, Rplus_assoc, <- zsum_plus. f_equal. apply zsum_ext. intros kl _.
    unfold pair_store. rewrite zsum_scale. destruct (Z.eqb_spec kl klp); ring.
Qed.

Lemma ind_pick (f : Z -> R) N kl : (0 <= kl < N)%Z -> zsum 0 N (fun j => ind j kl * f j) = f kl.
Proof.
  intros H. rewrite (zsum_single 0 N kl); [|assumption|intros j _ N0; unfold ind; destruct (Z.eqb_spec j kl); [contradiction|lra]].
  unfold ind. rewrite Z.eqb_refl. lra.
Qed.

Lemma update_3d st klp kl : nz <> 1%Z -> (ztMin <= klp < ztMax)%Z -> (0 <= kl < TN)%Z ->
  let st' := reg_update s ztMin ztMax g bDotN st in
  rg_greenp st' (gi klp kl) = pair_green klp kl /\
  rg_gstore st' kl = zsum ztMin ztMax (fun klp => pair_store klp kl).
Proof.
  intros Hn Hk Hkl. unfold reg_update. replace (nz =? 1)%Z with false by (symmetry; apply Z.eqb_neq; assumption). cbv zeta.
  set (st0 := mkReg _ _ _ _).
  assert (D : forall j p t, (ztMin <= p < ztMax)%Z ->
     rg_greenp (source_point s ztMin g bDotN p t) j = rg_greenp t j + zsum 0 TN (fun kl => ind (gi p kl) j * pair_green p kl) /\
     rg_gstore (source_point s ztMin g bDotN p t) j = rg_gstore t j + zsum 0 TN (fun kl => ind kl j * pair_store p kl)).
  { intros j p t Hp. apply source_point_spec. lia. }
  split.
  - rewrite (for_up_delta (fun t => rg_greenp t (gi klp kl)) (source_point s ztMin g bDotN)
      (fun p => zsum 0 TN (fun k => ind (gi p k) (gi klp kl) * pair_green p k)) ztMin ztMax (fun p t H => proj1 (D _ p t H)) st0).
    unfold st0. cbn [rg_greenp]. rewrite Rplus_0_l.
    rewrite (zsum_single ztMin ztMax klp); [|assumption|].
    + rewrite (zsum_single 0 TN kl); [|assumption|].
      * unfold ind. rewrite Z.eqb_refl. lra.
      * intros k H N0. unfold ind. destruct (Z.eqb_spec (gi klp k) (gi klp kl)); [lia|lra].
    + intros p Hp N0. apply zsum_zero. intros k H. unfold ind. destruct (Z.eqb_spec (gi p k) (gi klp kl)) as [E|E]; [|lra].
      exfalso. apply flat_inj in E; lia.
  - rewrite (for_up_delta (fun t => rg_gstore t kl) (source_point s ztMin g bDotN)
      (fun p => zsum 0 TN (fun k => ind k kl * pair_store p k)) ztMin ztMax (fun p t H => proj2 (D _ p t H)) st0).
    unfold st0. cbn [rg_gstore]. rewrite Rplus_0_l. apply zsum_ext. intros p _. apply ind_pick. assumption.
Qed.

(** Axisymmetric branch. *)
Local Notation NV := kAxisymmetricToroidalImages.
Definition mea : R := 2 * PI / IZR NV.
Definition B1 klp p kl := form1 g (klp - ztMin)%Z (tanu s ((kl - klp + nT) mod nT)) (tanv_per p).
Definition B2 klp p kl := form2 g (klp - ztMin)%Z (tanu s ((kl - klp + nT) mod nT)) (tanv_per p).
Definition axi_green klp kl := zsum 0 NV (fun p => if ((p =? 0)%Z && (kl =? klp)%Z)%bool then 0 else
  mea * (dip (cos (mea * IZR p)) (sin (mea * IZR p)) klp kl - 1 / sqrt (B1 klp p kl) * (B2 klp p kl / B1 klp p kl))).
Definition axi_store klp kl := zsum 0 NV (fun p => if ((p =? 0)%Z && (kl =? klp)%Z)%bool then 0 else
  bDotN (klp - ztMin)%Z * sz_wInt s klp * mea * (sqrt (fval (cos (mea * IZR p)) (sin (mea * IZR p)) klp kl) - 1 / sqrt (B1 klp p kl))).

Lemma axi_point_spec klp st j :
  let st' := axi_point s ztMin g bDotN klp st in
  rg_greenp st' j = rg_greenp st j + zsum 0 nT (fun kl => ind ((klp - ztMin) * nT + kl)%Z j * axi_green klp kl) /\
  rg_gstore st' j = rg_gstore st j + zsum 0 nT (fun kl => ind kl j * axi_store klp kl).
Proof.
  unfold axi_point. cbv zeta.
  match goal with |- context [for_up 0 nT ?B (rg_gsave st)] => set (gsave := for_up 0 nT B (rg_gsave st)) end.
  match goal with |- context [for_up 0 nT ?B (rg_dsave st)] => set (dsave := for_up 0 nT B (rg_dsave st)) end.
  assert (Hg : forall kl, (0 <= kl < nT)%Z -> gsave kl = gval klp kl) by (intros; apply (fill_get (gval klp)); assumption).
  assert (Hd : forall kl, (0 <= kl < nT)%Z -> dsave kl = dval klp kl) by (intros; apply (fill_get (dval klp)); assumption).
  match goal with |- context [for_up 0 NV ?B ?S0] => set (bd := B); set (s0 := S0) end.
  assert (GG : fst (for_up 0 NV bd s0) j = fst s0 j + zsum 0 NV (fun p => zsum 0 nT (fun kl => ind ((klp - ztMin) * nT + kl)%Z j *
     (if ((p =? 0)%Z && (kl =? klp)%Z)%bool then 0 else mea * (dip (cos (mea * IZR p)) (sin (mea * IZR p)) klp kl - 1 / sqrt (B1 klp p kl) * (B2 klp p kl / B1 klp p kl)))))).
  { apply (for_up_delta (fun r : (Z -> R) * (Z -> R) => fst r j) bd). intros p t Hp. unfold bd.
    apply (for_up_delta (fun r : (Z -> R) * (Z -> R) => fst r j) _ (fun kl => ind ((klp - ztMin) * nT + kl)%Z j *
     (if ((p =? 0)%Z && (kl =? klp)%Z)%bool then 0 else mea * (dip (cos (mea * IZR p)) (sin (mea * IZR p)) klp kl - 1 / sqrt (B1 klp p kl) * (B2 klp p kl / B1 klp p kl))))).
    intros kl [u v] Hkl. destruct ((p =? 0)%Z && (kl =? klp)%Z)%bool; cbn [fst]; [lra|]. rewrite add_at_ind.
    rewrite Hg, Hd by assumption. unfold dip, fval, B1, B2, mea. ring. }
  assert (SS : snd (for_up 0 NV bd s0) j = snd s0 j + zsum 0 NV (fun p => zsum 0 nT (fun kl => ind kl j *
     (if ((p =? 0)%Z && (kl =? klp)%Z)%bool then 0 else bDotN (klp - ztMin)%Z * sz_wInt s klp * mea * (sqrt (fval (cos (mea * IZR p)) (sin (mea * IZR p)) klp kl) - 1 / sqrt (B1 klp p kl)))))).
  { apply (for_up_delta (fun r : (Z -> R) * (Z -> R) => snd r j) bd). intros p t Hp. unfold bd.
    apply (for_up_delta (fun r : (Z -> R) * (Z -> R) => snd r j) _ (fun kl => ind kl j *
     (if ((p =? 0)%Z && (kl =? klp)%Z)%bool then 0 else bDotN (klp - ztMin)%Z * sz_wInt s klp * mea * (sqrt (fval (cos (mea * IZR p)) (sin (mea * IZR p)) klp kl) - 1 / sqrt (B1 klp p kl))))).
    intros kl [u v] Hkl. destruct ((p =? 0)%Z && (kl =? klp)%Z)%bool; cbn [snd]; [lra|]. rewrite add_at_ind.
    rewrite Hg by assumption. unfold fval, B1, mea. ring. }
  destruct (for_up 0 NV bd s0) as [gr gs]. cbn [fst snd rg_greenp rg_gstore] in *. rewrite GG, SS.
  split; (rewrite zsum_swap; f_equal; apply zsum_ext; intros kl _; rewrite zsum_scale; reflexivity).
Qed.

Lemma update_axi st klp kl : nz = 1%Z -> (ztMin <= klp < ztMax)%Z -> (0 <= kl < nT)%Z ->
  let st' := reg_update s ztMin ztMax g bDotN st in
  rg_greenp st' ((klp - ztMin) * nT + kl)%Z = axi_green klp kl /\
  rg_gstore st' kl = zsum ztMin ztMax (fun klp => axi_store klp kl).
Proof.
  intros Hn Hk Hkl. unfold reg_update. replace (nz =? 1)%Z with true by (symmetry; apply Z.eqb_eq; assumption). cbv zeta.
  set (st0 := mkReg _ _ _ _).
  pose proof (fun j p t => axi_point_spec p t j) as D. cbv zeta in D.
  split.
  - rewrite (for_up_delta (fun t => rg_greenp t ((klp - ztMin) * nT + kl)%Z) (axi_point s ztMin g bDotN)
      (fun p => zsum 0 nT (fun k => ind ((p - ztMin) * nT + k)%Z ((klp - ztMin) * nT + kl)%Z * axi_green p k)) ztMin ztMax (fun p t H => proj1 (D _ p t)) st0).
    unfold st0. cbn [rg_greenp]. rewrite Rplus_0_l.
    rewrite (zsum_single ztMin ztMax klp); [|assumption|].
    + rewrite (zsum_single 0 nT kl); [|assumption|].
      * unfold ind. rewrite Z.eqb_refl. lra.
      * intros k H N0. unfold ind. destruct (Z.eqb_spec ((klp - ztMin) * nT + k) ((klp - ztMin) * nT + kl)); [lia|lra].
    + intros p Hp N0. apply zsum_zero. intros k H. unfold ind.
      destruct (Z.eqb_spec ((p - ztMin) * nT + k) ((klp - ztMin) * nT + kl)) as [E|E]; [|lra].
      exfalso. apply flat_inj in E; lia.
  - rewrite (for_up_delta (fun t => rg_gstore t kl) (axi_point s ztMin g bDotN)
      (fun p => zsum 0 nT (fun k => ind k kl * axi_store p k)) ztMin ztMax (fun p t H => proj2 (D _ p t)) st0).
    unfold st0. cbn [rg_gstore]. rewrite Rplus_0_l. apply zsum_ext. intros p _. apply ind_pick. assumption.
Qed.
End G.
