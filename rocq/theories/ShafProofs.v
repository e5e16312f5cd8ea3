From Coq Require Import ZArith List Bool Reals Lia Lra.
From Verif Require Import Base BaseLemmas SizesModel JxbModel GeoModel ShafModel ShafSpec.
Open Scope R_scope.

Lemma loop_rel {S T} (Q : S -> T -> Prop) (f : Z -> S -> S) (f' : Z -> T -> T) lo hi a b :
  Q a b -> (forall k a b, (lo <= k < hi)%Z -> Q a b -> Q (f k a) (f' k b)) -> Q (for_up lo hi f a) (for_up lo hi f' b).
Proof.
  intros H0 HS. destruct (Z.le_gt_cases lo hi) as [L|L]; [|rewrite !for_up_empty by lia; exact H0].
  assert (G : forall n, (lo + Z.of_nat n <= hi)%Z -> Q (for_up lo (lo + Z.of_nat n) f a) (for_up lo (lo + Z.of_nat n) f' b)).
  { induction n as [|n IH]; intros Hn.
    - rewrite !for_up_empty by lia. exact H0.
    - replace (lo + Z.of_nat (Datatypes.S n))%Z with (lo + Z.of_nat n + 1)%Z by lia. rewrite !for_up_snoc by lia. apply HS; [lia|]. apply IH. lia. }
  specialize (G (Z.to_nat (hi - lo))). replace (lo + Z.of_nat (Z.to_nat (hi - lo)))%Z with hi in G by lia. apply G. lia.
Qed.
Definition q1 (c : R) (a b : R) : Prop := b = c * a.
Definition q3 (c1 c2 c3 : R) (a b : R * R * R) : Prop := fst (fst b) = c1 * fst (fst a) /\ snd (fst b) = c2 * snd (fst a) /\ snd b = c3 * snd a.
Definition qf (c : R) (a b : Z -> R) : Prop := forall i, b i = c * a i.
Lemma qf_upd c a b i x y : qf c a b -> y = c * x -> qf c (upd a i x) (upd b i y).
Proof. intros H E j. destruct (Z.eq_dec j i) as [->|N]; [rewrite !upd_eq; exact E|rewrite !upd_neq by exact N; apply H]. Qed.

Section P.
Variables (s : sizes) (ns : Z) (g : full_geo) (h : half_fields) (sg ds : R) (d : handover) (vac : bool) (L t : R).
Hypothesis HL : 0 < L. Hypothesis Ht : t <> 0.
Local Notation g' := (geo_units L g).
Local Notation h' := (half_units L t h).
Local Notation d' := (hand_units L t d).
Ltac inv := unfold Rdiv; rewrite ?Rinv_mult.

Lemma circ_sc : circum_p s ns g' = L * circum_p s ns g.
Proof.
  unfold circum_p. assert (E : q1 L (circumference_sum s ns g) (circumference_sum s ns g')).
  { unfold circumference_sum. apply loop_rel; [unfold q1; lra|]. intros k a b _ Q. unfold q1 in *. cbn [ruFull zuFull geo_units]. unfold sc. rewrite Q.
    set (u := ruFull g _). set (v := zuFull g _). replace (L * u * (L * u) + L * v * (L * v)) with (L * L * (u * u + v * v)) by ring.
    rewrite sqrt_mult_alt by nra. rewrite sqrt_square by lra. ring. }
  unfold q1 in E. rewrite E. ring.
Qed.
Lemma area_el_sc kl : surf_area s ns g' kl = L * L * surf_area s ns g kl.
Proof.
  unfold surf_area. cbn [ruFull zuFull r_e r_o rv_e rv_o zv_e zv_o geo_units]. unfold sc.
  match goal with |- ?w * sqrt ?x = L * L * (?w * sqrt ?y) => replace x with (L * L * (L * L) * y) by ring end.
  rewrite sqrt_mult_alt by nra. rewrite sqrt_square by nra. ring.
Qed.
Lemma area_sc : surf_area_p s ns g' = L * L * surf_area_p s ns g.
Proof.
  unfold surf_area_p.
  assert (E : q1 (L * L) (for_up 0 (sz_nZnT s) (fun kl acc => acc + surf_area s ns g kl) 0) (for_up 0 (sz_nZnT s) (fun kl acc => acc + surf_area s ns g' kl) 0)).
  { apply loop_rel; [unfold q1; lra|]. intros k a b _ Q. unfold q1 in *. rewrite Q, area_el_sc. ring. }
  unfold q1 in E. rewrite E. ring.
Qed.
Lemma sums_sc : fst (sums s ns g') = L * L * fst (sums s ns g) /\ snd (sums s ns g') = L * L * L * snd (sums s ns g).
Proof.
  unfold sums. apply (loop_rel (fun a b => fst b = L * L * fst a /\ snd b = L * L * L * snd a)); [cbn; split; lra|].
  intros k a b _ [Q1 Q2]. cbn [fst snd r_e r_o zu_e zu_o geo_units]. unfold sc. rewrite Q1, Q2. split; ring.
Qed.
Lemma Rabs_sc c x : 0 < c -> Rabs (c * x) = c * Rabs x.
Proof. intros H. rewrite Rabs_mult, (Rabs_right c) by lra. reflexivity. Qed.
Lemma L2 : 0 < L * L. Proof. nra. Qed.
Lemma L3 : 0 < L * L * L. Proof. pose proof L2. nra. Qed.
Lemma cross_sc : cross_area_p s ns g' = L * L * cross_area_p s ns g.
Proof. unfold cross_area_p. rewrite (proj1 sums_sc), Rabs_sc by apply L2. ring. Qed.
Lemma vol_sc : volume_p s ns g' = L * L * L * volume_p s ns g.
Proof. unfold volume_p. rewrite (proj2 sums_sc), Rabs_sc by apply L3. ring. Qed.
Lemma tau_sc jH kl : GeoModel.tau s h' sg jH kl = L * L * L * GeoModel.tau s h sg jH kl.
Proof. unfold GeoModel.tau. cbn. unfold sc. ring. Qed.
Lemma sump_sc : sump ns h' ds = t * t * (L * L * L) * sump ns h ds.
Proof.
  unfold sump.
  assert (E : q1 (t * t * (L * L * L)) (for_up 0 (ns - 1) (fun jH acc => acc + dVdsH h jH * presH h jH) 0) (for_up 0 (ns - 1) (fun jH acc => acc + dVdsH h' jH * presH h' jH) 0)).
  { apply loop_rel; [unfold q1; lra|]. intros k a b _ Q. unfold q1 in *. rewrite Q. cbn. unfold sc. ring. }
  unfold q1 in E. rewrite E. ring.
Qed.
Lemma fields_sc : q3 (t * t * (L * L * L)) (t * t * (L * L * L)) (t * t * (t * t) * (L * L * L)) (field_sums s ns h sg) (field_sums s ns h' sg).
Proof.
  unfold field_sums. apply loop_rel; [unfold q3; cbn; repeat split; lra|]. intros jH a b _ Q.
  match goal with |- q3 _ _ _ (fst ?x, _) (fst ?y, _) => set (X := x); set (Y := y) end.
  assert (I : q3 (t * t * (L * L * L)) (t * t * (L * L * L)) (t * t * (t * t) * (L * L * L)) X Y).
  { unfold X, Y. apply loop_rel; [exact Q|]. intros kl [[a1 a2] a3] [[b1 b2] b3] _ (Q1 & Q2 & Q3). unfold q3 in *. cbn [fst snd] in *. rewrite Q1, Q2, Q3, !tau_sc.
    cbn. unfold sc. repeat split; try ring. field. lra. }
  destruct I as (I1 & I2 & I3). unfold q3. cbn [fst snd]. rewrite I1, I2, I3. cbn. unfold sc. repeat split; ring.
Qed.
Lemma sumbtot_sc : sumbtot s ns h' sg ds = t * t * (L * L * L) * sumbtot s ns h sg ds.
Proof. unfold sumbtot. destruct fields_sc as (E & _ & _). rewrite E, sump_sc. ring. Qed.
Lemma sumbpol_sc : sumbpol s ns h' sg ds = t * t * (L * L * L) * sumbpol s ns h sg ds.
Proof. unfold sumbpol. rewrite sumbtot_sc. unfold sumbtor. destruct fields_sc as (_ & E & _). rewrite E. ring. Qed.
Lemma shaf_sc : q3 (t * t * (L * L * L)) (t * t * (L * L * L)) (t * t * (L * L)) (shaf_sums s ns h sg d) (shaf_sums s ns h' sg d').
Proof.
  unfold shaf_sums. apply loop_rel; [unfold q3; cbn; repeat split; lra|]. intros jH a b _ Q. apply loop_rel; [exact Q|].
  clear a b Q. intros kl [[a1 a2] a3] [[b1 b2] b3] _ (Q1 & Q2 & Q3). unfold q3 in *. cbn [fst snd] in *. rewrite Q1, Q2, Q3, !tau_sc.
  cbn [r12 bsupv total_pressure half_units rBtor hand_units]. unfold sc. inv. generalize (/ r12 h (jH * sz_nZnT s + kl)). intros q. repeat split; field; lra.
Qed.
Lemma rshaf_sc : rshaf s ns h' sg d' = L * rshaf s ns h sg d.
Proof. unfold rshaf. destruct shaf_sc as (_ & E1 & E2). rewrite E1, E2. inv. generalize (/ snd (shaf_sums s ns h sg d)). intros q. field. lra. Qed.
Lemma redge_sc kl : redge s ns g' kl = L * redge s ns g kl.
Proof. unfold redge. cbn. unfold sc. ring. Qed.
Lemma phat_sc : qf (t * t) (phat s ns g h d vac) (phat s ns g' h' d' vac).
Proof.
  unfold phat. destruct vac.
  - apply loop_rel; [intros i; lra|]. intros k a b _ Q. apply loop_rel; [exact Q|]. clear a b Q. intros l a b _ Q. apply qf_upd; [exact Q|].
    rewrite redge_sc. cbn [bSubVVac vac_p hand_units]. unfold sc. inv. generalize (/ redge s ns g (k * sz_nThetaEff s + l)). intros q. field. lra.
  - apply loop_rel; [intros i; lra|]. intros kl a b _ Q. apply qf_upd; [exact Q|].
    rewrite redge_sc. cbn [rBtor hand_units total_pressure half_units]. unfold sc. inv. generalize (/ redge s ns g kl). intros q. field. lra.
Qed.
Lemma bpol2_sc : qf (t * t) (bpol2vac s ns g h d vac) (bpol2vac s ns g' h' d' vac).
Proof.
  unfold bpol2vac. destruct vac.
  - apply loop_rel; [intros i; lra|]. intros l a b _ Q. apply loop_rel; [exact Q|]. clear a b Q. intros k a b _ Q. apply qf_upd; [exact Q|].
    cbn [vac_b_phi vac_p hand_units]. unfold sc. ring.
  - apply loop_rel; [intros i; lra|]. intros kl a b _ Q. apply qf_upd; [exact Q|].
    rewrite redge_sc. cbn [bsupv total_pressure half_units]. unfold sc. field. lra.
Qed.
Lemma bpol_area_sc : bpol_area s ns g' h' d' vac = t * t * (L * L) * bpol_area s ns g h d vac.
Proof.
  unfold bpol_area. apply (loop_rel (q1 (t * t * (L * L)))); [unfold q1; lra|]. intros kl a b _ Q. unfold q1 in *. rewrite Q, (bpol2_sc kl), area_el_sc. ring.
Qed.
Lemma factor_sc : factor s ns g' h' d' vac = / (t * t * (L * L * L)) * factor s ns g h d vac.
Proof.
  unfold factor, aminr1. rewrite bpol_area_sc, vol_sc, area_sc. inv. rewrite !Rinv_inv.
  generalize (/ volume_p s ns g) (/ bpol_area s ns g h d vac) (surf_area_p s ns g). intros x y z. pose proof PI_RGT_0. field. repeat split; lra.
Qed.
Lemma facnorm_sc : facnorm s ns g' h' d' vac = / (t * t * (L * L * L)) * facnorm s ns g h d vac.
Proof. unfold facnorm. rewrite factor_sc. ring. Qed.
Lemma sig_sc : q3 (/ L) 1 1 (sig s ns g h d vac) (sig s ns g' h' d' vac).
Proof.
  unfold sig. apply loop_rel; [unfold q3; cbn; repeat split; lra|]. intros kl [[a1 a2] a3] [[b1 b2] b3] _ (Q1 & Q2 & Q3). unfold q3 in *. cbn [fst snd] in *.
  rewrite Q1, Q2, Q3, !facnorm_sc, !redge_sc, !(phat_sc kl). cbn [z_e z_o zuFull ruFull geo_units]. unfold sc. repeat split; field; split; lra.
Qed.
Theorem units_all :
  factor s ns g' h' d' vac = / (t * t * (L * L * L)) * factor s ns g h d vac /\
  r_lao s ns g' = L * r_lao s ns g /\ rshaf s ns h' sg d' = L * rshaf s ns h sg d /\
  scaling_ratio s ns g' h' d' vac = scaling_ratio s ns g h d vac /\
  f_lao s ns g' h' sg d' = f_lao s ns g h sg d /\ f_geo s ns h' sg d' = f_geo s ns h sg d /\
  smaleli s ns g' h' sg ds d' vac = smaleli s ns g h sg ds d vac /\
  betai s ns g' h' ds d' vac = betai s ns g h ds d vac /\
  musubi s ns g' h' sg ds d' vac = musubi s ns g h sg ds d vac /\
  lambda s ns g' h' sg ds d' vac = lambda s ns g h sg ds d vac /\
  s11 s ns g' h' sg d' vac = s11 s ns g h sg d vac /\
  s12 s ns g' h' d' vac = s12 s ns g h d vac /\
  s13 s ns g' h' d' vac = s13 s ns g h d vac /\
  s2 s ns g' h' sg d' vac = s2 s ns g h sg d vac /\
  s3 s ns g' h' d' vac = s3 s ns g h d vac /\
  betstr s ns g' h' sg ds = betstr s ns g h sg ds.
Proof.
  pose proof PI_RGT_0 as PP. destruct sig_sc as (S0 & S1 & S2).
  assert (RL : r_lao s ns g' = L * r_lao s ns g).
  { unfold r_lao. rewrite vol_sc, cross_sc. inv. generalize (/ cross_area_p s ns g). intros q. field. lra. }
  split; [exact factor_sc|]. split; [exact RL|]. split; [exact rshaf_sc|].
  assert (SM : smaleli s ns g' h' sg ds d' vac = smaleli s ns g h sg ds d vac).
  { unfold smaleli. rewrite factor_sc, sumbpol_sc. field. split; lra. }
  assert (BI : betai s ns g' h' ds d' vac = betai s ns g h ds d vac).
  { unfold betai. rewrite factor_sc, sump_sc. field. split; lra. }
  repeat split.
  - unfold scaling_ratio. rewrite factor_sc, circ_sc, vol_sc. cbn [currv hand_units]. inv. generalize (/ circum_p s ns g). intros q. field. split; lra.
  - unfold f_lao. rewrite rshaf_sc, RL. inv. generalize (/ r_lao s ns g). intros q. field. lra.
  - unfold f_geo. rewrite rshaf_sc. cbn [rcen hand_units]. inv. generalize (/ rcen d). intros q. field. lra.
  - exact SM.
  - exact BI.
  - unfold musubi, musubi0. rewrite factor_sc. destruct shaf_sc as (E & _ & _). rewrite E. field. split; lra.
  - unfold lambda. rewrite SM, BI. reflexivity.
  - unfold s11, er, sigr0. rewrite S0, S1, S2, rshaf_sc. field. lra.
  - unfold s12, er, sigr0. rewrite S0, S1, S2. cbn [rcen hand_units]. field. lra.
  - unfold s13, er, sigr0. rewrite S0, S1, S2, RL. field. lra.
  - unfold s2, sigr0. rewrite S0, rshaf_sc. field. lra.
  - unfold s3, sigz1. rewrite S2. ring.
  - unfold betstr, sump2. destruct fields_sc as (_ & _ & E). rewrite E, sumbtot_sc, vol_sc.
    replace (vnorm ds * (t * t * (t * t) * (L * L * L) * snd (field_sums s ns h sg)) / (L * L * L * volume_p s ns g))
      with (t * t * (t * t) * (vnorm ds * snd (field_sums s ns h sg) / volume_p s ns g)).
    2:{ inv. generalize (/ volume_p s ns g). intros q. field. lra. }
    rewrite sqrt_mult_alt by nra. rewrite sqrt_square by nra. inv. rewrite !Rinv_inv.
    generalize (/ sumbtot s ns h sg ds). intros q. set (X := sqrt _). field. split; lra.
Qed.
End P.

(** Relations between the printed numbers *)
Lemma relations s ns g h sg ds d vac : rshaf s ns h sg d <> 0 -> rcen d <> 0 -> r_lao s ns g <> 0 -> sumbpol s ns h sg ds <> 0 ->
  s12 s ns g h d vac = s11 s ns g h sg d vac + s2 s ns g h sg d vac * (1 - / f_geo s ns h sg d) /\
  s13 s ns g h d vac = s11 s ns g h sg d vac + s2 s ns g h sg d vac * (1 - / f_lao s ns g h sg d) /\
  betai s ns g h ds d vac = betapol s ns h sg ds * smaleli s ns g h sg ds d vac.
Proof.
  intros H1 H2 H3 H4. unfold s12, s11, s13, s2, f_geo, f_lao, betai, betapol, smaleli. repeat split; field; auto.
Qed.

(** The vacuum field is read at the same grid point *)
Lemma pair_eq n k l k' l' : (0 <= l < n)%Z -> (0 <= l' < n)%Z -> (k * n + l = k' * n + l')%Z -> k = k' /\ l = l'.
Proof. intros Hl Hl' E. assert (k = k') by nia. split; [assumption|nia]. Qed.
Lemma fill2 (outer inner : Z) (idx : Z -> Z -> Z) (v : Z -> Z -> R) (a0 : Z -> R) :
  (forall i j i' j', (0 <= i < outer)%Z -> (0 <= j < inner)%Z -> (0 <= i' < outer)%Z -> (0 <= j' < inner)%Z -> idx i j = idx i' j' -> i = i' /\ j = j') ->
  forall i j, (0 <= i < outer)%Z -> (0 <= j < inner)%Z ->
  for_up 0 outer (fun i a => for_up 0 inner (fun j a => upd a (idx i j) (v i j)) a) a0 (idx i j) = v i j.
Proof.
  intros INJ i j Hi Hj.
  assert (G : forall i', (i < i' <= outer)%Z -> for_up 0 i' (fun i a => for_up 0 inner (fun j a => upd a (idx i j) (v i j)) a) a0 (idx i j) = v i j).
  { intros i' Hi'. apply (for_up_ind (fun m a => (i < m)%Z -> a (idx i j) = v i j)); [lia|lia| |lia].
    intros m a Hm IH CM. apply (for_up_ind (fun q b => ((m = i /\ j < q)%Z \/ (i < m)%Z) -> b (idx i j) = v i j)); [lia| | |lia].
    - intros [[_ C]|C]; [lia|apply IH; lia].
    - intros q b Hq IH2 C. destruct (Z.eq_dec (idx i j) (idx m q)) as [E|N].
      + destruct (INJ i j m q ltac:(lia) ltac:(lia) ltac:(lia) ltac:(lia) E) as [-> ->]. apply upd_eq.
      + rewrite upd_neq by exact N. apply IH2. destruct C as [[C1 C2]|C]; [|right; exact C]. subst m. left. split; [reflexivity|].
        assert (j <> q) by (intros ->; congruence). lia. }
  apply G. lia.
Qed.
Lemma vacuum_order s ns g h d k l : (0 <= k < sz_nZeta s)%Z -> (0 <= l < sz_nThetaEff s)%Z ->
  let kl := (k * sz_nThetaEff s + l)%Z in let lk := (l * sz_nZeta s + k)%Z in
  bpol2vac s ns g h d true kl = 2 * vac_p d lk - vac_b_phi d lk * vac_b_phi d lk /\
  phat s ns g h d true kl = vac_p d lk - / 2 * (bSubVVac d / redge s ns g kl) * (bSubVVac d / redge s ns g kl).
Proof.
  intros Hk Hl kl lk. split.
  - unfold bpol2vac. apply (fill2 (sz_nThetaEff s) (sz_nZeta s) (fun l k => k * sz_nThetaEff s + l)%Z (fun l k => 2 * vac_p d (l * sz_nZeta s + k) - vac_b_phi d (l * sz_nZeta s + k) * vac_b_phi d (l * sz_nZeta s + k))); auto.
    intros i j i' j' A1 A2 A3 A4 E. destruct (pair_eq _ _ _ _ _ A1 A3 E). auto.
  - unfold phat. transitivity (vac_p d lk - 5 / 10 * (bSubVVac d / redge s ns g kl) * (bSubVVac d / redge s ns g kl)); [|lra].
    apply (fill2 (sz_nZeta s) (sz_nThetaEff s) (fun k l => k * sz_nThetaEff s + l)%Z
      (fun k l => vac_p d (l * sz_nZeta s + k) - 5 / 10 * (bSubVVac d / redge s ns g (k * sz_nThetaEff s + l)) * (bSubVVac d / redge s ns g (k * sz_nThetaEff s + l)))); auto.
    intros i j i' j' A1 A2 A3 A4 E. destruct (pair_eq _ _ _ _ _ A2 A4 E). auto.
Qed.
