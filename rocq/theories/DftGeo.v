(** Geometry on the whole grid: 3D, axisymmetric and lasym cases combined, and
    the derivatives of the series. *)
From Coq Require Import ZArith List Bool Reals Lia Lra.
From Verif Require Import Base BaseLemmas SumLemmas SizesModel FourierModel FourierSpec FourierProofs TrigSums
  PartModel DftModel DftSpec DftTables DftProofs.
Import ListNotations.
Open Scope R_scope.

Lemma pt_split nZ nE j k l : ((j * nZ + k) * nE + l = j * (nZ * nE) + (k * nE + l))%Z.
Proof. ring. Qed.
Lemma kl_bound nZ nE k l : (0 <= k < nZ)%Z -> (0 <= l < nE)%Z -> (0 <= k * nE + l < nZ * nE)%Z.
Proof. nia. Qed.

Section Rev.
Variable s : sizes.
Hypothesis OK : sz_ok s.
Hypothesis LA : sz_lasym s = true.
Local Notation nZeta := (sz_nZeta s).
Local Notation nTR := (sz_nThetaReduced s).
Local Notation nTE := (sz_nThetaEff s).
Local Notation nT := (sz_nThetaEven s).
Lemma la_nTE : nTE = nT. Proof. rewrite (so_nTE s OK), LA. reflexivity. Qed.

Definition comb (ev : bool) (a b : R) : R := if ev then a - b else - a + b.
Definition symF (ev : bool) (off : Z) (asym : Z -> R) (j : Z) (a : Z -> R) (i : Z) : R :=
  let base := ((j - off) * sz_nZnT s)%Z in
  let k := ((i - base) / nTE)%Z in let l := ((i - base) mod nTE)%Z in
  let iR := (base + ((nZeta - k) mod nZeta) * nTE + (nT - l))%Z in
  if (l <? nTR)%Z then a i + asym i else comb ev (a iR) (asym iR).

Lemma symrzl1_at ev off lo hi a asym j k l : (lo <= j < hi)%Z -> (0 <= k < nZeta)%Z -> (0 <= l < nT)%Z ->
  symrzl1 s ev off lo hi a asym (at_pt s (j - off) k l) =
  let iR := at_pt s (j - off) ((nZeta - k) mod nZeta) (nT - l) in
  if (l <? nTR)%Z then a (at_pt s (j - off) k l) + asym (at_pt s (j - off) k l)
  else comb ev (a iR) (asym iR).
Proof.
  intros Hj Hk Hl. assert (E := la_nTE). assert (NZ := so_nZnT s OK). assert (H2 := so_nTR s OK).
  assert (HT := so_nT s OK). assert (Z1 := so_nZeta s OK).
  assert (P : (0 < sz_nZnT s)%Z) by (rewrite NZ; nia).
  set (blk := fun i => (i / sz_nZnT s + off)%Z).
  assert (BK : forall j' r, (0 <= r < sz_nZnT s)%Z -> blk ((j' - off) * sz_nZnT s + r)%Z = j').
  { intros j' r Hr. unfold blk. rewrite Z.div_add_l by lia. rewrite Z.div_small by lia. lia. }
  assert (BI : forall i j', blk i = j' -> exists k l, (0 <= k < nZeta /\ 0 <= l < nTE /\ i = (j' - off) * sz_nZnT s + k * nTE + l)%Z).
  { intros i j' Hb. unfold blk in Hb.
    exists ((i mod sz_nZnT s) / nTE)%Z, ((i mod sz_nZnT s) mod nTE)%Z.
    assert (A := Z.mod_pos_bound i (sz_nZnT s) P). assert (B := Z.mod_pos_bound (i mod sz_nZnT s) nTE ltac:(lia)).
    assert (C := Z_div_mod_eq_full i (sz_nZnT s)). assert (D := Z_div_mod_eq_full (i mod sz_nZnT s) nTE).
    repeat split; try lia.
    - apply Z.div_pos; lia.
    - apply Z.div_lt_upper_bound; [lia|]. rewrite Z.mul_comm, <- NZ. lia. }
  assert (body : forall j' (a : Z -> R) k l, (0 <= k < nZeta)%Z -> (0 <= l < nTE)%Z ->
    let base := ((j' - off) * sz_nZnT s)%Z in
    let a1 := for_up 0 nZeta (fun k a => for_up nTR nT (fun l a =>
        upd a (base + k * nTE + l)%Z (comb ev (a (base + ((nZeta - k) mod nZeta) * nTE + (nT - l))%Z) (asym (base + ((nZeta - k) mod nZeta) * nTE + (nT - l))%Z))) a) a in
    let a2 := for_up 0 nZeta (fun k a => for_up 0 nTR (fun l a => upd a (base + k * nTE + l)%Z (a (base + k * nTE + l)%Z + asym (base + k * nTE + l)%Z)) a) a1 in
    a2 (base + k * nTE + l)%Z = (if (l <? nTR)%Z then a (base + k * nTE + l)%Z + asym (base + k * nTE + l)%Z
      else comb ev (a (base + ((nZeta - k) mod nZeta) * nTE + (nT - l))%Z) (asym (base + ((nZeta - k) mod nZeta) * nTE + (nT - l))%Z)) /\
    (forall i, (forall k l, (0 <= k < nZeta)%Z -> (0 <= l < nTE)%Z -> i <> (base + k * nTE + l)%Z) -> a2 i = a i)).
  { clear k l Hk Hl a. intros j' a k l Hk Hl base a1 a2.
    set (w := fun q : Z * Z => (base + fst q * nTE + snd q)%Z).
    set (r := fun q : Z * Z => (base + ((nZeta - fst q) mod nZeta) * nTE + (nT - snd q))%Z).
    assert (WI : forall q q', (0 <= snd q < nTE)%Z -> (0 <= snd q' < nTE)%Z -> w q = w q' -> q = q').
    { intros [q1 q2] [r1 r2]. unfold w. cbn [fst snd]. intros A B C.
      destruct (flat_inj nTE q1 q2 r1 r2); [lia|lia|lia|]. subst; reflexivity. }
    assert (E1 : a1 = fold_left (fun a q => upd a (w q) ((fun q v => comb ev v (asym (r q))) q (a (r q)))) (pairs 0 nZeta nTR nT) a).
    { unfold a1. rewrite (for_up_pairs (fun k l (a : Z -> R) =>
        upd a (base + k * nTE + l)%Z (comb ev (a (base + ((nZeta - k) mod nZeta) * nTE + (nT - l))%Z) (asym (base + ((nZeta - k) mod nZeta) * nTE + (nT - l))%Z)))).
      reflexivity. }
    assert (E2 : a2 = fold_left (fun a q => upd a (w q) ((fun q v => v + asym (w q)) q (a (w q)))) (pairs 0 nZeta 0 nTR) a1).
    { unfold a2. rewrite (for_up_pairs (fun k l (a : Z -> R) => upd a (base + k * nTE + l)%Z (a (base + k * nTE + l)%Z + asym (base + k * nTE + l)%Z))).
      reflexivity. }
    destruct (gather_loop w r (fun q v => comb ev v (asym (r q))) (pairs 0 nZeta nTR nT) (pairs_NoDup _ _ _ _)) with (a0 := a) as [A1 A2].
    { intros [x1 x2] [y1 y2] Hx Hy Ew. apply pairs_In in Hx, Hy. apply WI; cbn [snd]; [lia|lia|exact Ew]. }
    { intros [x1 x2] [y1 y2] Hx Hy _ Ew. apply pairs_In in Hx, Hy. unfold r, w in Ew. cbn [fst snd] in Ew.
      destruct (flat_inj nTE ((nZeta - x1) mod nZeta) (nT - x2) y1 y2); lia. }
    destruct (gather_loop w w (fun q v => v + asym (w q)) (pairs 0 nZeta 0 nTR) (pairs_NoDup _ _ _ _)) with (a0 := a1) as [B1 B2].
    { intros [x1 x2] [y1 y2] Hx Hy Ew. apply pairs_In in Hx, Hy. apply WI; cbn [snd]; [lia|lia|exact Ew]. }
    { intros [x1 x2] [y1 y2] Hx Hy Hn Ew. apply pairs_In in Hx, Hy. apply Hn. apply WI; cbn [snd]; [lia|lia|exact Ew]. }
    rewrite <- E1 in A1, A2. rewrite <- E2 in B1, B2. split.
    - change (base + k * nTE + l)%Z with (w (k, l)). destruct (Z.ltb_spec l nTR).
      + rewrite B1 by (apply pairs_In; lia). rewrite A2; [reflexivity|].
        intros [x1 x2] Hx Ew. apply pairs_In in Hx. apply WI in Ew; cbn [snd]; try lia. injection Ew as -> ->. lia.
      + rewrite B2. 2:{ intros [x1 x2] Hx Ew. apply pairs_In in Hx. apply WI in Ew; cbn [snd]; try lia. injection Ew as -> ->. lia. }
        rewrite A1 by (apply pairs_In; lia). reflexivity.
    - intros i Hi. rewrite B2, A2; [reflexivity| |].
      + intros [x1 x2] Hx Ew. apply pairs_In in Hx. apply (Hi x1 x2); [lia|lia|]. symmetry. exact Ew.
      + intros [x1 x2] Hx Ew. apply pairs_In in Hx. apply (Hi x1 x2); [lia|lia|]. symmetry. exact Ew. }
  unfold symrzl1.
  assert (FP : forall j' a k l, (0 <= k < nZeta)%Z -> (0 <= l < nTE)%Z ->
    symF ev off asym j' a ((j' - off) * sz_nZnT s + k * nTE + l)%Z =
    if (l <? nTR)%Z then a ((j' - off) * sz_nZnT s + k * nTE + l)%Z + asym ((j' - off) * sz_nZnT s + k * nTE + l)%Z
    else comb ev (a ((j' - off) * sz_nZnT s + ((nZeta - k) mod nZeta) * nTE + (nT - l))%Z) (asym ((j' - off) * sz_nZnT s + ((nZeta - k) mod nZeta) * nTE + (nT - l))%Z)).
  { intros j' a' k' l' Hk' Hl'. unfold symF. cbv zeta.
    replace ((j' - off) * sz_nZnT s + k' * nTE + l' - (j' - off) * sz_nZnT s)%Z with (l' + k' * nTE)%Z by lia.
    rewrite Z.div_add, Z.mod_add, Z.div_small, Z.mod_small by lia. reflexivity. }
  rewrite (block_loop _ blk (fun j' => symF ev off asym j')).
  - assert (at_pt s (j - off) k l = (j - off) * sz_nZnT s + k * nTE + l)%Z as AP by (unfold at_pt; rewrite NZ; ring).
    rewrite AP. replace (blk ((j - off) * sz_nZnT s + k * nTE + l)%Z) with j.
    + rewrite FP by lia. cbv zeta. 
      assert (at_pt s (j - off) ((nZeta - k) mod nZeta) (nT - l) = (j - off) * sz_nZnT s + ((nZeta - k) mod nZeta) * nTE + (nT - l))%Z as AR by (unfold at_pt; rewrite NZ; ring).
      rewrite AR. reflexivity.
    + symmetry. rewrite <- Z.add_assoc. apply BK. rewrite NZ. apply kl_bound; lia.
  - intros j' a' i Hj' Hb. apply (body j' a' 0%Z 0%Z); [lia|lia|].
    intros k' l' Hk' Hl' Ei. apply Hb. rewrite Ei, <- Z.add_assoc. apply BK. rewrite NZ. apply kl_bound; lia.
  - intros j' a' i Hj' Hb. destruct (BI i j' Hb) as (k' & l' & Hk' & Hl' & ->). rewrite FP by lia.
    apply (body j' a' k' l'); lia.
  - intros j' a' a2 i Hj' Hb Ha. destruct (BI i j' Hb) as (k' & l' & Hk' & Hl' & ->). rewrite !FP by lia.
    destruct (Z.ltb_spec l' nTR).
    + rewrite Ha by exact Hb. reflexivity.
    + rewrite (Ha ((j' - off) * sz_nZnT s + ((nZeta - k') mod nZeta) * nTE + (nT - l'))%Z); [reflexivity|].
      rewrite <- Z.add_assoc. apply BK. rewrite NZ. apply kl_bound; [apply Z.mod_pos_bound|]; lia.
  - unfold at_pt. rewrite pt_split, <- NZ. rewrite BK; [lia|]. rewrite NZ. apply kl_bound; lia.
Qed.
End Rev.

(** ** Derivatives of the series *)
Lemma d_rsum {A} (L : list A) (f : A -> R -> R) (d : A -> R) x :
  (forall a, In a L -> derivable_pt_lim (f a) x (d a)) ->
  derivable_pt_lim (fun t => rsum L (fun a => f a t)) x (rsum L d).
Proof.
  induction L as [|a L IH]; intros H; cbn [rsum].
  - apply derivable_pt_lim_const.
  - apply (derivable_pt_lim_plus (f a) (fun t => rsum L (fun a => f a t))).
    + apply H. left; reflexivity.
    + apply IH. intros; apply H; right; assumption.
Qed.
Lemma d_ext f g x d : (forall t, f t = g t) -> derivable_pt_lim f x d -> derivable_pt_lim g x d.
Proof.
  intros E H eps He. destruct (H eps He) as [del Hd]. exists del. intros h H1 H2.
  rewrite <- !E. apply Hd; assumption.
Qed.
Lemma d_scal c f x d : derivable_pt_lim f x d -> derivable_pt_lim (fun t => c * f t) x (c * d).
Proof. intros H. apply (derivable_pt_lim_scal f c x d H). Qed.
Lemma d_lin f a x d : derivable_pt_lim f (a * x) d -> derivable_pt_lim (fun t => f (a * t)) x (a * d).
Proof.
  intros H. assert (L : derivable_pt_lim (fun t => a * t) x (a * 1)) by (apply d_scal; apply derivable_pt_lim_id).
  assert (G := derivable_pt_lim_comp (fun t => a * t) f x (a * 1) d L H).
  replace (a * d) with (d * (a * 1)) by ring. exact G.
Qed.
Lemma d_theta_fun b x : derivable_pt_lim (in_theta b) x (d_in_theta b x).
Proof. destruct b; cbn; [apply derivable_pt_lim_cos|apply derivable_pt_lim_sin|apply derivable_pt_lim_sin|apply derivable_pt_lim_cos]. Qed.
Lemma d_zeta_fun b x : derivable_pt_lim (in_zeta b) x (d_in_zeta b x).
Proof. destruct b; cbn; [apply derivable_pt_lim_cos|apply derivable_pt_lim_sin|apply derivable_pt_lim_cos|apply derivable_pt_lim_sin]. Qed.
Lemma Phi_d_theta nfp b m n th ph : derivable_pt_lim (fun t => Phi nfp b m n t ph) th (Phi_theta nfp b m n th ph).
Proof.
  unfold Phi, Phi_theta.
  apply (d_ext (fun t => s2 m * s2 n * in_zeta b (IZR n * (IZR nfp * ph)) * in_theta b (IZR m * t))); [intros; ring|].
  replace (s2 m * s2 n * (IZR m * d_in_theta b (IZR m * th) * in_zeta b (IZR n * (IZR nfp * ph)))) with
    (s2 m * s2 n * in_zeta b (IZR n * (IZR nfp * ph)) * (IZR m * d_in_theta b (IZR m * th))) by ring.
  apply d_scal. apply d_lin. apply d_theta_fun.
Qed.
Lemma Phi_d_phi nfp b m n th ph : derivable_pt_lim (fun f => Phi nfp b m n th f) ph (Phi_phi nfp b m n th ph).
Proof.
  unfold Phi, Phi_phi.
  apply (d_ext (fun t => s2 m * s2 n * in_theta b (IZR m * th) * in_zeta b (IZR (n * nfp) * t))).
  { intros; rewrite mult_IZR. replace (IZR n * (IZR nfp * t)) with (IZR n * IZR nfp * t) by ring. ring. }
  replace (s2 m * s2 n * (in_theta b (IZR m * th) * (IZR (n * nfp) * d_in_zeta b (IZR n * (IZR nfp * ph))))) with
    (s2 m * s2 n * in_theta b (IZR m * th) * (IZR (n * nfp) * d_in_zeta b (IZR (n * nfp) * ph))).
  2:{ rewrite !mult_IZR. replace (IZR n * (IZR nfp * ph)) with (IZR n * IZR nfp * ph) by ring. ring. }
  apply d_scal. apply d_lin. apply d_zeta_fun.
Qed.
Lemma d_series (P Q : bk -> Z -> Z -> R -> R) ks M ntor e (x : bk -> Z -> Z -> R) y :
  (forall b m n, derivable_pt_lim (P b m n) y (Q b m n y)) ->
  derivable_pt_lim (fun t => rsum ks (fun b => zsum 0 M (fun m => if Bool.eqb e (Z.even m)
    then zsum 0 (ntor + 1) (fun n => x b m n * P b m n t) else 0))) y
   (rsum ks (fun b => zsum 0 M (fun m => if Bool.eqb e (Z.even m)
    then zsum 0 (ntor + 1) (fun n => x b m n * Q b m n y) else 0))).
Proof.
  intros H. apply (d_rsum ks (fun b t => _) (fun b => _)). intros b _.
  unfold zsum at 1 3. apply (d_rsum _ (fun m t => _) (fun m => _)). intros m _.
  destruct (Bool.eqb e (Z.even m)); [|apply derivable_pt_lim_const].
  unfold zsum. apply (d_rsum _ (fun n t => _) (fun n => _)). intros n _. apply d_scal. apply H.
Qed.

Section Full.
Variable s : sizes.
Hypothesis OK : sz_ok s.
Variable b0 : basis_tables.
Variable p : rpart.
Variables xmpq sqrtSF : Z -> R.
Hypothesis M2 : (2 <= sz_mpol s)%Z.
Hypothesis SH : sz_lthreed s = true \/ sz_nZeta s = 1%Z.
Hypothesis P0 : (0 <= nsMinF1 p)%Z.
Local Notation t := (tab s b0).
Local Notation mpol := (sz_mpol s).
Local Notation ntor := (sz_ntor s).
Local Notation nfp := (sz_nfp s).
Local Notation nZeta := (sz_nZeta s).
Local Notation nTR := (sz_nThetaReduced s).
Local Notation nTE := (sz_nThetaEff s).
Local Notation nT := (sz_nThetaEven s).
Definition one_ (m : Z) : R := 1.
Definition all_ (m : Z) : bool := true.
Definition Dpt (q : gq) (k l : Z) (b : bk) (m n : Z) : R := D s q b m n (theta_pt s l) (phi_pt s k).
Definition q_ok (q : gq) : bool := negb (is_v q) || sz_lthreed s.

Lemma ntor2 : sz_lthreed s = false -> ntor = 0%Z.
Proof. intros H. rewrite (so_3d s OK), Z.gtb_ltb in H. apply Z.ltb_ge in H. pose proof (so_ntor s OK). lia. Qed.
Lemma zsum01 f : zsum 0 (0 + 1) f = f 0%Z.
Proof. rewrite zsum_cons, zsum_empty by lia. lra. Qed.
Lemma con_scale j m : xmpq m * (IZR (1 - m mod 2) + IZR (m mod 2) * sqrtSF (j - nsMinF1 p)%Z) = con_f p xmpq sqrtSF j m.
Proof.
  unfold con_f. rewrite Zmod_even. destruct (Z.even m); cbn; ring.
Qed.

(** symmetric part / asymmetric part on the reduced interval *)
Definition part (asy : bool) (x : coefs) (g0 : geom) : geom :=
  if sz_lthreed s then FourierToReal3D s p xmpq sqrtSF (if asy then asym_v s t p x else sym_v s t p x)
  else FourierToReal2D s t p xmpq sqrtSF x (if asy then src2_asym else src2_sym) g0.
Definition pkinds (asy : bool) (c : comp) := if asy then akinds c else kinds false c.
Lemma part_v (asy : bool) (x : coefs) j m k q l : (0 <= m < mpol)%Z -> (0 <= k < nZeta)%Z -> (0 <= l < nTR)%Z ->
  (if asy then asym_v s t p x else sym_v s t p x) j m k q l = rsum (pkinds asy (cq q)) (fun b => zsum 0 (ntor + 1)
    (fun n => x (cq q) b (at_mn s (j - nsMinF1 p) m n) * Dpt q k l b m n)).
Proof. intros. destruct asy; [apply asym_v_eq|apply sym_v_eq]; assumption. Qed.

(** the 2D table entry, seen as the sum over kinds with n = 0 *)
Lemma src2_val (asy : bool) (x : coefs) q m l J : sz_lthreed s = false -> is_v q = false -> (0 <= m < mpol)%Z -> (0 <= l < nTR)%Z ->
  match (if asy then src2_asym else src2_sym) q with
  | Some (c, b, tb) => x c b (J * sz_mnsize s + m)%Z * tb t (m * nTR + l)%Z
  | None => 0 end = rsum (pkinds asy (cq q)) (fun b => zsum 0 (ntor + 1)
    (fun n => x (cq q) b (at_mn s J m n) * Dpt q 0 l b m n)).
Proof.
  intros H3 Hq Hm Hl. assert (N0 := ntor2 H3). unfold at_mn. rewrite (so_mnsize s OK), N0.
  assert (IX : forall n, ((J * mpol + m) * (0 + 1) + n = J * mpol + m + n)%Z) by (intros; ring).
  replace (J * (mpol * (0 + 1)) + m)%Z with (J * mpol + m + 0)%Z by ring.
  assert (C0 : forall y, cos (IZR 0 * y) = 1) by (intros; rewrite Rmult_0_l; apply cos_0).
  assert (S0 : forall y, sin (IZR 0 * y) = 0) by (intros; rewrite Rmult_0_l; apply sin_0).
  destruct asy, q; try discriminate; cbn [src2_sym src2_asym pkinds akinds kinds cq app rsum]; rewrite !zsum01, !IX;
  unfold Dpt; cbn [D]; unfold Phi, Phi_theta; cbn [in_theta in_zeta d_in_theta];
  rewrite ?(t_cosmu s OK b0), ?(t_sinmu s OK b0), ?(t_cosmum s OK b0), ?(t_sinmum s OK b0) by lia;
  rewrite ?C0, ?S0; change (s2 0) with 1; rewrite ?opp_IZR, ?theta_pt_ang; ring.
Qed.

Lemma part_at asy x g0 q e j k l : q_ok q = true -> (nsMinF1 p <= j < nsMaxF1 p)%Z -> (0 <= k < nZeta)%Z -> (0 <= l < nTR)%Z ->
  g_q (part asy x g0) q e (at_pt s (j - nsMinF1 p) k l) =
  fsum s (pkinds asy (cq q)) (n_pol mpol j) (fun m => Bool.eqb e (Z.even m)) one_ (x (cq q)) (j - nsMinF1 p) (Dpt q k l).
Proof.
  intros Hq Hj Hk Hl. unfold part. destruct (sz_lthreed s) eqn:E3.
  - rewrite F3_at by assumption.
    transitivity (zsum 0 mpol (fun m => if m_on j m then (if Bool.eqb e (Z.even m) then rsum (pkinds asy (cq q)) (fun b => zsum 0 (ntor + 1)
    (fun n => x (cq q) b (at_mn s (j - nsMinF1 p) m n) * Dpt q k l b m n)) * one_ m else 0) else 0)).
    + apply zsum_ext. intros m Hm. destruct (m_on j m), (Bool.eqb e (Z.even m)); cbn [andb]; try reflexivity.
      rewrite part_v by lia. unfold one_. ring.
    + rewrite (m_range s M2) by lia. apply swap_kinds.
  - destruct SH as [?|Z1]; [congruence|]. assert (k = 0)%Z by lia. subst k.
    replace (at_pt s (j - nsMinF1 p) 0 l) with ((j - nsMinF1 p) * nTE + l)%Z by (unfold at_pt; rewrite Z1; ring).
    rewrite F2_at by assumption.
    assert (Hv : is_v q = false) by (unfold q_ok in Hq; rewrite E3 in Hq; destruct (is_v q); [discriminate|reflexivity]).
    rewrite <- swap_kinds.
    destruct ((if asy then src2_asym else src2_sym) q) as [[[c b] tb]|] eqn:Es.
    + unfold n_pol. apply zsum_ext. intros m Hm. destruct (Bool.eqb e (Z.even m)); [|reflexivity].
      assert (S := src2_val asy x q m l (j - nsMinF1 p) E3 Hv ltac:(destruct (j =? 0)%Z; lia) Hl). rewrite Es in S.
      rewrite S. unfold one_. ring.
    + exfalso. destruct asy, q; discriminate.
Qed.
Lemma part_con asy x g0 j k l : (nsMinF1 p <= j < nsMaxF1 p)%Z -> (nsMinF p <= j < nsMaxFIncludingLcfs p)%Z ->
  (0 <= k < nZeta)%Z -> (0 <= l < nTR)%Z ->
  g_rCon (part asy x g0) (at_pt s (j - nsMinF p) k l) =
    fsum s (pkinds asy cR) (n_pol mpol j) all_ (con_f p xmpq sqrtSF j) (x cR) (j - nsMinF1 p) (Dpt G_r1 k l) /\
  g_zCon (part asy x g0) (at_pt s (j - nsMinF p) k l) =
    fsum s (pkinds asy cZ) (n_pol mpol j) all_ (con_f p xmpq sqrtSF j) (x cZ) (j - nsMinF1 p) (Dpt G_z1 k l).
Proof.
  intros Hj Hjc Hk Hl. unfold part. destruct (sz_lthreed s) eqn:E3.
  - destruct (F3_con s OK p xmpq sqrtSF (if asy then asym_v s t p x else sym_v s t p x) j k l Hj Hjc Hk Hl) as [A B].
    rewrite A, B. clear A B. rewrite !(m_range s M2) by lia. rewrite <- !swap_kinds.
    split; (apply zsum_ext; intros m Hm; unfold all_; rewrite part_v; [reflexivity| |lia|lia]; unfold n_pol in Hm; destruct (j =? 0)%Z; lia).
  - destruct SH as [?|Z1]; [congruence|]. assert (k = 0)%Z by lia. subst k.
    replace (at_pt s (j - nsMinF p) 0 l) with ((j - nsMinF p) * nTE + l)%Z by (unfold at_pt; rewrite Z1; ring).
    destruct (F2_con s OK b0 p xmpq sqrtSF x (if asy then src2_asym else src2_sym) g0 j l Hjc Hl) as [A B].
    rewrite A, B, <- !swap_kinds. clear A B. unfold n_pol.
    assert (V : forall q m, is_v q = false -> (0 <= m < mpol)%Z -> 
      match (if asy then src2_asym else src2_sym) q with
      | Some (c, b, tb) => x c b ((j - nsMinF1 p) * sz_mnsize s + m)%Z * tb t (m * nTR + l)%Z * (xmpq m * (IZR (1 - m mod 2) + IZR (m mod 2) * sqrtSF (j - nsMinF1 p)%Z))
      | None => 0 end = rsum (pkinds asy (cq q)) (fun b => zsum 0 (ntor + 1)
    (fun n => x (cq q) b (at_mn s (j - nsMinF1 p) m n) * Dpt q 0 l b m n)) * con_f p xmpq sqrtSF j m).
    { intros q m Hq Hm. rewrite <- (src2_val asy x q m l (j - nsMinF1 p) E3 Hq Hm Hl), con_scale.
      destruct ((if asy then src2_asym else src2_sym) q) as [[[c b] tb]|]; ring. }
    split; apply zsum_ext; intros m Hm; unfold all_.
    + apply (V G_r1 m eq_refl). destruct (j =? 0)%Z; lia.
    + apply (V G_z1 m eq_refl). destruct (j =? 0)%Z; lia.
Qed.

(** reflection of the summands *)
Lemma D_refl asy q b m n k l : In b (pkinds asy (cq q)) -> (0 <= k < nZeta)%Z ->
  Dpt q ((nZeta - k) mod nZeta) (nT - l) b m n = (if xorb asy (ev_q q) then 1 else -1) * Dpt q k l b m n.
Proof.
  intros Hb Hk.
  assert (T0 : (0 < nT)%Z) by (pose proof (so_nT s OK); pose proof (so_nTR s OK); lia).
  assert (Z0 : (0 < nZeta)%Z) by (pose proof (so_nZeta s OK); lia).
  destruct (refl_trig nT l m T0) as [C1 S1]. destruct (refl_trig_mod nZeta k n Z0 Hk) as [C2 S2].
  unfold Dpt. destruct asy, q; cbn in Hb; repeat (destruct Hb as [<-|Hb]; try contradiction);
  cbn [D]; unfold Phi, Phi_theta, Phi_phi; cbn [in_theta in_zeta d_in_theta d_in_zeta];
  rewrite ?(phi_ang s OK), ?theta_pt_ang, ?C1, ?S1, ?C2, ?S2; cbn [xorb ev_q negb]; ring.
Qed.

Lemma fsum_app ks1 ks2 M sel W x j Dv : fsum s (ks1 ++ ks2) M sel W x j Dv = fsum s ks1 M sel W x j Dv + fsum s ks2 M sel W x j Dv.
Proof. unfold fsum. apply rsum_app. Qed.
Lemma fsum_scale ks M sel W x j Dv Dv' c : (forall b m n, In b ks -> Dv' b m n = c * Dv b m n) ->
  fsum s ks M sel W x j Dv' = c * fsum s ks M sel W x j Dv.
Proof.
  intros H. unfold fsum. rewrite <- rsum_scale. apply rsum_ext. intros b Hb. rewrite <- zsum_scale. apply zsum_ext. intros m _.
  destruct (sel m); [|ring]. rewrite <- Rmult_assoc, <- zsum_scale. apply f_equal2; [|reflexivity]. apply zsum_ext. intros n _. rewrite H by exact Hb. ring.
Qed.
Lemma kinds_true c : kinds true c = kinds false c ++ akinds c.
Proof. destruct c; reflexivity. Qed.

Lemma comb_refl ev (A B : R) : comb ev ((if ev then 1 else -1) * A) ((if negb ev then 1 else -1) * B) = A + B.
Proof. destruct ev; cbn; ring. Qed.

Theorem geo_at x g0 ga0 q e j k l : q_ok q = true -> (nsMinF1 p <= j < nsMaxF1 p)%Z -> (0 <= k < nZeta)%Z -> (0 <= l < nTE)%Z ->
  g_q (geometryFromFourier s t p xmpq sqrtSF x g0 ga0) q e (at_pt s (j - nsMinF1 p) k l) =
  fsum s (kinds (sz_lasym s) (cq q)) (n_pol mpol j) (fun m => Bool.eqb e (Z.even m)) one_ (x (cq q)) (j - nsMinF1 p) (Dpt q k l).
Proof.
  intros Hq Hj Hk Hl.
  assert (EG : geometryFromFourier s t p xmpq sqrtSF x g0 ga0 =
    if sz_lasym s then symrzl s p (part false x g0) (part true x ga0) else part false x g0).
  { unfold geometryFromFourier, part. destruct (sz_lthreed s), (sz_lasym s); reflexivity. }
  rewrite EG. clear EG. destruct (sz_lasym s) eqn:LA.
  - assert (TE := la_nTE s OK LA). assert (HT := so_nT s OK). assert (HR := so_nTR s OK).
    unfold symrzl. cbn [g_q]. unfold q_ok in Hq. rewrite Hq. rewrite (symrzl1_at s OK LA) by lia. cbv zeta.
    rewrite kinds_true, fsum_app. destruct (Z.ltb_spec l nTR).
    + rewrite !part_at by (auto; lia). reflexivity.
    + assert (KR : (0 <= (nZeta - k) mod nZeta < nZeta)%Z) by (apply Z.mod_pos_bound; lia).
      rewrite !part_at by (auto; lia). cbn [pkinds].
      rewrite (fsum_scale (kinds false (cq q)) _ _ _ _ _ (Dpt q k l) _ (if ev_q q then 1 else -1)).
      2:{ intros b m n Hb. rewrite (D_refl false q b m n k l Hb Hk). destruct (ev_q q); reflexivity. }
      rewrite (fsum_scale (akinds (cq q)) _ _ _ _ _ (Dpt q k l) _ (if negb (ev_q q) then 1 else -1)).
      2:{ intros b m n Hb. rewrite (D_refl true q b m n k l Hb Hk). destruct (ev_q q); reflexivity. }
      apply comb_refl.
  - assert (TE : nTE = nTR) by (rewrite (so_nTE s OK), LA; reflexivity).
    rewrite part_at by (auto; lia). reflexivity.
Qed.
Theorem con_at x g0 ga0 j k l : (nsMinF1 p <= j < nsMaxF1 p)%Z -> (nsMinF p <= j < nsMaxFIncludingLcfs p)%Z ->
  (0 <= k < nZeta)%Z -> (0 <= l < nTE)%Z ->
  g_rCon (geometryFromFourier s t p xmpq sqrtSF x g0 ga0) (at_pt s (j - nsMinF p) k l) =
    fsum s (kinds (sz_lasym s) cR) (n_pol mpol j) all_ (con_f p xmpq sqrtSF j) (x cR) (j - nsMinF1 p) (Dpt G_r1 k l) /\
  g_zCon (geometryFromFourier s t p xmpq sqrtSF x g0 ga0) (at_pt s (j - nsMinF p) k l) =
    fsum s (kinds (sz_lasym s) cZ) (n_pol mpol j) all_ (con_f p xmpq sqrtSF j) (x cZ) (j - nsMinF1 p) (Dpt G_z1 k l).
Proof.
  intros Hj Hjc Hk Hl.
  assert (EG : geometryFromFourier s t p xmpq sqrtSF x g0 ga0 =
    if sz_lasym s then symrzl s p (part false x g0) (part true x ga0) else part false x g0).
  { unfold geometryFromFourier, part. destruct (sz_lthreed s), (sz_lasym s); reflexivity. }
  rewrite EG. clear EG. destruct (sz_lasym s) eqn:LA.
  - assert (TE := la_nTE s OK LA). assert (HT := so_nT s OK). assert (HR := so_nTR s OK).
    unfold symrzl. cbn [g_rCon g_zCon]. rewrite !(symrzl1_at s OK LA) by lia. cbv zeta.
    rewrite !kinds_true, !fsum_app. destruct (Z.ltb_spec l nTR).
    + destruct (part_con false x g0 j k l) as [A B]; [lia|lia|lia|lia|].
      destruct (part_con true x ga0 j k l) as [C E]; [lia|lia|lia|lia|].
      rewrite A, B, C, E. split; reflexivity.
    + assert (KR : (0 <= (nZeta - k) mod nZeta < nZeta)%Z) by (apply Z.mod_pos_bound; lia).
      destruct (part_con false x g0 j ((nZeta - k) mod nZeta) (nT - l)) as [A B]; [lia|lia|lia|lia|].
      destruct (part_con true x ga0 j ((nZeta - k) mod nZeta) (nT - l)) as [C E]; [lia|lia|lia|lia|].
      rewrite A, B, C, E. cbn [pkinds].
      split.
      * rewrite (fsum_scale (kinds false cR) _ _ _ _ _ (Dpt G_r1 k l) _ 1) by (intros b m n Hb; apply (D_refl false G_r1 b m n k l Hb Hk)).
        rewrite (fsum_scale (akinds cR) _ _ _ _ _ (Dpt G_r1 k l) _ (-1)) by (intros b m n Hb; apply (D_refl true G_r1 b m n k l Hb Hk)).
        cbn. ring.
      * rewrite (fsum_scale (kinds false cZ) _ _ _ _ _ (Dpt G_z1 k l) _ (-1)) by (intros b m n Hb; apply (D_refl false G_z1 b m n k l Hb Hk)).
        rewrite (fsum_scale (akinds cZ) _ _ _ _ _ (Dpt G_z1 k l) _ 1) by (intros b m n Hb; apply (D_refl true G_z1 b m n k l Hb Hk)).
        cbn. ring.
  - assert (TE : nTE = nTR) by (rewrite (so_nTE s OK), LA; reflexivity).
    destruct (part_con false x g0 j k l) as [A B]; [lia|lia|lia|lia|]. rewrite A, B. split; reflexivity.
Qed.
End Full.
