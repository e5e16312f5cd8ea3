(** Trigonometric polynomials in two angles: products, derivatives, and exactness of
    the trapezoidal rule on the solver's grid. *)
From Coq Require Import ZArith List Bool Reals Lia Lra.
From Coquelicot Require Import Coquelicot.
From Verif Require Import Base BaseLemmas SumLemmas TrigSums SizesModel FourierModel DftTables DftForces DftSpec DftFold.
Import ListNotations.
Open Scope R_scope.

(** Mean over the torus: theta and phi from 0 to 2 pi. *)
Definition torus_mean (f : R -> R -> R) : R :=
  RInt (fun phi => RInt (fun theta => f theta phi) 0 (2 * PI)) 0 (2 * PI) / (4 * PI * PI).

Record term := mkTerm { ta : R; tm : Z; tn : Z; tx : R }.

Section T.
Variable nfp : Z.
Hypothesis HP : (1 <= nfp)%Z.

Definition tev (t : term) (th ph : R) : R := ta t * cos (IZR (tm t) * th + IZR (tn t) * (IZR nfp * ph) + tx t).
Definition ev (L : list term) (th ph : R) : R := rsum L (fun t => tev t th ph).
Definition within_deg (M N : Z) (L : list term) : Prop := forall t, In t L -> (Z.abs (tm t) <= M /\ Z.abs (tn t) <= N)%Z.
Definition tpoly (M N : Z) (f : R -> R -> R) : Prop := exists L, within_deg M N L /\ forall th ph, f th ph = ev L th ph.

Lemma tp_ext M N f g : (forall th ph, f th ph = g th ph) -> tpoly M N f -> tpoly M N g.
Proof. intros E (L & D & H). exists L. split; [exact D|]. intros. rewrite <- E. apply H. Qed.
Lemma tp_weak M N M' N' f : (M <= M')%Z -> (N <= N')%Z -> tpoly M N f -> tpoly M' N' f.
Proof. intros HM HN (L & D & H). exists L. split; [|exact H]. intros t Ht. destruct (D t Ht). lia. Qed.
Lemma tp_zero M N : tpoly M N (fun _ _ => 0).
Proof. exists []. split; [intros t []|]. reflexivity. Qed.
Lemma tp_add M N f g : tpoly M N f -> tpoly M N g -> tpoly M N (fun th ph => f th ph + g th ph).
Proof.
  intros (L & D & H) (L' & D' & H'). exists (L ++ L'). split.
  - intros t Ht. apply in_app_or in Ht. destruct Ht; auto.
  - intros. rewrite H, H'. unfold ev. rewrite rsum_app. reflexivity.
Qed.
Lemma tp_scale M N c f : tpoly M N f -> tpoly M N (fun th ph => c * f th ph).
Proof.
  intros (L & D & H). exists (map (fun t => mkTerm (c * ta t) (tm t) (tn t) (tx t)) L). split.
  - intros t Ht. apply in_map_iff in Ht. destruct Ht as (u & <- & Hu). exact (D u Hu).
  - intros. rewrite H. unfold ev. rewrite rsum_map, <- rsum_scale. apply rsum_ext. intros t _. unfold tev. cbn. ring.
Qed.
Lemma tp_rsum {A} M N (l : list A) (f : A -> R -> R -> R) : (forall a, In a l -> tpoly M N (f a)) ->
  tpoly M N (fun th ph => rsum l (fun a => f a th ph)).
Proof.
  induction l as [|a l IH]; intros H; [apply tp_zero|]. cbn [rsum].
  apply tp_add; [apply H; left; reflexivity|apply IH; intros; apply H; right; assumption].
Qed.
Lemma tp_zsum M N lo hi (f : Z -> R -> R -> R) : (forall j, (lo <= j < hi)%Z -> tpoly M N (f j)) ->
  tpoly M N (fun th ph => zsum lo hi (fun j => f j th ph)).
Proof. intros H. apply tp_rsum. intros j Hj. apply H. now apply zrange_In. Qed.

Definition tmul (t u : term) : list term :=
  [mkTerm (ta t * ta u / 2) (tm t + tm u) (tn t + tn u) (tx t + tx u);
   mkTerm (ta t * ta u / 2) (tm t - tm u) (tn t - tn u) (tx t - tx u)].
Lemma tmul_ev t u th ph : ev (tmul t u) th ph = tev t th ph * tev u th ph.
Proof.
  unfold ev, tmul, tev. cbn [rsum ta tm tn tx]. rewrite !plus_IZR, !minus_IZR.
  set (A := IZR (tm t) * th + IZR (tn t) * (IZR nfp * ph) + tx t). set (B := IZR (tm u) * th + IZR (tn u) * (IZR nfp * ph) + tx u).
  replace ((IZR (tm t) + IZR (tm u)) * th + (IZR (tn t) + IZR (tn u)) * (IZR nfp * ph) + (tx t + tx u)) with (A + B) by (unfold A, B; ring).
  replace ((IZR (tm t) - IZR (tm u)) * th + (IZR (tn t) - IZR (tn u)) * (IZR nfp * ph) + (tx t - tx u)) with (A - B) by (unfold A, B; ring).
  rewrite cos_plus, cos_minus. field.
Qed.
Lemma tp_mul M N M' N' f g : tpoly M N f -> tpoly M' N' g -> tpoly (M + M') (N + N') (fun th ph => f th ph * g th ph).
Proof.
  intros (L & D & H) (L' & D' & H'). exists (flat_map (fun t => flat_map (tmul t) L') L). split.
  - intros v Hv. apply in_flat_map in Hv. destruct Hv as (t & Ht & Hv). apply in_flat_map in Hv. destruct Hv as (u & Hu & Hv).
    destruct (D t Ht), (D' u Hu). cbn in Hv. destruct Hv as [<-|[<-|[]]]; cbn; lia.
  - intros. rewrite H, H'. unfold ev at 3. rewrite rsum_flat_map. symmetry.
    transitivity (rsum L (fun t => tev t th ph * ev L' th ph)).
    + apply rsum_ext. intros t _. rewrite rsum_flat_map. unfold ev. rewrite <- rsum_scale. apply rsum_ext. intros u _. apply tmul_ev.
    + rewrite rsum_scale_r. reflexivity.
Qed.
Lemma tp_single M N m n x : (Z.abs m <= M)%Z -> (Z.abs n <= N)%Z -> tpoly M N (fun th ph => cos (IZR m * th + IZR n * (IZR nfp * ph) + x)).
Proof.
  intros Hm Hn. exists [mkTerm 1 m n x]. split; [intros t [<-|[]]; cbn; lia|]. intros. unfold ev, tev. cbn. ring.
Qed.
Lemma tp_const M N c : (0 <= M)%Z -> (0 <= N)%Z -> tpoly M N (fun _ _ => c).
Proof.
  intros Hm Hn. apply (tp_ext _ _ (fun th ph => c * cos (IZR 0 * th + IZR 0 * (IZR nfp * ph) + 0))).
  - intros. replace (IZR 0 * th + IZR 0 * (IZR nfp * ph) + 0) with 0 by ring. rewrite cos_0. ring.
  - apply tp_scale, tp_single; lia.
Qed.
Lemma tp_cos_th m : tpoly (Z.abs m) 0 (fun th _ => cos (IZR m * th)).
Proof. apply (tp_ext _ _ (fun th ph => cos (IZR m * th + IZR 0 * (IZR nfp * ph) + 0))); [intros; f_equal; ring|apply tp_single; lia]. Qed.
Lemma cos_sin x : cos (x + - (PI / 2)) = sin x.
Proof. fold (x - PI / 2). rewrite cos_minus, cos_PI2, sin_PI2. ring. Qed.
Lemma tp_sin_th m : tpoly (Z.abs m) 0 (fun th _ => sin (IZR m * th)).
Proof.
  apply (tp_ext _ _ (fun th ph => cos (IZR m * th + IZR 0 * (IZR nfp * ph) + - (PI / 2)))); [|apply tp_single; lia].
  intros. rewrite cos_sin. f_equal. ring.
Qed.
Lemma tp_cos_ze n : tpoly 0 (Z.abs n) (fun _ ph => cos (IZR n * (IZR nfp * ph))).
Proof. apply (tp_ext _ _ (fun th ph => cos (IZR 0 * th + IZR n * (IZR nfp * ph) + 0))); [intros; f_equal; ring|apply tp_single; lia]. Qed.
Lemma tp_sin_ze n : tpoly 0 (Z.abs n) (fun _ ph => sin (IZR n * (IZR nfp * ph))).
Proof.
  apply (tp_ext _ _ (fun th ph => cos (IZR 0 * th + IZR n * (IZR nfp * ph) + - (PI / 2)))); [|apply tp_single; lia].
  intros. rewrite cos_sin. f_equal. ring.
Qed.
Lemma tp_Phi M N b m n : (Z.abs m <= M)%Z -> (Z.abs n <= N)%Z -> tpoly M N (fun th ph => Phi nfp b m n th ph).
Proof.
  intros Hm Hn. unfold Phi. apply tp_scale. apply (tp_weak (Z.abs m + 0) (0 + Z.abs n)); [lia|lia|].
  destruct b; cbn [in_theta in_zeta]; apply tp_mul; auto using tp_cos_th, tp_sin_th, tp_cos_ze, tp_sin_ze.
Qed.

(** Derivative in theta *)
Definition tdiff (t : term) : term := mkTerm (ta t * IZR (tm t)) (tm t) (tn t) (tx t + PI / 2).
Lemma tev_derive t th ph : is_derive (fun y => tev t y ph) th (tev (tdiff t) th ph).
Proof.
  unfold tev, tdiff. cbn. auto_derive; [trivial|].
  replace (IZR (tm t) * th + IZR (tn t) * (IZR nfp * ph) + (tx t + PI / 2)) with ((IZR (tm t) * th + IZR (tn t) * (IZR nfp * ph) + tx t) + PI / 2) by ring.
  rewrite cos_plus, cos_PI2, sin_PI2. ring.
Qed.
Lemma ev_derive L th ph : is_derive (fun y => ev L y ph) th (ev (map tdiff L) th ph).
Proof.
  induction L as [|t L IH]; unfold ev in *; cbn [rsum map]; [apply (is_derive_const (K := R_AbsRing) (V := R_NormedModule) 0)|]. apply @is_derive_plus; [apply tev_derive|exact IH].
Qed.
Lemma tp_ex_derive M N f th ph : tpoly M N f -> ex_derive (fun y => f y ph) th.
Proof.
  intros (L & _ & H). eexists. eapply is_derive_ext; [intros t; symmetry; apply H|apply ev_derive].
Qed.
Lemma tp_derive M N f : tpoly M N f -> tpoly M N (fun th ph => Derive (fun y => f y ph) th).
Proof.
  intros (L & D & H). exists (map tdiff L). split.
  - intros t Ht. apply in_map_iff in Ht. destruct Ht as (u & <- & Hu). exact (D u Hu).
  - intros. apply is_derive_unique. eapply is_derive_ext; [intros t; symmetry; apply H|apply ev_derive].
Qed.

(** ** Means *)
Definition cst (L : list term) : R := rsum L (fun t => if ((tm t =? 0) && (tn t =? 0))%Z then ta t * cos (tx t) else 0).

Lemma cos_int (q : Z) c : is_RInt (fun y => cos (IZR q * y + c)) 0 (2 * PI) (if (q =? 0)%Z then 2 * PI * cos c else 0).
Proof.
  destruct (Z.eqb_spec q 0) as [->|Q].
  - apply (is_RInt_ext (fun _ => cos c)); [intros; f_equal; ring|].
    replace (2 * PI * cos c) with (scal (2 * PI - 0) (cos c)) by (unfold scal; cbn; unfold mult; cbn; ring). apply @is_RInt_const.
  - assert (NZ : IZR q <> 0) by (apply not_0_IZR; exact Q).
    replace 0 with (minus (sin (IZR q * (2 * PI) + c) / IZR q) (sin (IZR q * 0 + c) / IZR q)) at 2.
    + apply (is_RInt_derive (fun y => sin (IZR q * y + c) / IZR q)).
      * intros y _. auto_derive; [trivial|]. field. exact NZ.
      * intros y _. apply (ex_derive_continuous (fun y => cos (IZR q * y + c))). auto_derive. trivial.
    + unfold minus, plus, opp. cbn. replace (IZR q * (2 * PI) + c) with (IZR q * 0 + c + 2 * IZR q * PI) by ring. rewrite sin_period_Z. ring.
Qed.
Lemma int0 a b : is_RInt (fun _ : R => 0) a b 0.
Proof.
  pose proof (@is_RInt_const R_NormedModule a b 0) as H.
  replace (scal (b - a) (0 : R_NormedModule)) with 0 in H by (unfold scal; cbn; unfold mult; cbn; ring). exact H.
Qed.
Lemma rsum_int {A} (l : list A) (f : A -> R -> R) (v : A -> R) a b : (forall x, In x l -> is_RInt (f x) a b (v x)) ->
  is_RInt (fun y => rsum l (fun x => f x y)) a b (rsum l v).
Proof.
  induction l as [|x l IH]; intros H; cbn [rsum].
  - apply int0.
  - apply @is_RInt_plus; [apply H; left; reflexivity|apply IH; intros; apply H; right; assumption].
Qed.
Definition inner (t : term) (ph : R) : R := if (tm t =? 0)%Z then 2 * PI * (ta t * cos (IZR (tn t) * (IZR nfp * ph) + tx t)) else 0.
Lemma ev_inner L ph : is_RInt (fun th => ev L th ph) 0 (2 * PI) (rsum L (fun t => inner t ph)).
Proof.
  apply (rsum_int L (fun t th => tev t th ph) (fun t => inner t ph)). intros t _. unfold tev, inner.
  pose proof (@is_RInt_scal R_NormedModule (fun y => cos (IZR (tm t) * y + (IZR (tn t) * (IZR nfp * ph) + tx t))) 0 (2 * PI) (ta t) _ (cos_int (tm t) (IZR (tn t) * (IZR nfp * ph) + tx t))) as I.
  apply (is_RInt_ext (fun y => scal (ta t) (cos (IZR (tm t) * y + (IZR (tn t) * (IZR nfp * ph) + tx t))))).
  - intros y _. unfold scal. cbn. unfold mult. cbn. rewrite Rplus_assoc. reflexivity.
  - replace (if (tm t =? 0)%Z then 2 * PI * (ta t * cos (IZR (tn t) * (IZR nfp * ph) + tx t)) else 0)
      with (scal (ta t) (if (tm t =? 0)%Z then 2 * PI * cos (IZR (tn t) * (IZR nfp * ph) + tx t) else 0)); [exact I|].
    unfold scal. cbn. unfold mult. cbn. destruct (tm t =? 0)%Z; ring.
Qed.
Lemma ev_outer L : is_RInt (fun ph => rsum L (fun t => inner t ph)) 0 (2 * PI) (4 * PI * PI * cst L).
Proof.
  replace (4 * PI * PI * cst L) with (rsum L (fun t => 4 * PI * PI * (if ((tm t =? 0) && (tn t =? 0))%Z then ta t * cos (tx t) else 0))) by apply rsum_scale.
  apply (rsum_int L (fun t ph => inner t ph)). intros t _. unfold inner. destruct (tm t =? 0)%Z; cbn [andb].
  - assert (E : (tn t =? 0)%Z = (tn t * nfp =? 0)%Z) by (destruct (Z.eqb_spec (tn t) 0), (Z.eqb_spec (tn t * nfp) 0); nia || reflexivity).
    pose proof (@is_RInt_scal R_NormedModule _ 0 (2 * PI) (2 * PI * ta t) _ (cos_int (tn t * nfp) (tx t))) as I. rewrite <- E in I.
    apply (is_RInt_ext (fun y => scal (2 * PI * ta t) (cos (IZR (tn t * nfp) * y + tx t)))).
    + intros y _. unfold scal. cbn. unfold mult. cbn. rewrite mult_IZR, Rmult_assoc. f_equal. f_equal. f_equal. f_equal. ring.
    + replace (4 * PI * PI * (if (tn t =? 0)%Z then ta t * cos (tx t) else 0)) with (scal (2 * PI * ta t) (if (tn t =? 0)%Z then 2 * PI * cos (tx t) else 0)); [exact I|].
      unfold scal. cbn. unfold mult. cbn. destruct (tn t =? 0)%Z; ring.
  - rewrite Rmult_0_r. apply int0.
Qed.
Lemma mean_cst L f : (forall th ph, f th ph = ev L th ph) -> torus_mean f = cst L.
Proof.
  intros H. unfold torus_mean.
  rewrite (RInt_ext _ (fun ph => rsum L (fun t => inner t ph))).
  - rewrite (is_RInt_unique _ _ _ _ (ev_outer L)). pose proof PI_RGT_0. field. lra.
  - intros ph _. apply is_RInt_unique. apply (is_RInt_ext (fun th => ev L th ph)); [intros; symmetry; apply H|apply ev_inner].
Qed.
End T.

Section Grid.
Variable s : sizes.
Hypothesis OK : sz_ok s.
Local Notation nfp := (sz_nfp s).
Local Notation NZ := (sz_nZeta s).
Local Notation NT := (sz_nThetaEven s).

Lemma grid_cst L M N : within_deg M N L -> (M < NT)%Z -> (N < NZ)%Z ->
  full s (fun k l => ev nfp L (theta_pt s l) (phi_pt s k)) = IZR NZ * IZR NT * cst L.
Proof.
  intros D HM HN. unfold full, ev, cst. pose proof (so_nfp s OK). pose proof (so_nZeta s OK). pose proof (nT_pos s OK).
  assert (P : IZR nfp <> 0) by (apply not_0_IZR; lia).
  assert (AZ : forall n k, IZR n * (IZR nfp * phi_pt s k) = IZR n * ang NZ k) by (intros; unfold phi_pt, ang; field; split; first [exact P|apply not_0_IZR; lia]).
  induction L as [|t L IH].
  - cbn [rsum]. rewrite (zsum_zero 0 NZ) by (intros; apply zsum_zero; reflexivity). ring.
  - cbn [rsum]. rewrite (zsum_ext 0 NZ _ (fun k => zsum 0 NT (fun l => tev nfp t (theta_pt s l) (phi_pt s k)) + zsum 0 NT (fun l => rsum L (fun t => tev nfp t (theta_pt s l) (phi_pt s k))))) by (intros; apply zsum_plus).
    rewrite zsum_plus, IH by (intros u Hu; apply D; right; exact Hu). rewrite Rmult_plus_distr_l. f_equal.
    destruct (D t (or_introl eq_refl)) as (Dm & Dn). unfold tev.
    destruct (Z.eqb_spec (tm t) 0) as [M0|M0]; cbn [andb].
    + rewrite (zsum_ext 0 NZ _ (fun k => IZR NT * ta t * cos (IZR (tn t) * ang NZ k + tx t))).
      * destruct (Z.eqb_spec (tn t) 0) as [N0|N0].
        -- rewrite N0. rewrite (zsum_ext 0 NZ _ (fun _ => IZR NT * ta t * cos (tx t))) by (intros; do 2 f_equal; ring).
           rewrite zsum_const by lia. rewrite Z.sub_0_r. ring.
        -- rewrite zsum_scale, sum_cos by lia. ring.
      * intros k _. rewrite (zsum_ext 0 NT _ (fun _ => ta t * cos (IZR (tn t) * ang NZ k + tx t))).
        -- rewrite zsum_const by lia. rewrite Z.sub_0_r. ring.
        -- intros l _. rewrite M0, AZ. do 2 f_equal. ring.
    + rewrite Rmult_0_r. apply zsum_zero. intros k _. rewrite zsum_scale.
      rewrite (zsum_ext 0 NT _ (fun l => cos (IZR (tm t) * ang NT l + (IZR (tn t) * (IZR nfp * phi_pt s k) + tx t)))) by (intros; rewrite <- Rplus_assoc; reflexivity).
      rewrite sum_cos by lia. ring.
Qed.

(** Values at reflected grid points *)
Lemma ev_refl L k l : (0 <= k < NZ)%Z -> (0 <= l < NT)%Z ->
  ev nfp L (theta_pt s (rl s l)) (phi_pt s (rk s k)) = ev nfp L (- theta_pt s l) (- phi_pt s k).
Proof.
  intros Hk Hl. apply rsum_ext. intros t _. unfold tev. f_equal. pose proof (so_nfp s OK). pose proof (so_nZeta s OK). pose proof (nT_pos s OK).
  assert (A : forall N j, (0 < N)%Z -> (0 <= j < N)%Z -> exists q, 2 * PI * IZR ((N - j) mod N) / IZR N = - (2 * PI * IZR j / IZR N) + 2 * IZR q * PI).
  { intros N j HN Hj. assert (IZR N <> 0) by (apply not_0_IZR; lia). destruct (Z.eq_dec j 0) as [->|J].
    - exists 0%Z. rewrite Z.sub_0_r, Z.mod_same by lia. field. assumption.
    - exists 1%Z. rewrite Z.mod_small by lia. rewrite minus_IZR. field. assumption. }
  destruct (A NT l ltac:(lia) Hl) as (q1 & E1). destruct (A NZ k ltac:(lia) Hk) as (q2 & E2).
  unfold theta_pt, phi_pt, rl, rk. rewrite E1, E2.
  assert (P : IZR nfp <> 0) by (apply not_0_IZR; lia).
  replace (IZR (tm t) * (- (2 * PI * IZR l / IZR NT) + 2 * IZR q1 * PI) + IZR (tn t) * (IZR nfp * ((- (2 * PI * IZR k / IZR NZ) + 2 * IZR q2 * PI) / IZR nfp)) + tx t)
    with (IZR (tm t) * - (2 * PI * IZR l / IZR NT) + IZR (tn t) * (IZR nfp * - (2 * PI * IZR k / IZR NZ / IZR nfp)) + tx t + 2 * IZR (tm t * q1 + tn t * q2) * PI).
  - apply cos_period_Z.
  - rewrite plus_IZR, !mult_IZR. field. repeat split; try exact P; apply not_0_IZR; lia.
Qed.

(** The solver's surface average of a trigonometric polynomial of sufficiently low
    degree is its mean over the torus. *)
Theorem quadrature M N F : tpoly nfp M N F -> (M < NT)%Z -> (N < NZ)%Z ->
  (sz_lasym s = false -> forall th ph, F (- th) (- ph) = F th ph) ->
  grid_avg s (fun k l => F (theta_pt s l) (phi_pt s k)) = torus_mean F.
Proof.
  intros (L & D & H) HM HN EV. pose proof (so_nfp s OK). pose proof (so_nZeta s OK). pose proof (nT_pos s OK). pose proof (so_nT s OK).
  rewrite (mean_cst nfp ltac:(assumption) L F H).
  assert (G : grid_avg s (fun k l => F (theta_pt s l) (phi_pt s k)) = norm_ s / 2 * full s (fun k l => ev nfp L (theta_pt s l) (phi_pt s k))).
  { destruct (sz_lasym s) eqn:LA.
    - rewrite (grid_full s OK LA). f_equal. apply full_ext. intros; apply H.
    - rewrite <- (red_grid s OK) by exact LA. rewrite (red_even s OK).
      + f_equal. apply full_ext. intros; apply H.
      + intros k l Hk Hl. rewrite !H, ev_refl by assumption. rewrite <- !H. apply EV. reflexivity. }
  rewrite G, (grid_cst L M N D HM HN). unfold norm_, intNorm. rewrite mult_IZR.
  replace (IZR NT) with (2 * IZR (sz_nThetaReduced s - 1)) by (rewrite <- mult_IZR; f_equal; lia).
  field. split; apply not_0_IZR; lia.
Qed.
End Grid.
