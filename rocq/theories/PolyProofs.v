(** Horner loops. *)
From Coq Require Import ZArith List Reals Lia Lra.
From Coquelicot Require Import Coquelicot.
From Verif Require Import Base BaseLemmas SumLemmas ProfileModel ProfileSpec.
Import ListNotations.
Open Scope R_scope.

Lemma horner_down (x : R) (a : Z -> R) hi : (-1 <= hi)%Z ->
  for_down hi 0 (fun i t => x * t + a i) 0 = zsum 0 (hi + 1) (fun i => a i * x ^ Z.to_nat i).
Proof.
  intros H.
  enough (G : forall k t, (-1 <= k <= hi)%Z ->
    for_down k 0 (fun i t => x * t + a i) t
    = zsum 0 (k + 1) (fun i => a i * x ^ Z.to_nat i) + t * x ^ Z.to_nat (k + 1)).
  { rewrite G by lia. ring. }
  intros k t Hk. remember (Z.to_nat (k + 1)) as m eqn:Em. revert k t Hk Em.
  induction m as [|m IH]; intros k t Hk Em.
  - rewrite for_down_empty by lia. rewrite zsum_empty by lia. simpl. ring.
  - rewrite for_down_step by lia. rewrite (IH (k - 1)%Z) by lia.
    replace (k - 1 + 1)%Z with k by lia. rewrite zsum_snoc by lia.
    replace m with (Z.to_nat k) by lia. rewrite <- tech_pow_Rmult. ring.
Qed.

Lemma power_series_eval c x : evalPowerSeries c x false = polynomial c x.
Proof.
  unfold evalPowerSeries, polynomial. rewrite horner_down by (unfold vlen; lia).
  replace (vlen c - 1 + 1)%Z with (Z.of_nat (length c)) by (unfold vlen; lia). reflexivity.
Qed.

Lemma power_series_int_eval c x :
  evalPowerSeries c x true
  = zsum 0 (vlen c) (fun i => vat c i / IZR (i + 1) * x ^ Z.to_nat (i + 1)).
Proof.
  unfold evalPowerSeries.
  rewrite (horner_down x (fun i => vat c i / IZR (i + 1))) by (unfold vlen; lia).
  replace (vlen c - 1 + 1)%Z with (vlen c) by lia.
  rewrite <- zsum_scale_r. apply zsum_ext. intros j Hj.
  replace (Z.to_nat (j + 1)) with (S (Z.to_nat j)) by lia. simpl. ring.
Qed.

Lemma derive_zsum lo hi (f d : Z -> R -> R) x :
  (forall i, (lo <= i < hi)%Z -> derivable_pt_lim (f i) x (d i x)) ->
  derivable_pt_lim (fun y => zsum lo hi (fun i => f i y)) x (zsum lo hi (fun i => d i x)).
Proof.
  intros H. unfold zsum. assert (G : forall i, In i (zrange lo hi) -> derivable_pt_lim (f i) x (d i x)).
  { intros i Hi. apply H. apply zrange_In in Hi. exact Hi. }
  clear H. induction (zrange lo hi) as [|i l IH]; simpl.
  - apply derivable_pt_lim_const.
  - apply (derivable_pt_lim_plus (f i) (fun y => rsum l (fun i => f i y))).
    + apply G. left. reflexivity.
    + apply IH. intros; apply G. right. assumption.
Qed.

Lemma derive_monomial a n x :
  derivable_pt_lim (fun y => a * y ^ n) x (a * (INR n * x ^ pred n)).
Proof. apply (derivable_pt_lim_scal (fun y => y ^ n)). apply derivable_pt_lim_pow. Qed.

Lemma derivable_ext f g x l : (forall y, f y = g y) -> derivable_pt_lim g x l -> derivable_pt_lim f x l.
Proof.
  intros E H eps He. destruct (H eps He) as (d & Hd). exists d. intros h h0 hd.
  rewrite !E. apply Hd; assumption.
Qed.

Lemma power_series_antiderivative c x :
  derivable_pt_lim (fun s => evalPowerSeries c s true) x (evalPowerSeries c x false).
Proof.
  eapply derivable_ext; [intros; apply power_series_int_eval|].
  rewrite power_series_eval. unfold polynomial.
  replace (zsum 0 (Z.of_nat (length c)) (fun i => nth (Z.to_nat i) c 0 * x ^ Z.to_nat i))
    with (zsum 0 (vlen c) (fun i => vat c i / IZR (i + 1) * (INR (Z.to_nat (i + 1)) * x ^ pred (Z.to_nat (i + 1))))).
  - apply (derive_zsum 0 (vlen c) (fun i y => vat c i / IZR (i + 1) * y ^ Z.to_nat (i + 1))
      (fun i x => vat c i / IZR (i + 1) * (INR (Z.to_nat (i + 1)) * x ^ pred (Z.to_nat (i + 1))))).
    intros. apply derive_monomial.
  - apply zsum_ext. intros j Hj. rewrite INR_IZR_INZ, Z2Nat.id by lia.
    replace (pred (Z.to_nat (j + 1))) with (Z.to_nat j) by lia. unfold vat. field.
    apply IZR_neq. lia.
Qed.

Lemma power_series_int_zero c : evalPowerSeries c 0 true = 0.
Proof. unfold evalPowerSeries. ring. Qed.

Lemma power_series_i_eval c x :
  evalPowerSeriesI c x = x * polynomial c x.
Proof.
  unfold evalPowerSeriesI, polynomial.
  enough (G : forall m k t, Z.to_nat (k + 1) = m -> (-1 <= k < vlen c)%Z ->
    for_down k 0 (fun i t => (t + vat c i) * x) t
    = x * zsum 0 (k + 1) (fun i => vat c i * x ^ Z.to_nat i) + t * x ^ Z.to_nat (k + 1)).
  { rewrite (G _ _ 0 eq_refl) by (unfold vlen; lia).
    replace (vlen c - 1 + 1)%Z with (Z.of_nat (length c)) by (unfold vlen; lia). unfold vat. ring. }
  induction m as [|m IH]; intros k t Em Hk.
  - rewrite for_down_empty by lia. rewrite zsum_empty by lia. rewrite Em. simpl. ring.
  - rewrite for_down_step by lia. rewrite (IH (k - 1)%Z) by lia.
    replace (k - 1 + 1)%Z with k by lia. rewrite zsum_snoc by lia.
    replace (Z.to_nat (k + 1)) with (S (Z.to_nat k)) by lia. simpl. ring.
Qed.

Lemma torflux_eval aphi x :
  torflux aphi x = zsum 0 (vlen aphi) (fun i => vat aphi i * x ^ Z.to_nat (i + 1)).
Proof.
  unfold torflux. rewrite horner_down by (unfold vlen; lia).
  replace (vlen aphi - 1 + 1)%Z with (vlen aphi) by lia.
  rewrite <- zsum_scale_r. apply zsum_ext. intros j Hj.
  replace (Z.to_nat (j + 1)) with (S (Z.to_nat j)) by lia. simpl. ring.
Qed.

Lemma torfluxDeriv_eval aphi x :
  torfluxDeriv aphi x = zsum 0 (vlen aphi) (fun i => IZR (i + 1) * vat aphi i * x ^ Z.to_nat i).
Proof.
  unfold torfluxDeriv. rewrite (horner_down x (fun i => IZR (i + 1) * vat aphi i)) by (unfold vlen; lia).
  replace (vlen aphi - 1 + 1)%Z with (vlen aphi) by lia. reflexivity.
Qed.

Lemma torflux_derivative aphi x : derivable_pt_lim (torflux aphi) x (torfluxDeriv aphi x).
Proof.
  eapply derivable_ext; [intros; apply torflux_eval|]. rewrite torfluxDeriv_eval.
  replace (zsum 0 (vlen aphi) (fun i => IZR (i + 1) * vat aphi i * x ^ Z.to_nat i))
    with (zsum 0 (vlen aphi) (fun i => vat aphi i * (INR (Z.to_nat (i + 1)) * x ^ pred (Z.to_nat (i + 1))))).
  - apply (derive_zsum 0 (vlen aphi) (fun i y => vat aphi i * y ^ Z.to_nat (i + 1))
      (fun i x => vat aphi i * (INR (Z.to_nat (i + 1)) * x ^ pred (Z.to_nat (i + 1))))).
    intros. apply derive_monomial.
  - apply zsum_ext. intros j Hj. rewrite INR_IZR_INZ, Z2Nat.id by lia.
    replace (pred (Z.to_nat (j + 1))) with (Z.to_nat j) by lia. ring.
Qed.

Lemma polynomial_derivable c x : exists l, derivable_pt_lim (polynomial c) x l.
Proof.
  eexists. unfold polynomial.
  apply (derive_zsum 0 (Z.of_nat (length c)) (fun i y => nth (Z.to_nat i) c 0 * y ^ Z.to_nat i)
      (fun i x => nth (Z.to_nat i) c 0 * (INR (Z.to_nat i) * x ^ pred (Z.to_nat i)))).
  intros. apply derive_monomial.
Qed.

Lemma derivable_continuity f x l : derivable_pt_lim f x l -> continuity_pt f x.
Proof. intros H. apply derivable_continuous_pt. exists l. exact H. Qed.

Lemma derive_is f x l : derivable_pt_lim f x l -> is_derive f x l.
Proof. intros. apply is_derive_Reals. assumption. Qed.

Lemma torfluxDeriv_continuity aphi x : continuity_pt (torfluxDeriv aphi) x.
Proof.
  eapply derivable_continuity.
  eapply derivable_ext; [intros; apply torfluxDeriv_eval|].
  apply (derive_zsum 0 (vlen aphi) (fun i y => IZR (i + 1) * vat aphi i * y ^ Z.to_nat i)
      (fun i x => IZR (i + 1) * vat aphi i * (INR (Z.to_nat i) * x ^ pred (Z.to_nat i)))).
  intros. apply derive_monomial.
Qed.

Lemma torflux_zero aphi : torflux aphi 0 = 0.
Proof. unfold torflux. ring. Qed.

Lemma power_series_int c a b : integral_from (fun s => evalPowerSeries c s false)
  (fun s => evalPowerSeries c s true - evalPowerSeries c a true) a b.
Proof.
  intros x Hx.
  apply (is_RInt_derive (fun s => evalPowerSeries c s true) (fun s => evalPowerSeries c s false)).
  - intros y _. apply derive_is, power_series_antiderivative.
  - intros y _. apply continuity_pt_filterlim.
    destruct (polynomial_derivable c y) as (l & Hl).
    eapply derivable_continuity. eapply derivable_ext; [|exact Hl].
    intros; apply power_series_eval.
Qed.

Lemma edge_flux signgs phiedge aphi : torflux aphi 1 <> 0 ->
  maxToroidalFlux signgs phiedge aphi * torflux aphi 1 = signgs * phiedge / (2 * PI).
Proof.
  intros H. unfold maxToroidalFlux. destruct (Req_EM_T (torflux aphi 1) 0); [contradiction|].
  field. split; [apply PI_neq0|exact H].
Qed.

Lemma torflux_one aphi : torflux aphi 1 = zsum 0 (vlen aphi) (vat aphi).
Proof.
  rewrite torflux_eval. apply zsum_ext. intros. rewrite pow1. ring.
Qed.

Lemma flux_integral aphi m x : is_RInt (fun s => m * torfluxDeriv aphi s) 0 x (m * torflux aphi x).
Proof.
  replace (m * torflux aphi x) with (minus (m * torflux aphi x) (m * torflux aphi 0)).
  2:{ rewrite torflux_zero. unfold minus, plus, opp; simpl. ring. }
  apply (is_RInt_derive (fun s => m * torflux aphi s) (fun s => m * torfluxDeriv aphi s)).
  - intros y _. apply is_derive_scal. apply derive_is, torflux_derivative.
  - intros y _. apply (continuous_scal_r m (torfluxDeriv aphi) y).
    apply continuity_pt_filterlim, torfluxDeriv_continuity.
Qed.
