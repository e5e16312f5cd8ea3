(** Name lookup, current scaling and the lambda normalisation. *)
From Coq Require Import String ZArith List Bool Reals Lra Lia.
From Verif Require Import Base BaseLemmas SumLemmas PartModel PartSpec PartProofs ReduceModel ReduceProofs ReduceProps
  ProfileModel ProfileSpec PolyProofs CubicProofs AnalyticProofs.
Import ListNotations.
Open Scope R_scope.

Lemma find_param_spec l i name q : (1 <= i)%Z -> NoDup (map pname l) ->
  (find_param l i name q <> 0%Z <-> exists p, In p l /\ pname p = name /\ allowed p q = true).
Proof.
  revert i. induction l as [|p l IH]; intros i Hi N; cbn [find_param].
  - split; [intros H; destruct (H eq_refl)|intros (p & [] & _)].
  - inversion N as [|? ? Nn N']; subst. destruct (String.eqb_spec name (pname p)) as [E|E].
    + destruct (allowed p q) eqn:A.
      * split; [intros _; exists p; repeat split; auto; left; reflexivity|intros _; lia].
      * split; [intros H; destruct (H eq_refl)|]. intros (p' & [->|Hin] & En & Aq); [congruence|].
        exfalso. apply Nn. rewrite <- E, <- En. apply in_map. exact Hin.
    + rewrite IH by (lia || assumption). split; intros (p' & Hin & En & Aq).
      * exists p'. repeat split; auto. right; exact Hin.
      * destruct Hin as [->|Hin]; [congruence|]. exists p'. auto.
Qed.

Lemma params_nodup : NoDup (map pname all_params).
Proof.
  assert (D : forall l : list string, (fix nd l := match l with [] => true | a :: l' => negb (existsb (String.eqb a) l') && nd l' end) l = true -> NoDup l).
  { induction l as [|a l IH]; intros H; [constructor|]. apply andb_prop in H. destruct H as [H1 H2].
    constructor; [|apply IH; exact H2]. intros Hin. apply negb_true_iff in H1.
    rewrite <- not_true_iff_false in H1. apply H1. apply existsb_exists. exists a. split; [exact Hin|apply String.eqb_refl]. }
  apply D. vm_compute. reflexivity.
Qed.

Lemma lookup_spec name q : findParameterization name q <> 0%Z <->
  exists p, In p (tl all_params) /\ pname p = name /\ allowed p q = true.
Proof.
  assert (N := params_nodup).
  assert (E0 : exists p0 l, all_params = p0 :: l /\ l = tl all_params /\ (forall q, allowed p0 q = false)).
  { do 2 eexists. split; [reflexivity|]. split; [reflexivity|]. intros []; reflexivity. }
  destruct E0 as (p0 & l & E0 & El & Ea). rewrite <- El. unfold findParameterization. rewrite E0 in N |- *.
  inversion N as [|? ? Nn N']; subst. cbn [find_param].
  destruct (String.eqb_spec name (pname p0)) as [E|E].
  - rewrite Ea. split; [intros H; destruct (H eq_refl)|].
    intros (p & Hin & En & Aq). exfalso. apply Nn. rewrite <- E, <- En. apply in_map. exact Hin.
  - apply find_param_spec; [lia|exact N'].
Qed.

(** An unusable name makes the profile identically zero. *)
Lemma lookup_zero_mass dm tiny mu0 ps bl p x : findParameterization (pi_type p) Pressure = 0%Z ->
  evalMassProfile dm tiny mu0 ps bl p x = Val 0.
Proof. intros H. unfold evalMassProfile. rewrite H. cbn. f_equal. ring. Qed.
Lemma lookup_zero_iota dm tiny p x : findParameterization (pi_type p) Iota = 0%Z -> evalIotaProfile dm tiny p x = Val 0.
Proof. intros H. unfold evalIotaProfile. rewrite H. reflexivity. Qed.
Lemma lookup_zero_curr dm tiny bl p x : findParameterization (pi_type p) Current = 0%Z -> evalCurrProfile dm tiny bl p x = Val 0.
Proof. intros H. unfold evalCurrProfile. rewrite H. reflexivity. Qed.

(** ** Current *)
Lemma itor_edge eps mu0 signgs curtor e : 0 <= eps -> Rabs (eps * curtor) < Rabs e ->
  exists it, itor eps mu0 signgs curtor e = Val it /\ e * it = signgs * mu0 * curtor / (2 * PI).
Proof.
  intros He H. assert (N : e <> 0) by (intros ->; rewrite Rabs_R0 in H; pose proof (Rabs_pos (eps * curtor)); lra).
  unfold itor. rewrite (proj2 (rltb_true _ _)) by exact H. unfold odiv.
  destruct (Req_EM_T (2 * PI * e) 0) as [Z|Z].
  - exfalso. pose proof PI_RGT_0. apply Rmult_integral in Z. destruct Z as [Z|Z]; [lra|contradiction].
  - eexists. split; [reflexivity|]. field. split; [apply PI_neq0|exact N].
Qed.
Lemma itor_small eps mu0 signgs curtor e : Rabs e <= Rabs (eps * curtor) -> itor eps mu0 signgs curtor e = Val 0.
Proof. intros H. unfold itor. rewrite (proj2 (rltb_false _ _)) by lra. reflexivity. Qed.

(** ** rmsPhiP *)
Lemma local_rms_half g r ns : local_rmsPhiP g r ns = local_half_sum Rplus 0 r ns (fun jH => phipH g ns jH * phipH g ns jH).
Proof. reflexivity. Qed.

Lemma Rlist_sum_rsum {A} (l : list A) f : Rlist_sum (map f l) = rsum l f.
Proof. induction l as [|a l IH]; cbn; [reflexivity|]. rewrite <- IH. reflexivity. Qed.

Lemma rms_total g ns T lfreeb (r : Z -> rpart) : is_partition ns T lfreeb r ->
  for_up 0 T (fun t acc => acc + local_rmsPhiP g (r t) ns) 0
  = zsum 0 (ns - 1) (fun jH => phipH g ns jH ^ 2).
Proof.
  intros HP. pose proof HP as (HT & H2 & HA).
  transitivity (zsum 0 T (fun t => local_rmsPhiP g (r t) ns)).
  { rewrite for_up_Rsum. rewrite Rlist_sum_rsum. unfold zsum. ring. }
  transitivity (surf_sum (ns - 1) (fun jH => phipH g ns jH * phipH g ns jH)).
  2:{ unfold surf_sum. rewrite Rlist_sum_rsum. unfold zsum. apply rsum_ext. intros. ring. }
  rewrite <- (half_parts ns T lfreeb HT H2). rewrite Rlist_sum_rsum. unfold zsum. apply rsum_ext. intros t Ht.
  apply zrange_In in Ht. rewrite local_rms_half, local_half_sum_R.
  specialize (HA t Ht). rewrite (adjust_ok T ns lfreeb HT H2 t Ht) in HA. injection HA as <-. reflexivity.
Qed.

(** ** Flux scaling *)
Lemma zsum_vat_scale (k : R) aphi (f : Z -> R) :
  zsum 0 (vlen (map (Rmult k) aphi)) (fun i => vat (map (Rmult k) aphi) i * f i)
  = k * zsum 0 (vlen aphi) (fun i => vat aphi i * f i).
Proof.
  replace (vlen (map (Rmult k) aphi)) with (vlen aphi) by (unfold vlen; rewrite map_length; reflexivity).
  unfold zsum. rewrite <- rsum_scale. apply rsum_ext. intros i _.
  unfold vat. replace (nth (Z.to_nat i) (map (Rmult k) aphi) 0) with (k * nth (Z.to_nat i) aphi 0).
  - ring.
  - rewrite <- (map_nth (Rmult k)). rewrite Rmult_0_r. reflexivity.
Qed.
Lemma torflux_scale k aphi x : torflux (map (Rmult k) aphi) x = k * torflux aphi x.
Proof. rewrite !torflux_eval. apply (zsum_vat_scale k aphi (fun i => x ^ Z.to_nat (i + 1))). Qed.
Lemma torfluxDeriv_scale k aphi x : torfluxDeriv (map (Rmult k) aphi) x = k * torfluxDeriv aphi x.
Proof.
  rewrite !torfluxDeriv_eval.
  transitivity (zsum 0 (vlen (map (Rmult k) aphi)) (fun i => vat (map (Rmult k) aphi) i * (IZR (i + 1) * x ^ Z.to_nat i))).
  { apply rsum_ext. intros. ring. }
  rewrite (zsum_vat_scale k aphi (fun i => IZR (i + 1) * x ^ Z.to_nat i)). f_equal. apply rsum_ext. intros. ring.
Qed.
Lemma phip_scale k signgs phiedge aphi x : k <> 0 -> torflux aphi 1 <> 0 ->
  maxToroidalFlux signgs phiedge (map (Rmult k) aphi) * torfluxDeriv (map (Rmult k) aphi) x
  = maxToroidalFlux signgs phiedge aphi * torfluxDeriv aphi x.
Proof.
  intros Hk H1. unfold maxToroidalFlux. rewrite torflux_scale, torfluxDeriv_scale.
  destruct (Req_EM_T (k * torflux aphi 1) 0) as [Z|Z]; [apply Rmult_integral in Z; tauto|].
  destruct (Req_EM_T (torflux aphi 1) 0); [contradiction|]. field. repeat split; auto. apply PI_neq0.
Qed.
