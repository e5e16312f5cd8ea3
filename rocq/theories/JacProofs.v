(** Proofs about the Jacobian sign test. *)
From Coq Require Import ZArith Bool List Lia Reals Lra Psatz.
From Flocq Require Import Core IEEE754.BinarySingleNaN.
From Verif Require Import Base BaseLemmas GridLemmas Num NumB64 PartModel PartSpec PartProofs.
From Verif Require Import KernelModel KernelSpec KernelProofs JacModel JacSpec.
Open Scope Z_scope.

(** ** The scan, for any arithmetic whose comparisons are those of real values
    on the values that occur. *)
Section Scan.
Context {K : num} (v : K -> R) (good : K -> Prop).
Hypothesis g0 : good (nZ 0).
Hypothesis v0 : v (nZ 0) = 0%R.
Hypothesis Hlt : forall a b, good a -> good b -> nlt a b = true <-> (v a < v b)%R.
Hypothesis Heq : forall a, good a -> neq a (nZ 0) = true <-> v a = 0%R.
Hypothesis Hbad : forall a b, good a -> good b ->
  nlt (nmul a b) (nZ 0) || negb (nfinite (nmul a b)) = true <-> (v a * v b < 0)%R.

Lemma scan_inv n tau : 0 <= n -> (forall i, 0 <= i < n -> good (tau i)) ->
  let (mn, mx) := tau_scan n tau in
  good mn /\ good mx /\
  ((v mn < 0)%R <-> exists i, 0 <= i < n /\ (v (tau i) < 0)%R) /\
  ((0 < v mx)%R <-> exists i, 0 <= i < n /\ (0 < v (tau i))%R) /\
  ((v mx < 0)%R -> exists i, 0 <= i < n /\ (v (tau i) < 0)%R) /\
  ((0 < v mn)%R -> exists i, 0 <= i < n /\ (0 < v (tau i))%R).
Proof.
  intros Hn G. unfold tau_scan.
  assert (W : forall P : R -> Prop, (exists i, 0 <= i < 0 /\ P (v (tau i))) -> False)
    by (intros P (i & Hi & _); lia).
  apply (for_up_ind (fun m (mm : K * K) => let (mn, mx) := mm in
    good mn /\ good mx /\
    ((v mn < 0)%R <-> exists i, 0 <= i < m /\ (v (tau i) < 0)%R) /\
    ((0 < v mx)%R <-> exists i, 0 <= i < m /\ (0 < v (tau i))%R) /\
    ((v mx < 0)%R -> exists i, 0 <= i < m /\ (v (tau i) < 0)%R) /\
    ((0 < v mn)%R -> exists i, 0 <= i < m /\ (0 < v (tau i))%R))); [lia| |].
  - rewrite v0. repeat split; auto; try (intros; lra); intros (i & Hi & _); lia.
  - intros m (mn & mx) Hm (G1 & G2 & I1 & I2 & I3 & I4). cbn [fst snd].
    assert (Gt : good (tau m)) by (apply G; lia).
    assert (EX : forall P : R -> Prop, (exists i, 0 <= i < m + 1 /\ P (v (tau i))) <->
              ((exists i, 0 <= i < m /\ P (v (tau i))) \/ P (v (tau m)))).
    { intros P. split.
      - intros (i & Hi & Pi). destruct (Z.eq_dec i m) as [E|E]; [subst; auto|].
        left. exists i. split; [lia|auto].
      - intros [(i & Hi & Pi)|Pm]; [exists i|exists m]; split; auto; lia. }
    pose proof (EX (fun r => (r < 0)%R)) as EN. pose proof (EX (fun r => (0 < r)%R)) as EP.
    cbv beta in EN, EP. rewrite EN, EP. clear EX EN EP.
    pose proof (Hlt (tau m) mn Gt G1) as L1. pose proof (Hlt mx (tau m) G2 Gt) as L2.
    pose proof (Heq mn G1) as Q1. pose proof (Heq mx G2) as Q2.
    remember (v (tau m)) as t eqn:Et.
    destruct (nlt (tau m) mn) eqn:A1; destruct (neq mn (nZ 0)) eqn:A2;
    destruct (nlt mx (tau m)) eqn:A3; destruct (neq mx (nZ 0)) eqn:A4; cbn [orb];
    repeat match goal with
    | H : true = true <-> _ |- _ => destruct H as (H & _); specialize (H eq_refl)
    | H : false = true <-> _ |- _ => destruct H as (_ & H)
    end;
    repeat match goal with
    | H : (?P -> false = true) |- _ => assert (~ P) by (intros X; discriminate (H X)); clear H
    end;
    (split; [assumption|split; [assumption|]]); rewrite <- ?Et;
    repeat match goal with |- _ /\ _ => split end;
    try (split; intros H'); try (intros H');
    try (exfalso; lra);
    try (destruct H' as [H'|H']);
    try tauto; try lra;
    try (right; lra);
    try (left; apply I1; lra); try (left; apply I2; lra); try (left; apply I3; lra); try (left; apply I4; lra);
    try (pose proof (proj2 I1 H'); lra); try (pose proof (proj2 I2 H'); lra);
    try (destruct (Rlt_le_dec t 0); tauto || lra);
    idtac.
Qed.

Lemma local_bad_iff n tau : 0 <= n -> (forall i, 0 <= i < n -> good (tau i)) ->
  local_bad n tau = true <->
  ((exists i, 0 <= i < n /\ (v (tau i) < 0)%R) /\ (exists i, 0 <= i < n /\ (0 < v (tau i))%R)).
Proof.
  intros Hn G. unfold local_bad. pose proof (scan_inv n tau Hn G) as S.
  destruct (tau_scan n tau) as (mn & mx). destruct S as (G1 & G2 & I1 & I2 & I3 & I4).
  rewrite Hbad by auto. split.
  - intros P. destruct (Rlt_le_dec (v mn) 0) as [A|A].
    + assert (0 < v mx)%R by nra. tauto.
    + assert (v mn <> 0)%R by (intros E; rewrite E in P; lra).
      assert (0 < v mn)%R by lra. assert (v mx < 0)%R by nra. split; auto.
  - intros (A & B). apply I1 in A. apply I2 in B. nra.
Qed.

(** ** Several threads *)
Variables (c : @kcfg K) (f : @fields K).
Notation n := (knZnT c).
Hypothesis Hn : 0 <= n.
Variables (T : Z) (parts : Z -> rpart) (x : Z -> @kin K) (old : Z -> Z -> @jacp K).
Hypothesis HT : 1 <= T.
Hypothesis H2 : 2 * T <= kns c.
Hypothesis HP : forall t, 0 <= t < T -> adjustRadialPartitioning T t (kns c) (klfreeb c) = Some (parts t).
Hypothesis HX : forall t, 0 <= t < T -> holds_part n (parts t) f (x t).
Let F h kl := tau (Gjac c f h kl).
Hypothesis G : forall h kl, 0 <= h < kns c - 1 -> 0 <= kl < n -> good (F h kl).

Lemma half_inside t h : 0 <= t < T -> nsMinH (parts t) <= h < nsMaxH (parts t) -> 0 <= h < kns c - 1.
Proof.
  intros Ht Hh. pose proof (adjust_range_ok T t _ _ _ HT H2 Ht (HP t Ht)) as RO.
  pose proof (ro_minH _ _ _ RO). pose proof (ro_MaxH _ _ _ RO). pose proof (ro_F1 _ _ _ RO). lia.
Qed.

Lemma flat_split i m : 0 < n -> 0 <= i < m * n -> 0 <= i / n < m /\ 0 <= i mod n < n /\ i = i / n * n + i mod n.
Proof.
  intros N Hi. split; [|split].
  - split; [apply Z.div_pos; lia|apply Z.div_lt_upper_bound; lia].
  - apply Z.mod_pos_bound; lia.
  - pose proof (Z.div_mod i n). lia.
Qed.

Lemma thread_bad t : 0 <= t < T ->
  local_bad ((nsMaxH (parts t) - nsMinH (parts t)) * n)
    (fun i => tau (compute_jacobian c (parts t) (i_sqrtSH (x t)) (i_geo (x t)) (old t) i)) = true <->
  (exists h kl, nsMinH (parts t) <= h < nsMaxH (parts t) /\ 0 <= kl < n /\ (v (F h kl) < 0)%R) /\
  (exists h kl, nsMinH (parts t) <= h < nsMaxH (parts t) /\ 0 <= kl < n /\ (0 < v (F h kl))%R).
Proof.
  intros Ht. set (p := parts t) in *.
  pose proof (adjust_range_ok T t _ _ p HT H2 Ht (HP t Ht)) as RO.
  pose proof (jac_ok c Hn f p RO (x t) (HX t Ht) (old t)) as J. unfold onH in J.
  set (jac := compute_jacobian c p (i_sqrtSH (x t)) (i_geo (x t)) (old t)) in *.
  assert (JJ : forall i, 0 <= i < (nsMaxH p - nsMinH p) * n ->
     0 < n /\ nsMinH p <= nsMinH p + i / n < nsMaxH p /\ 0 <= i mod n < n /\
     tau (jac i) = F (nsMinH p + i / n) (i mod n)).
  { intros i Hi. assert (0 < n) by (destruct (Z.eq_dec n 0) as [E|E]; [rewrite E in Hi|]; lia). destruct (flat_split i _ H Hi) as (A & B & C).
    split; [auto|]. split; [lia|]. split; [auto|]. rewrite C at 1. unfold F.
    replace (i / n * n) with ((nsMinH p + i / n - nsMinH p) * n) by ring.
    rewrite J by lia. reflexivity. }
  assert (MH : nsMinH p <= nsMaxH p).
  { pose proof (ro_minH _ _ _ RO). pose proof (ro_MaxH _ _ _ RO). pose proof (ro_F1 _ _ _ RO).
    pose proof (ro_ne _ _ _ RO). pose proof (ro_F _ _ _ RO). pose proof (ro_le c p RO). lia. }
  rewrite local_bad_iff.
  - assert (EQ : forall P : R -> Prop,
      (exists i, 0 <= i < (nsMaxH p - nsMinH p) * n /\ P (v (tau (jac i)))) <->
      (exists h kl, nsMinH p <= h < nsMaxH p /\ 0 <= kl < n /\ P (v (F h kl)))).
    { intros P. split.
      - intros (i & Hi & Pi). destruct (JJ i Hi) as (_ & A & B & C). rewrite C in Pi.
        do 2 eexists. repeat split; try apply A; try apply B; auto; lia.
      - intros (h & kl & Hh & Hk & Pi). exists ((h - nsMinH p) * n + kl). split; [nia|].
        rewrite J by lia. exact Pi. }
    rewrite (EQ (fun r => (r < 0)%R)), (EQ (fun r => (0 < r)%R)). reflexivity.
  - nia.
  - intros i Hi. destruct (JJ i Hi) as (_ & A & B & C). rewrite C. apply G; auto.
    eapply half_inside; eauto.
Qed.

Lemma verdict_iff :
  jacobian_verdict c T parts x old = true <->
  exists t, 0 <= t < T /\
  (exists h kl, nsMinH (parts t) <= h < nsMaxH (parts t) /\ 0 <= kl < n /\ (v (F h kl) < 0)%R) /\
  (exists h kl, nsMinH (parts t) <= h < nsMaxH (parts t) /\ 0 <= kl < n /\ (0 < v (F h kl))%R).
Proof.
  unfold jacobian_verdict. rewrite existsb_exists. split.
  - intros (t & It & B). apply zrange_In in It. exists t. split; [lia|].
    apply thread_bad in B; [auto|lia].
  - intros (t & Ht & B). exists t. split; [apply zrange_In; lia|]. apply thread_bad; auto.
Qed.

Lemma parts_closed t : 0 <= t < T -> parts t = rp_closed T t (kns c) (klfreeb c).
Proof.
  intros Ht. pose proof (HP t Ht) as E.
  rewrite adjust_closed in E; [|split; [lia|]; apply Z.div_le_lower_bound; lia|lia].
  congruence.
Qed.

Lemma verdict_global :
  (forall t, 0 <= t -> t + 1 < T ->
     exists kl, 0 <= kl < n /\ v (F (nsMaxF (parts t) - 1) kl) <> 0%R) ->
  jacobian_verdict c T parts x old = true <->
  (exists h kl, 0 <= h < kns c - 1 /\ 0 <= kl < n /\ (v (F h kl) < 0)%R) /\
  (exists h kl, 0 <= h < kns c - 1 /\ 0 <= kl < n /\ (0 < v (F h kl))%R).
Proof.
  intros NZ. rewrite verdict_iff. split.
  - intros (t & Ht & (h & kl & A) & (h' & kl' & B)).
    split; [exists h, kl|exists h', kl']; destruct A as (A1 & A2 & A3); destruct B as (B1 & B2 & B3);
      (split; [eapply half_inside; eauto|auto]).
  - intros ((h & kl & Hh & Hk & A) & (h' & kl' & Hh' & Hk' & B)).
    assert (own : forall h, 0 <= h < kns c - 1 -> exists t, 0 <= t < T /\ nsMinH (parts t) <= h < nsMaxH (parts t)).
    { intros j Hj. destruct (half_counted_once T (kns c) (klfreeb c) HT H2 j Hj) as (t & (Ht & R & _) & _).
      exists t. split; [auto|]. rewrite parts_closed by auto. exact R. }
    assert (up : forall (P : R -> Prop) (t u : Z), 0 <= t -> t <= u < T ->
       (forall w, t <= w < T ->
          (exists h kl, nsMinH (parts w) <= h < nsMaxH (parts w) /\ 0 <= kl < n /\ P (v (F h kl))) ->
          forall h kl, nsMinH (parts w) <= h < nsMaxH (parts w) -> 0 <= kl < n -> v (F h kl) <> 0%R -> P (v (F h kl))) ->
       (exists h kl, nsMinH (parts t) <= h < nsMaxH (parts t) /\ 0 <= kl < n /\ P (v (F h kl))) ->
       exists h kl, nsMinH (parts u) <= h < nsMaxH (parts u) /\ 0 <= kl < n /\ P (v (F h kl))).
    { intros P t u Ht Hu ALL S. remember (Z.to_nat (u - t)) as k eqn:Ek. revert u Hu Ek.
      induction k as [|k IH]; intros.
      - replace u with t by lia. exact S.
      - specialize (IH (u - 1) ltac:(lia) ltac:(lia)).
        destruct (NZ (u - 1) ltac:(lia) ltac:(lia)) as (kk & Hkk & N).
        pose proof (proj2 (r_shared_half T (kns c) (klfreeb c) HT H2 (u - 1) (nsMaxF (parts (u - 1)) - 1)
          ltac:(lia) ltac:(lia))) as SH.
        replace (u - 1 + 1) with u in SH by lia.
        rewrite <- !parts_closed in SH by lia. destruct (SH eq_refl) as (S1 & S2).
        exists (nsMaxF (parts (u - 1)) - 1), kk. repeat split; try apply S2; try apply Hkk.
        apply (ALL (u - 1)); auto. lia. }
    destruct (own h Hh) as (t1 & Ht1 & O1). destruct (own h' Hh') as (t2 & Ht2 & O2).
    assert (DEC : forall t, 0 <= t < T ->
      (exists t, 0 <= t < T /\
        (exists h kl, nsMinH (parts t) <= h < nsMaxH (parts t) /\ 0 <= kl < n /\ (v (F h kl) < 0)%R) /\
        (exists h kl, nsMinH (parts t) <= h < nsMaxH (parts t) /\ 0 <= kl < n /\ (0 < v (F h kl))%R)) \/
      ~ ((exists h kl, nsMinH (parts t) <= h < nsMaxH (parts t) /\ 0 <= kl < n /\ (v (F h kl) < 0)%R) /\
        (exists h kl, nsMinH (parts t) <= h < nsMaxH (parts t) /\ 0 <= kl < n /\ (0 < v (F h kl))%R))).
    { intros t Ht. pose proof (thread_bad t Ht) as TB.
      destruct (local_bad _ _); [left; exists t; split; [auto|apply TB; auto]|right].
      intros X. apply TB in X. discriminate. }
    pose proof verdict_iff as VI. destruct (jacobian_verdict c T parts x old) eqn:EV.
    { apply VI; auto. }
    exfalso.
    assert (NB : forall t, 0 <= t < T ->
      ~ ((exists h kl, nsMinH (parts t) <= h < nsMaxH (parts t) /\ 0 <= kl < n /\ (v (F h kl) < 0)%R) /\
        (exists h kl, nsMinH (parts t) <= h < nsMaxH (parts t) /\ 0 <= kl < n /\ (0 < v (F h kl))%R))).
    { intros t Ht. destruct (DEC t Ht) as [D|D]; auto. apply VI in D. discriminate. }
    assert (A' : exists h kl, nsMinH (parts t1) <= h < nsMaxH (parts t1) /\ 0 <= kl < n /\ (v (F h kl) < 0)%R)
      by (exists h, kl; auto).
    assert (B' : exists h kl, nsMinH (parts t2) <= h < nsMaxH (parts t2) /\ 0 <= kl < n /\ (0 < v (F h kl))%R)
      by (exists h', kl'; auto).
    destruct (Z.le_ge_cases t1 t2) as [L|L].
    + apply (NB t2 Ht2). split; auto.
      apply (up (fun r => (r < 0)%R) t1 t2); auto; try lia.
      intros w Hw E a b Ha Hb Nz. destruct (Rlt_le_dec (v (F a b)) 0); auto. exfalso.
      apply (NB w ltac:(lia)). split; auto. exists a, b. repeat split; auto; try lia. lra.
    + apply (NB t1 Ht1). split; auto.
      apply (up (fun r => (0 < r)%R) t2 t1); auto; try lia.
      intros w Hw E a b Ha Hb Nz. destruct (Rlt_le_dec 0 (v (F a b))); auto. exfalso.
      apply (NB w ltac:(lia)). split; auto. exists a, b. repeat split; auto; try lia. lra.
Qed.
End Scan.

(** ** Exact arithmetic *)
Lemma Rltb_iff a b : Rltb a b = true <-> (a < b)%R.
Proof. unfold Rltb. destruct (Rlt_dec a b); split; auto; try discriminate; contradiction. Qed.
Lemma Reqb_iff a b : Reqb a b = true <-> a = b.
Proof. unfold Reqb. destruct (Req_EM_T a b); split; auto; try discriminate; contradiction. Qed.

Lemma tau_half_jacobian (c : @kcfg num_R) f h kl :
  tau (Gjac c f h kl) = half_jacobian c f h kl.
Proof.
  unfold Gjac, jac_point, half_jacobian. cbn [tau]. unfold half, nfrac.
  cbn [nadd nsub nmul ndiv nZ num_R]. unfold Rdiv.
  generalize (/ f_sqrtSH f h)%R (/ kdeltaS c)%R. intros a b.
  match goal with |- @eq _ ?x ?y => change (@eq R x y) end. field.
Qed.

Lemma localise_holds {K : num} n p (f : @fields K) : 0 <= n -> holds_part n p f (localise n p f).
Proof.
  intros Hn. split.
  - intros j Hj. split.
    + intros kl Hk. cbn [localise i_geo i_lam].
      rewrite (Z.add_comm ((j - nsMinF1 p) * n) kl), Z.div_add, Z.mod_add, Z.div_small, Z.mod_small by lia.
      replace (nsMinF1 p + (0 + (j - nsMinF1 p))) with j by lia. auto.
    + cbn [localise i_sqrtSF i_blend i_phipF]. replace (nsMinF1 p + (j - nsMinF1 p)) with j by lia. auto.
  - intros h Hh. cbn [localise i_sqrtSH i_phipH i_currH i_massH i_chipH i_iotaH].
    replace (nsMinH p + (h - nsMinH p)) with h by lia. repeat split.
Qed.

Section Exact.
Variables (c : @kcfg num_R) (f : @fields num_R) (T : Z) (parts : Z -> rpart)
  (x : Z -> @kin num_R) (old : Z -> Z -> @jacp num_R).
Hypothesis Hn : 0 <= knZnT c.
Hypothesis HT : 1 <= T.
Hypothesis H2 : 2 * T <= kns c.
Hypothesis HP : forall t, 0 <= t < T -> adjustRadialPartitioning T t (kns c) (klfreeb c) = Some (parts t).
Hypothesis HX : forall t, 0 <= t < T -> holds_part (knZnT c) (parts t) f (x t).

Lemma exact_bad (a b : R) : Rltb (a * b) 0 || negb true = true <-> (a * b < 0)%R.
Proof. cbn. rewrite orb_false_r. apply Rltb_iff. Qed.

Lemma exact_per_thread :
  jacobian_verdict c T parts x old = true <->
  exists t, 0 <= t < T /\
    changes_sign (nsMinH (parts t)) (nsMaxH (parts t)) (knZnT c) (half_jacobian c f).
Proof.
  pose proof (verdict_iff (K := num_R) (fun r => r) (fun _ => True) I eq_refl
    (fun a b _ _ => Rltb_iff a b) (fun a _ => Reqb_iff a 0)
    (fun a b _ _ => exact_bad a b) c f Hn T parts x old HT H2 HP HX (fun _ _ _ _ => I)) as V.
  rewrite V. unfold changes_sign. split; intros (t & Ht & (h & kl & A & B & C) & (h' & kl' & A' & B' & C'));
  exists t; (split; [auto|]); (split; [exists h, kl|exists h', kl']); rewrite ?tau_half_jacobian in *; auto.
Qed.

Lemma exact_global :
  (forall t, 0 <= t -> t + 1 < T ->
     exists kl, 0 <= kl < knZnT c /\ half_jacobian c f (nsMaxF (parts t) - 1) kl <> 0%R) ->
  jacobian_verdict c T parts x old = true <->
  changes_sign 0 (kns c - 1) (knZnT c) (half_jacobian c f).
Proof.
  intros NZ.
  pose proof (verdict_global (K := num_R) (fun r => r) (fun _ => True) I eq_refl
    (fun a b _ _ => Rltb_iff a b) (fun a _ => Reqb_iff a 0)
    (fun a b _ _ => exact_bad a b) c f Hn T parts x old HT H2 HP HX (fun _ _ _ _ => I)) as V.
  rewrite V.
  - unfold changes_sign. split; intros ((h & kl & A & B & C) & (h' & kl' & A' & B' & C'));
    (split; [exists h, kl|exists h', kl']); rewrite ?tau_half_jacobian in *; auto.
  - intros t H0 H1. destruct (NZ t H0 H1) as (kl & A & B). exists kl. rewrite tau_half_jacobian. auto.
Qed.
End Exact.

(** ** binary64 *)
Definition moderate (a : b64) : Prop :=
  is_finite a = true /\
  (B2R a = 0 \/ bpow radix2 (-511) <= Rabs (B2R a) <= bpow radix2 511)%R.

Lemma eq0_fin (a : b64) : is_finite a = true -> b64_eq a (b64_ofZ 0) = true <-> B2R a = 0%R.
Proof.
  intros A. unfold b64_eq. rewrite Bcompare_correct by auto. rewrite B2R_zero.
  destruct (Rcompare_spec (B2R a) 0); split; intros; try discriminate; auto; lra.
Qed.

Lemma fmt_bpow e : (-1022 <= e <= 1023)%Z -> generic_format radix2 (SpecFloat.fexp 53 1024) (bpow radix2 e).
Proof.
  intros H. apply generic_format_bpow. unfold SpecFloat.fexp, SpecFloat.emin. lia.
Qed.

Lemma rnd_bpow e : (-1022 <= e <= 1023)%Z -> rnd (bpow radix2 e) = bpow radix2 e.
Proof. intros H. apply round_generic; [typeclasses eauto|apply fmt_bpow; auto]. Qed.

Lemma rnd_opp_bpow e : (-1022 <= e <= 1023)%Z -> rnd (- bpow radix2 e) = (- bpow radix2 e)%R.
Proof. intros H. apply round_generic; [typeclasses eauto|apply generic_format_opp, fmt_bpow; auto]. Qed.

Lemma moderate_bad (a b : b64) : moderate a -> moderate b ->
  b64_lt (b64_mul a b) (b64_ofZ 0) || negb (is_finite (b64_mul a b)) = true <-> (B2R a * B2R b < 0)%R.
Proof.
  intros (FA & MA) (FB & MB).
  assert (P : (B2R a * B2R b = 0 \/ bpow radix2 (-1022) <= Rabs (B2R a * B2R b) <= bpow radix2 1022)%R).
  { destruct MA as [MA|MA]; [left; rewrite MA; ring|].
    destruct MB as [MB|MB]; [left; rewrite MB; ring|]. right.
    rewrite Rabs_mult.
    replace (-1022)%Z with (-511 + -511)%Z by lia. replace 1022%Z with (511 + 511)%Z by lia.
    rewrite !bpow_plus. pose proof (bpow_gt_0 radix2 (-511)). pose proof (bpow_gt_0 radix2 511).
    split; apply Rmult_le_compat; lra. }
  pose proof (Bmult_correct 53 1024 b64_prec b64_emax mode_NE a b) as H. fold (b64_mul a b) in H.
  set (q := (B2R a * B2R b)%R) in *.
  assert (B1 : (bpow radix2 1022 < bpow radix2 1024)%R) by (apply bpow_lt; lia).
  pose proof (bpow_gt_0 radix2 (-1022)) as B0.
  assert (Q : (q = 0 /\ rnd q = 0 \/
     bpow radix2 (-1022) <= q /\ bpow radix2 (-1022) <= rnd q <= bpow radix2 1022 \/
     q <= - bpow radix2 (-1022) /\ - bpow radix2 1022 <= rnd q <= - bpow radix2 (-1022))%R).
  { destruct P as [P|P]; [left; split; auto; rewrite P; apply rnd_0|].
    destruct (Rle_lt_dec 0 q) as [L|L].
    - rewrite Rabs_pos_eq in P by auto. right; left. split; [lra|].
      rewrite <- (rnd_bpow (-1022)), <- (rnd_bpow 1022) by lia. split; apply rnd_le; lra.
    - rewrite Rabs_left in P by auto. right; right. split; [lra|].
      rewrite <- (rnd_opp_bpow (-1022)), <- (rnd_opp_bpow 1022) by lia. split; apply rnd_le; lra. }
  assert (L : (Rabs (rnd q) < bpow radix2 1024)%R).
  { apply Rabs_def1; destruct Q as [(Q1 & Q2)|[(Q1 & Q2)|(Q1 & Q2)]]; try lra; pose proof (bpow_gt_0 radix2 1024); lra. }
  rewrite Rlt_bool_true in H by exact L. destruct H as (H1 & H2 & _).
  rewrite FA, FB in H2. cbn [andb] in H2. rewrite lt_fin by auto. rewrite H1, H2, B2R_zero. cbn [negb].
  rewrite orb_false_r. destruct (Rlt_bool_spec (rnd q) 0) as [X|X].
  - split; auto. intros _. destruct Q as [(Q1 & Q2)|[(Q1 & Q2)|(Q1 & Q2)]]; lra.
  - split; [discriminate|]. intros Y. destruct Q as [(Q1 & Q2)|[(Q1 & Q2)|(Q1 & Q2)]]; lra.
Qed.

Section B64.
Variable lg : b64 -> b64.
Notation KB := (num_b64 lg).
Variables (c : @kcfg KB) (f : @fields KB) (T : Z) (parts : Z -> rpart)
  (x : Z -> @kin KB) (old : Z -> Z -> @jacp KB).
Hypothesis Hn : 0 <= knZnT c.
Hypothesis HT : 1 <= T.
Hypothesis H2 : 2 * T <= kns c.
Hypothesis HP : forall t, 0 <= t < T -> adjustRadialPartitioning T t (kns c) (klfreeb c) = Some (parts t).
Hypothesis HX : forall t, 0 <= t < T -> holds_part (knZnT c) (parts t) f (x t).
Let J h kl : b64 := tau (jac_point c (f_sqrtSH f h) (f_geo f h kl) (f_geo f (h + 1) kl)).
Hypothesis HM : forall h kl, 0 <= h < kns c - 1 -> 0 <= kl < knZnT c -> moderate (J h kl).

Lemma mod_0 : moderate (b64_ofZ 0).
Proof. split; [reflexivity|left; reflexivity]. Qed.

Lemma b64_global :
  (forall t, 0 <= t -> t + 1 < T ->
     exists kl, 0 <= kl < knZnT c /\ B2R (J (nsMaxF (parts t) - 1) kl) <> 0%R) ->
  jacobian_verdict c T parts x old = true <->
  changes_sign 0 (kns c - 1) (knZnT c) (fun h kl => B2R (J h kl)).
Proof.
  intros NZ.
  apply (verdict_global (K := KB) (fun r : b64 => B2R r) moderate mod_0 eq_refl); auto.
  - intros a b (A & _) (B & _). cbn. rewrite lt_fin by auto.
    destruct (Rlt_bool_spec (B2R a) (B2R b)); split; auto; try discriminate; intros; lra.
  - intros a (A & _). apply eq0_fin; auto.
  - intros a b A B. apply moderate_bad; auto.
Qed.
End B64.
