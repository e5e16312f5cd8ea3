(** The lambda preconditioner: in-place averaging and assembly. *)
From Coq Require Import ZArith List Lia Bool.
From Verif Require Import Base BaseLemmas GridLemmas Num PartModel PartSpec PartProofs.
From Verif Require Import KernelModel KernelSpec KernelProofs.
Open Scope Z_scope.

Section L.
Context {K : num}.
Variables (npow : K -> K -> K) (nneg : K -> K) (ncopysign : K -> K -> K).
Variable c : @kcfg K.
Notation n := (knZnT c).
Hypothesis Hn : 0 <= n.
(** Global metric. *)
Variable M : Z -> Z -> @metp K.

(** Surface integral over half-grid surface [h]. *)
Definition Gint (h : Z) : lpc :=
  for_up 0 n (fun kl a => lpc_add c (M h kl) (kwInt c (Z.rem kl (knThetaEff c))) a) lpc_zero.

(** Value on full-grid surface [j]. *)
Definition Gavg (j : Z) : lpc :=
  if j =? 0 then Gint 0
  else if j =? kns c - 1 then lpc_avg lpc_zero (Gint (j - 1))
  else lpc_avg (Gint j) (Gint (j - 1)).

Variable sF : Z -> K.
Definition Gpre (j m nn : Z) : K :=
  if (j =? 0) || ((m =? 0) && (nn =? 0)) then c0
  else lambda_precond_point npow ncopysign c (Gavg j) (sF j) m nn.

Variable p : rpart.
Hypothesis RO : range_ok (kns c) (klfreeb c) p.
Variable met : Z -> @metp K.
Hypothesis HM : forall h kl, nsMinH p <= h < nsMaxH p -> 0 <= kl < n ->
  same_metric (klthreed c) (met ((h - nsMinH p) * n + kl)) (M h kl).

Ltac rng := pose proof (ro_ns _ _ _ RO); pose proof (ro_H _ _ _ RO); pose proof (ro_MaxH _ _ _ RO);
  pose proof (ro_F _ _ _ RO); pose proof (ro_minH _ _ _ RO); pose proof (ro_F1 _ _ _ RO);
  pose proof (ro_ne _ _ _ RO); pose proof (ro_le c p RO); try lia.

(** The extra element behind the last half-grid value. *)
Definition sentinel (a : Z -> @lpc K) : Prop :=
  nsMaxF1 p = kns c -> a (kns c - nsMinH p) = lpc_zero.

Lemma lpc_add_same m m' s y : same_metric (klthreed c) m m' -> lpc_add c m s y = lpc_add c m' s y.
Proof.
  intros (E1 & E2 & E3 & E4). unfold lpc_add. rewrite E1, E2, E3.
  destruct (klthreed c); [rewrite E4 by auto|]; reflexivity.
Qed.

Lemma averages_ok a : sentinel a ->
  let r := lambda_averages c p met a in
  (forall j, nsMinF p <= j < nsMaxFIncludingLcfs p -> r (j - nsMinF p) = Gavg j) /\ sentinel r.
Proof.
  intros HS. cbv zeta. unfold lambda_averages.
  match goal with |- context [for_up (nsMinH p) (nsMaxH p) ?b ?s] =>
  destruct (loop_map (fun a : Z -> lpc => a) b
    (fun jH => jH + 1 - nsMinH p) (fun jH _ => Gint jH) (nsMinH p) (nsMaxH p) s) as (A1 & A2) end.
  { intros; lia. }
  { intros j s Hj. cbv beta zeta.
    pose proof (for_up_acc (fun kl (y : lpc) => lpc_add c (met ((j - nsMinH p) * n + kl))
        (kwInt c (Z.rem kl (knThetaEff c))) y) n (j + 1 - nsMinH p) (upd s (j + 1 - nsMinH p) lpc_zero))
      as (A & _).
    cbv beta in A. rewrite A, upd_eq. unfold Gint. apply for_up_ext.
    intros kl t Hk. apply lpc_add_same, HM; auto. }
  { intros j s i Hj Hi. cbv beta zeta.
    pose proof (for_up_acc (fun kl (y : lpc) => lpc_add c (met ((j - nsMinH p) * n + kl))
        (kwInt c (Z.rem kl (knThetaEff c))) y) n (j + 1 - nsMinH p) (upd s (j + 1 - nsMinH p) lpc_zero))
      as (_ & A).
    cbv beta in A. rewrite A by auto. apply upd_neq; auto. }
  cbv beta in A1, A2. set (a1 := for_up (nsMinH p) (nsMaxH p) _ a) in *. clearbody a1.
  assert (S1 : sentinel a1).
  { intros E. rewrite A2; [apply HS; auto|]. intros j Hj. rng. }
  assert (HI : nsMaxFIncludingLcfs p <= nsMaxF1 p /\ nsMinF p < nsMaxFIncludingLcfs p /\
               (nsMaxF1 p < kns c -> nsMaxFIncludingLcfs p = nsMaxF p) /\
               (nsMaxF1 p = kns c -> nsMaxFIncludingLcfs p = kns c)).
  { rewrite (ro_lcfs _ _ _ RO). destruct (Z.eqb_spec (nsMaxF1 p) (kns c)); rng. }
  (* reading the shifted array *)
  assert (RD : forall j, nsMinF p <= j < nsMaxFIncludingLcfs p -> 1 <= j ->
     lpc_avg (a1 (j + 1 - nsMinH p)) (a1 (j - nsMinH p)) = Gavg j).
  { intros j Hj J1. unfold Gavg. destruct (Z.eqb_spec j 0); [lia|].
    replace (j - nsMinH p) with (j - 1 + 1 - nsMinH p) by lia. rewrite (A1 (j - 1)) by rng.
    destruct (Z.eqb_spec j (kns c - 1)) as [E|E].
    - replace (j + 1 - nsMinH p) with (kns c - nsMinH p) by lia. rewrite S1; [reflexivity|]. rng.
    - rewrite A1 by rng. reflexivity. }
  set (a2 := if nsMinF p =? 0 then upd a1 0 (a1 1) else a1).
  set (j0 := Z.max (if nsMinF p =? 0 then 1 else 0) (nsMinF p)).
  assert (J0 : j0 = Z.max 1 (nsMinF p)).
  { subst j0. destruct (Z.eqb_spec (nsMinF p) 0); rng. }
  assert (B0 : nsMinF p = 0 -> a2 0 = Gavg 0).
  { intros E. subst a2. rewrite E. cbn [Z.eqb]. rewrite upd_eq. unfold Gavg. cbn [Z.eqb].
    replace 1 with (0 + 1 - nsMinH p) by rng. apply A1. rng. }
  assert (B1 : forall i, 1 <= i \/ 0 < nsMinF p -> a2 i = a1 i).
  { intros i Hi. subst a2. destruct (Z.eqb_spec (nsMinF p) 0); [|reflexivity].
    apply upd_neq. lia. }
  clearbody a2 j0.
  pose proof (for_up_ind (fun m r =>
     (forall j, j0 <= j < m -> r (j - nsMinF p) = Gavg j) /\
     (forall i, ~ (j0 - nsMinF p <= i < m - nsMinF p) -> r i = a2 i))
     (fun jF a => upd a (jF - nsMinF p)
        (lpc_avg (a (jF + 1 - nsMinH p)) (a (jF - nsMinH p)))) j0 (nsMaxFIncludingLcfs p) a2) as L.
  destruct L as (L1 & L2).
  { rng. }
  { split; intros; [lia|reflexivity]. }
  { intros m r Hm (I1 & I2). split.
    - intros j Hj. destruct (Z.eq_dec j m) as [E|E].
      + subst j. rewrite upd_eq. rewrite !I2 by rng. rewrite !B1 by rng. apply RD; lia.
      + rewrite upd_neq by lia. apply I1. lia.
    - intros i Hi. rewrite upd_neq by lia. apply I2. lia. }
  split.
  - intros j Hj. destruct (Z_le_gt_dec j0 j).
    + apply L1. lia.
    + assert (nsMinF p = 0) as E by rng. assert (j = 0) by rng. subst j.
      rewrite L2 by lia. replace (0 - nsMinF p) with 0 by lia. auto.
  - intros E. rewrite L2 by rng. rewrite B1 by rng. apply S1; auto.
Qed.

Lemma pre_ok x a old : sentinel a ->
  (forall j, nsMinF1 p <= j < nsMaxF1 p -> x (j - nsMinF1 p) = sF j) ->
  0 <= kmpol c -> 0 <= kntor c ->
  forall j m nn, nsMinF p <= j < nsMaxFIncludingLcfs p -> 0 <= m < kmpol c -> 0 <= nn <= kntor c ->
  update_lambda_preconditioner npow ncopysign c p met x a old
    (((j - nsMinF p) * kmpol c + m) * (kntor c + 1) + nn) = Gpre j m nn.
Proof.
  intros HS HX Hm0 Hn0. unfold update_lambda_preconditioner.
  destruct (averages_ok a HS) as (AV & _). cbv zeta in AV.
  set (av := lambda_averages c p met a) in *. clearbody av.
  assert (HI : nsMaxFIncludingLcfs p <= nsMaxF1 p /\ nsMinF p < nsMaxFIncludingLcfs p).
  { rewrite (ro_lcfs _ _ _ RO). destruct (Z.eqb_spec (nsMaxF1 p) (kns c)); rng. }
  set (mp := kmpol c) in *. set (nt := kntor c) in *.
  set (hi := nsMaxFIncludingLcfs p) in *. set (lo := nsMinF p) in *.
  set (pre1 := for_up 0 ((hi - lo) * (nt + 1) * mp) _ old).
  assert (P1 : forall i, 0 <= i < (hi - lo) * (nt + 1) * mp -> pre1 i = c0).
  { destruct (for_up_fill (fun i => i) (fun _ => @c0 K) 0 ((hi - lo) * (nt + 1) * mp) old) as (F & _); auto. }
  clearbody pre1.
  set (j0 := Z.max (if lo =? 0 then 1 else 0) lo).
  assert (J0 : j0 = Z.max 1 lo).
  { subst j0. unfold lo. destruct (Z.eqb_spec (nsMinF p) 0); rng. }
  clearbody j0.
  assert (IX : forall j m nn, lo <= j < hi -> 0 <= m < mp -> 0 <= nn <= nt ->
     0 <= ((j - lo) * mp + m) * (nt + 1) + nn < (hi - lo) * (nt + 1) * mp).
  { intros j m nn Hj Hm Hnn. assert (0 <= (j - lo) * mp + m < (hi - lo) * mp) by nia. nia. }
  assert (INJ : forall j m nn j' m' nn', 0 <= m < mp -> 0 <= nn <= nt -> 0 <= m' < mp -> 0 <= nn' <= nt ->
     ((j - lo) * mp + m) * (nt + 1) + nn = ((j' - lo) * mp + m') * (nt + 1) + nn' ->
     j = j' /\ m = m' /\ nn = nn').
  { intros. apply flat_inj in H3; [|lia|lia]. destruct H3 as (E & E').
    apply flat_inj in E; [|lia|lia]. lia. }
  assert (EV : forall j m nn, j0 <= j < hi -> 0 <= m < mp -> 0 <= nn <= nt -> (m =? 0) && (nn =? 0) = false ->
     lambda_precond_point npow ncopysign c (av (j - lo)) (x (j - nsMinF1 p)) m nn = Gpre j m nn).
  { intros j m nn Hj Hm Hnn E. unfold Gpre. rewrite E. destruct (Z.eqb_spec j 0); [lia|]. cbn [orb].
    unfold lo. rewrite AV by (fold lo; lia). rewrite HX; [reflexivity|]. unfold hi, lo in *. rng. }
  (* three nested loops *)
  pose (done := fun (j nn m j' nn' m' : Z) => j' < j \/ (j' = j /\ (nn' < nn \/ (nn' = nn /\ m' < m)))).
  pose (Inv := fun (j nn m : Z) (r : Z -> K) => forall j' m' nn', lo <= j' < hi -> 0 <= m' < mp -> 0 <= nn' <= nt ->
     r (((j' - lo) * mp + m') * (nt + 1) + nn') =
       if j' <? j0 then c0 else if (m' =? 0) && (nn' =? 0) then c0 else
       if (j' <? j) || ((j' =? j) && ((nn' <? nn) || ((nn' =? nn) && (m' <? m)))) then Gpre j' m' nn' else c0).
  assert (FIN : Inv hi 0 0 (for_up j0 hi (fun jF pre =>
    for_up 0 (nt + 1) (fun n pre =>
      for_up 0 mp (fun m pre =>
        if (m =? 0) && (n =? 0) then pre
        else upd pre (((jF - lo) * mp + m) * (nt + 1) + n)
               (lambda_precond_point npow ncopysign c (av (jF - lo)) (x (jF - nsMinF1 p)) m n))
        pre) pre) pre1)).
  { apply (for_up_ind (fun j r => Inv j 0 0 r)).
    - unfold lo, hi in *. rng.
    - intros j' m' nn' Hj' Hm' Hn'. rewrite P1 by auto.
      destruct (Z.ltb_spec j' j0); [reflexivity|]. destruct ((m' =? 0) && (nn' =? 0)); [reflexivity|].
      destruct (Z.eqb_spec j' j0); cbn [andb orb]; [|reflexivity].
      destruct (Z.ltb_spec nn' 0); [lia|]. destruct (Z.ltb_spec m' 0); [lia|].
      rewrite andb_false_r. reflexivity.
    - intros j r Hj I0.
      assert (G : Inv j (nt + 1) 0 (for_up 0 (nt + 1) (fun n pre =>
        for_up 0 mp (fun m pre =>
        if (m =? 0) && (n =? 0) then pre
        else upd pre (((j - lo) * mp + m) * (nt + 1) + n)
               (lambda_precond_point npow ncopysign c (av (j - lo)) (x (j - nsMinF1 p)) m n)) pre) r)).
      { apply (for_up_ind (fun nn r => Inv j nn 0 r)); [lia|exact I0|].
        intros nn r' Hnn I1.
        assert (G : Inv j nn mp (for_up 0 mp (fun m pre =>
          if (m =? 0) && (nn =? 0) then pre
          else upd pre (((j - lo) * mp + m) * (nt + 1) + nn)
               (lambda_precond_point npow ncopysign c (av (j - lo)) (x (j - nsMinF1 p)) m nn)) r')).
        { apply (for_up_ind (fun m r => Inv j nn m r)); [lia|exact I1|].
          intros m r'' Hm I2 j' m' nn' Hj' Hm' Hn'.
          destruct ((m =? 0) && (nn =? 0)) eqn:ZZ.
          - rewrite I2 by auto. destruct (Z.ltb_spec j' j0); [reflexivity|].
            destruct ((m' =? 0) && (nn' =? 0)) eqn:ZZ'; [reflexivity|].
            assert (~ (nn' = nn /\ m' = m)).
            { intros (E1 & E2). subst. congruence. }
            destruct (Z.ltb_spec j' j); [reflexivity|]. cbn [orb].
            destruct (Z.eqb_spec j' j); [|reflexivity]. cbn [andb].
            destruct (Z.ltb_spec nn' nn); [reflexivity|]. cbn [orb].
            destruct (Z.eqb_spec nn' nn); [|reflexivity]. cbn [andb].
            destruct (Z.ltb_spec m' m), (Z.ltb_spec m' (m + 1)); auto; lia.
          - destruct (Z.eq_dec (((j' - lo) * mp + m') * (nt + 1) + nn') (((j - lo) * mp + m) * (nt + 1) + nn)) as [E|E].
            + rewrite E, upd_eq. apply INJ in E; try lia. destruct E as (E1 & E2 & E3). subst j' m' nn'.
              rewrite EV by (auto; lia). rewrite ZZ.
              destruct (Z.ltb_spec j j0); [lia|]. rewrite !Z.eqb_refl.
              destruct (Z.ltb_spec m (m + 1)); [|lia]. cbn. rewrite !orb_true_r. reflexivity.
            + rewrite upd_neq by auto. rewrite I2 by auto.
              destruct (Z.ltb_spec j' j0); [reflexivity|].
              destruct ((m' =? 0) && (nn' =? 0)); [reflexivity|].
              destruct (Z.ltb_spec j' j); [reflexivity|]. cbn [orb].
              destruct (Z.eqb_spec j' j); [|reflexivity]. cbn [andb].
              destruct (Z.ltb_spec nn' nn); [reflexivity|]. cbn [orb].
              destruct (Z.eqb_spec nn' nn); [|reflexivity]. cbn [andb].
              destruct (Z.ltb_spec m' m), (Z.ltb_spec m' (m + 1)); auto; try lia.
              exfalso. apply E. subst. replace m' with m by lia. reflexivity. }
        intros j' m' nn' Hj' Hm' Hn'. rewrite G by auto.
        destruct (Z.ltb_spec j' j0); [reflexivity|].
        destruct ((m' =? 0) && (nn' =? 0)); [reflexivity|].
        destruct (Z.ltb_spec j' j); [reflexivity|]. cbn [orb].
        destruct (Z.eqb_spec j' j); [|reflexivity]. cbn [andb].
        destruct (Z.ltb_spec m' mp); [|lia]. destruct (Z.ltb_spec m' 0); [lia|].
        rewrite andb_true_r, andb_false_r, orb_false_r.
        destruct (Z.ltb_spec nn' nn), (Z.eqb_spec nn' nn), (Z.ltb_spec nn' (nn + 1)); cbn; auto; lia. }
      intros j' m' nn' Hj' Hm' Hn'. rewrite G by auto.
      destruct (Z.ltb_spec j' j0); [reflexivity|].
      destruct ((m' =? 0) && (nn' =? 0)); [reflexivity|].
      destruct (Z.ltb_spec m' 0); [lia|]. rewrite !andb_false_r, !orb_false_r.
      destruct (Z.ltb_spec nn' (nt + 1)); [|lia]. destruct (Z.ltb_spec nn' 0); [lia|].
      rewrite andb_false_r, andb_true_r, orb_false_r.
      destruct (Z.ltb_spec j' j), (Z.eqb_spec j' j), (Z.ltb_spec j' (j + 1)); cbn; auto; lia. }
  intros j m nn Hj Hm Hnn. rewrite (FIN j m nn) by auto.
  unfold Gpre. destruct (Z.ltb_spec j j0).
  - destruct (Z.eqb_spec j 0); [reflexivity|]. unfold lo in *. rng.
  - destruct (Z.eqb_spec j 0); [lia|]. cbn [orb].
    destruct ((m =? 0) && (nn =? 0)); [reflexivity|].
    destruct (Z.ltb_spec j hi); [reflexivity|lia].
Qed.
End L.
