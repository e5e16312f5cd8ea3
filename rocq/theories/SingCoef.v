(** The coefficient tables cmn and cmns. *)
From Coq Require Import ZArith Reals Lra Lia Bool Factorial.
From Verif Require Import Base BaseLemmas SingModel SingSpec.
Open Scope R_scope.

(** ** Factorials at integers *)
Definition rf (z : Z) : R := INR (fact (Z.to_nat z)).
Lemma rf_pos z : 0 < rf z.
Proof. apply lt_0_INR, lt_O_fact. Qed.
Lemma rf_succ z : (0 <= z)%Z -> rf (z + 1) = IZR (z + 1) * rf z.
Proof.
  intros H. unfold rf. replace (Z.to_nat (z + 1)) with (S (Z.to_nat z)) by lia.
  rewrite fact_simpl, mult_INR, (INR_IZR_INZ (S _)). f_equal. f_equal. lia.
Qed.
Lemma rf_0 : rf 0 = 1.
Proof. reflexivity. Qed.

Lemma idx_inj mf nf l1 l2 n1 n2 m1 m2 : (0 <= n1 <= nf)%Z -> (0 <= n2 <= nf)%Z ->
  (0 <= m1 <= mf)%Z -> (0 <= m2 <= mf)%Z ->
  lnm_idx mf nf l1 n1 m1 = lnm_idx mf nf l2 n2 m2 -> l1 = l2 /\ n1 = n2 /\ m1 = m2.
Proof.
  intros N1 N2 M1 M2 E. unfold lnm_idx in E.
  apply (flat_inj (mf + 1)) in E; [|lia|lia]. destruct E as [E ->].
  apply (flat_inj (nf + 1)) in E; [|lia|lia]. destruct E as [-> ->]. auto.
Qed.

(** ** One mode *)
Section MODE.
Variables mf nf m n : Z.
Hypothesis Hm : (0 <= m <= mf)%Z.
Hypothesis Hn : (0 <= n <= nf)%Z.
Let p := Z.max m n.
Let q := Z.min m n.

Lemma start_val : cmn_start m n = (rf p / rf q, rf (p - q)).
Proof.
  unfold cmn_start. replace (Z.abs (m - n)) with (p - q)%Z by lia. fold p.
  pose proof (for_up_ind (fun i st => st = (rf p / rf (p - i + 1), rf (i - 1)))
    (fun i '(f1, f2) => (f1 * IZR (p - i + 1), f2 * IZR i)) 1%Z (p - q + 1)%Z (1, 1)) as H.
  rewrite H.
  - f_equal; [|f_equal; lia]. f_equal. f_equal. lia.
  - lia.
  - replace (p - 1 + 1)%Z with p by lia. change (1 - 1)%Z with 0%Z. rewrite rf_0.
    f_equal. pose proof (rf_pos p). field. lra.
  - intros j t Hj ->. f_equal.
    + pose proof (rf_pos p). pose proof (rf_pos (p - (j + 1) + 1)).
      replace (p - j + 1)%Z with ((p - (j + 1) + 1) + 1)%Z by lia. rewrite rf_succ by lia.
      assert (IZR (p - (j + 1) + 1 + 1) <> 0) by (apply not_0_IZR; lia).
      field. split; lra.
    + replace (j + 1 - 1)%Z with (j - 1 + 1)%Z by lia. rewrite rf_succ by lia.
      replace (j - 1 + 1)%Z with j by lia. ring.
Qed.

Definition sg0 : R := if (Z.max 0 (n - m) mod 2 =? 0)%Z then 1 else -1.

Lemma sg0_pow : sg0 = (-1) ^ Z.to_nat (Z.max 0 (n - m)).
Proof.
  unfold sg0. set (z := Z.max 0 (n - m)). assert (Hz : (0 <= z)%Z) by lia.
  destruct (Z.eqb_spec (z mod 2) 0) as [E|E].
  - replace (Z.to_nat z) with (2 * Z.to_nat (z / 2))%nat.
    + rewrite pow_mult. replace ((-1) ^ 2) with 1 by ring. rewrite pow1. reflexivity.
    + pose proof (Z.div_mod z 2 ltac:(lia)). pose proof (Z.div_pos z 2). lia.
  - replace (Z.to_nat z) with (1 + 2 * Z.to_nat (z / 2))%nat.
    + rewrite pow_add, pow_mult. replace ((-1) ^ 2) with 1 by ring. rewrite pow1. ring.
    + pose proof (Z.div_mod z 2 ltac:(lia)). pose proof (Z.div_pos z 2). 
      pose proof (Z.mod_pos_bound z 2). lia.
Qed.

(** Value stored at pass i. *)
Definition cval (i : Z) : R :=
  rf (p + i) / rf (q - i) / (rf (p - q + i) * rf i) * (sg0 * (-1) ^ Z.to_nat i).

Lemma cval_zernike i : (0 <= i <= q)%Z ->
  cval i = zernike (Z.to_nat m) (Z.to_nat n) (Z.to_nat (q - i)).
Proof.
  intros Hi. unfold cval, zernike. rewrite sg0_pow, <- pow_add. unfold rf.
  replace (Z.to_nat m + Z.to_nat n - Z.to_nat (q - i))%nat with (Z.to_nat (p + i)) by lia.
  assert (Es : (-1) ^ (Z.to_nat (Z.max 0 (n - m)) + Z.to_nat i) = (-1) ^ (Z.to_nat n + Z.to_nat (q - i))).
  { destruct (Z.le_ge_cases n m) as [H|H].
    - replace (Z.to_nat n + Z.to_nat (q - i))%nat with (Z.to_nat (Z.max 0 (n - m)) + Z.to_nat i + 2 * Z.to_nat (n - i))%nat by lia.
      rewrite (pow_add _ _ (2 * _)), pow_mult. replace ((-1) ^ 2) with 1 by ring. rewrite pow1. ring.
    - replace (Z.to_nat n + Z.to_nat (q - i))%nat with (Z.to_nat (Z.max 0 (n - m)) + Z.to_nat i + 2 * Z.to_nat (m - i))%nat by lia.
      rewrite (pow_add _ _ (2 * _)), pow_mult. replace ((-1) ^ 2) with 1 by ring. rewrite pow1. ring. }
  rewrite Es.
  pose proof (INR_fact_neq_0 (Z.to_nat (q - i))). pose proof (INR_fact_neq_0 (Z.to_nat (p - q + i))).
  pose proof (INR_fact_neq_0 (Z.to_nat i)).
  destruct (Z.le_ge_cases n m) as [Hle|Hle].
  - replace (Z.to_nat m - Z.to_nat (q - i))%nat with (Z.to_nat (p - q + i)) by lia.
    replace (Z.to_nat n - Z.to_nat (q - i))%nat with (Z.to_nat i) by lia. field. auto.
  - replace (Z.to_nat m - Z.to_nat (q - i))%nat with (Z.to_nat i) by lia.
    replace (Z.to_nat n - Z.to_nat (q - i))%nat with (Z.to_nat (p - q + i)) by lia. field. auto.
Qed.

Lemma mode_val cmn :
  (forall i, (0 <= i <= q)%Z -> cmn_mode mf nf n m cmn (lnm_idx mf nf (p - q + 2 * i) n m) = cval i) /\
  (forall x, (forall i, (0 <= i <= q)%Z -> x <> lnm_idx mf nf (p - q + 2 * i) n m) ->
     cmn_mode mf nf n m cmn x = cmn x).
Proof.
  unfold cmn_mode. rewrite start_val. fold sg0.
  replace (Z.abs (m - n)) with (p - q)%Z by lia.
  replace ((m + n - (p - q)) / 2 + 1)%Z with (q + 1)%Z.
  2:{ replace (m + n - (p - q))%Z with (q * 2)%Z by lia. rewrite Z.div_mul by lia. reflexivity. }
  match goal with |- context [for_up 0 (q + 1) ?b ?s] =>
    pose proof (for_up_ind (fun i st => let '(c, f1, f2, f3, sg) := st in
      (forall j, (0 <= j < i)%Z -> c (lnm_idx mf nf (p - q + 2 * j) n m) = cval j) /\
      (forall x, (forall j, (0 <= j < i)%Z -> x <> lnm_idx mf nf (p - q + 2 * j) n m) -> c x = cmn x) /\
      ((i <= q)%Z -> f1 = rf (p + i) / rf (q - i)) /\ f2 = rf (p - q + i) /\ f3 = rf i /\
      sg = sg0 * (-1) ^ Z.to_nat i) b 0%Z (q + 1)%Z s) as Hind end.
  cbv beta iota zeta in Hind |- *.
  match goal with |- context [for_up 0 (q + 1) ?b ?s] =>
    destruct (for_up 0 (q + 1) b s) as [[[[c f1] f2] f3] sg] end.
  destruct Hind as (H1 & H2 & _).
  - lia.
  - split; [intros; lia|]. split; [reflexivity|]. split; [intros _; f_equal; f_equal; lia|].
    split; [f_equal; lia|]. split; [symmetry; apply rf_0|]. cbn. ring.
  - intros i [[[[c1 g1] g2] g3] sg1] Hi (K1 & K2 & K3 & K4 & K5 & K6). specialize (K3 ltac:(lia)).
    split; [|split; [|split; [|split; [|split]]]].
    + intros j Hj. destruct (Z.eq_dec j i) as [->|N].
      * rewrite upd_eq. unfold cval. rewrite K3, K4, K5, K6. reflexivity.
      * rewrite upd_neq; [apply K1; lia|]. intros E. apply idx_inj in E; lia.
    + intros x Hx. rewrite upd_neq by (apply Hx; lia). apply K2. intros j Hj. apply Hx. lia.
    + intros Hq. rewrite K3. replace (p + (i + 1))%Z with (p + i + 1)%Z by lia.
      rewrite rf_succ by lia. replace (q - i)%Z with (q - (i + 1) + 1)%Z at 1 by lia.
      rewrite rf_succ by lia. pose proof (rf_pos (q - (i + 1))).
      replace (q - (i + 1) + 1)%Z with (q - i)%Z by lia.
      replace ((p - q + 2 * i + 2 + (m + n)) * (m + n - (p - q + 2 * i)))%Z with (4 * (p + i + 1) * (q - i))%Z.
      2:{ replace (m + n)%Z with (p + q)%Z by lia. ring. }
      rewrite !mult_IZR. assert (IZR (q - i) <> 0) by (apply not_0_IZR; lia). field. split; lra.
    + rewrite K4. replace (p - q + (i + 1))%Z with (p - q + i + 1)%Z by lia. rewrite rf_succ by lia.
      replace (p - q + 2 * i + 2 + (p - q))%Z with (2 * (p - q + i + 1))%Z by lia. rewrite mult_IZR. field.
    + rewrite K5, rf_succ by lia.
      replace (p - q + 2 * i + 2 - (p - q))%Z with (2 * (i + 1))%Z by lia. rewrite mult_IZR. field.
    + rewrite K6. replace (Z.to_nat (i + 1)) with (S (Z.to_nat i)) by lia. cbn [pow]. ring.
  - split; [intros i Hi; apply H1; lia|]. intros x Hx. apply H2. intros j Hj. apply Hx. lia.
Qed.
End MODE.

(** Value of an entry of the finished table. *)
Definition centry (l n m : Z) : R :=
  if ((Z.abs (m - n) <=? l) && (l <=? m + n) && ((m + n - l) mod 2 =? 0))%Z%bool
  then zernike (Z.to_nat m) (Z.to_nat n) (Z.to_nat ((m + n - l) / 2)) else 0.

Lemma mode_entry mf nf m n cmn l' n' m' : (0 <= m <= mf)%Z -> (0 <= n <= nf)%Z ->
  (0 <= m' <= mf)%Z -> (0 <= n' <= nf)%Z -> (cmn (lnm_idx mf nf l' n' m') = 0) ->
  cmn_mode mf nf n m cmn (lnm_idx mf nf l' n' m') =
  if ((n' =? n) && (m' =? m))%Z%bool then centry l' n m else 0.
Proof.
  intros Hm Hn Hm' Hn' H0. destruct (mode_val mf nf m n Hm Hn cmn) as (V1 & V2).
  destruct (Z.eqb_spec n' n) as [->|Nn]; cbn [andb].
  2:{ rewrite V2; [assumption|]. intros i Hi E. apply idx_inj in E; lia. }
  destruct (Z.eqb_spec m' m) as [->|Nm].
  2:{ rewrite V2; [assumption|]. intros i Hi E. apply idx_inj in E; lia. }
  unfold centry.
  destruct (Z.leb_spec (Z.abs (m - n)) l') as [H1|H1]; cbn [andb];
    [|rewrite V2; [assumption|]; intros i Hi E; apply idx_inj in E; lia].
  destruct (Z.leb_spec l' (m + n)) as [H2|H2]; cbn [andb];
    [|rewrite V2; [assumption|]; intros i Hi E; apply idx_inj in E; lia].
  pose proof (Z.div_mod (m + n - l') 2 ltac:(lia)) as Hdm.
  destruct (Z.eqb_spec ((m + n - l') mod 2) 0) as [H3|H3].
  - set (s := ((m + n - l') / 2)%Z) in *.
    replace l' with (Z.max m n - Z.min m n + 2 * (Z.min m n - s))%Z by lia.
    rewrite V1 by lia. erewrite cval_zernike; [|eassumption..|lia]. f_equal. f_equal. lia.
  - rewrite V2; [assumption|]. intros i Hi E. apply idx_inj in E; try lia.
    destruct E as (E & _). apply H3. subst l'.
    replace (m + n - (Z.max m n - Z.min m n + 2 * i))%Z with ((Z.min m n - i) * 2)%Z by lia.
    apply Z.mod_mul. lia.
Qed.

Lemma mode_other mf nf m n cmn l' n' m' : (0 <= m <= mf)%Z -> (0 <= n <= nf)%Z ->
  (0 <= m' <= mf)%Z -> (0 <= n' <= nf)%Z -> (n' <> n \/ m' <> m) ->
  cmn_mode mf nf n m cmn (lnm_idx mf nf l' n' m') = cmn (lnm_idx mf nf l' n' m').
Proof.
  intros Hm Hn Hm' Hn' Hne. destruct (mode_val mf nf m n Hm Hn cmn) as (_ & V2).
  apply V2. intros i Hi E. apply idx_inj in E; lia.
Qed.

Lemma cmn_entry mf nf l n m : (0 <= mf)%Z -> (0 <= nf)%Z -> (0 <= m <= mf)%Z -> (0 <= n <= nf)%Z ->
  cmn_table mf nf (lnm_idx mf nf l n m) = centry l n m.
Proof.
  intros Hmf Hnf Hm Hn. unfold cmn_table.
  pose proof (for_up_ind (fun nn c => forall n' m', (0 <= m' <= mf)%Z -> (0 <= n' <= nf)%Z ->
      c (lnm_idx mf nf l n' m') = if (n' <? nn)%Z then centry l n' m' else 0)
    (fun n cmn => for_up 0 (mf + 1) (fun m cmn => cmn_mode mf nf n m cmn) cmn) 0%Z (nf + 1)%Z (fun _ => 0)) as H.
  rewrite H; try assumption; try lia.
  - destruct (Z.ltb_spec n (nf + 1)); [reflexivity|lia].
  - intros n' m' _ Hn'. destruct (Z.ltb_spec n' 0); [lia|reflexivity].
  - clear H. intros n1 c Hn1 K.
    pose proof (for_up_ind (fun mm c => forall n' m', (0 <= m' <= mf)%Z -> (0 <= n' <= nf)%Z ->
      c (lnm_idx mf nf l n' m') = if ((n' <? n1) || ((n' =? n1) && (m' <? mm)))%Z%bool then centry l n' m' else 0)
      (fun m cmn => cmn_mode mf nf n1 m cmn) 0%Z (mf + 1)%Z c) as H.
    intros n' m' Hm' Hn'. rewrite H; try assumption; try lia.
    + destruct (Z.ltb_spec n' n1); cbn [orb]; [destruct (Z.ltb_spec n' (n1 + 1)); [reflexivity|lia]|].
      destruct (Z.eqb_spec n' n1); destruct (Z.ltb_spec n' (n1 + 1)); destruct (Z.ltb_spec m' (mf + 1));
        cbn [andb]; try lia; reflexivity.
    + intros n2 m2 Hm2 Hn2. rewrite K by assumption. destruct (Z.ltb_spec n2 n1); cbn [orb]; [reflexivity|].
      destruct (Z.ltb_spec m2 0); [lia|]. rewrite andb_false_r. reflexivity.
    + clear H. intros m1 c1 Hm1 K1 n2 m2 Hm2 Hn2.
      destruct (Z.eq_dec n2 n1) as [->|Nn]; [destruct (Z.eq_dec m2 m1) as [->|Nm]|].
      * rewrite mode_entry; try lia.
        -- rewrite !Z.eqb_refl. rewrite Z.ltb_irrefl. destruct (Z.ltb_spec m1 (m1 + 1)); [reflexivity|lia].
        -- rewrite K1 by assumption. rewrite !Z.ltb_irrefl, andb_false_r. reflexivity.
      * rewrite mode_other by lia. rewrite K1 by assumption.
        rewrite Z.ltb_irrefl, Z.eqb_refl. cbn [orb andb].
        destruct (Z.ltb_spec m2 m1), (Z.ltb_spec m2 (m1 + 1)); try lia; reflexivity.
      * rewrite mode_other by lia. rewrite K1 by assumption.
        destruct (Z.eqb_spec n2 n1); [lia|]. reflexivity.
Qed.

(** cmns *)
Definition cs_val (l n m : Z) : R :=
  if ((m =? 0) && (n =? 0))%Z%bool then centry l n m
  else if (m =? 0)%Z then (centry l n m + centry l (n - 1) m) / 2
  else if (n =? 0)%Z then (centry l n m + centry l n (m - 1)) / 2
  else (centry l n m + centry l (n - 1) m + centry l n (m - 1) + centry l (n - 1) (m - 1)) / 2.

Lemma cmns_entry mf nf c0 l n m : (0 <= mf)%Z -> (0 <= nf)%Z -> (0 <= m <= mf)%Z -> (0 <= n <= nf)%Z ->
  (0 <= l <= mf + nf)%Z ->
  cmns_table mf nf (cmn_table mf nf) c0 (lnm_idx mf nf l n m) = cs_val l n m.
Proof.
  intros Hmf Hnf Hm Hn Hl. unfold cmns_table.
  match goal with |- for_up 0 (nf + 1) ?b ?s _ = _ =>
    pose proof (for_up_ind (fun nn c => forall l' n' m', (0 <= m' <= mf)%Z -> (0 <= n' <= nf)%Z ->
      (0 <= l' <= mf + nf)%Z -> (n' < nn)%Z -> c (lnm_idx mf nf l' n' m') = cs_val l' n' m') b 0%Z (nf + 1)%Z s) as H end.
  rewrite H; try assumption; try lia; [reflexivity|].
  clear H. intros n1 c Hn1 K.
  match goal with |- context [for_up 0 (mf + 1) ?b c] =>
    pose proof (for_up_ind (fun mm c => forall l' n' m', (0 <= m' <= mf)%Z -> (0 <= n' <= nf)%Z ->
      (0 <= l' <= mf + nf)%Z -> (n' < n1 \/ (n' = n1 /\ m' < mm))%Z ->
      c (lnm_idx mf nf l' n' m') = cs_val l' n' m') b 0%Z (mf + 1)%Z c) as H end.
  intros l' n' m' Hm' Hn' Hl' Hlt. rewrite H; try assumption; try lia; [reflexivity| |].
  { intros; apply K; lia. }
  clear H l' n' m' Hm' Hn' Hl' Hlt. intros m1 c1 Hm1 K1.
  cbv beta zeta.
  match goal with |- context [for_up 0 (1 + mf + nf) ?b c1] =>
    pose proof (for_up_ind (fun ll c => forall l' n' m', (0 <= m' <= mf)%Z -> (0 <= n' <= nf)%Z ->
      (0 <= l' <= mf + nf)%Z -> (n' < n1 \/ (n' = n1 /\ (m' < m1 \/ (m' = m1 /\ l' < ll))))%Z ->
      c (lnm_idx mf nf l' n' m') = cs_val l' n' m') b 0%Z (1 + mf + nf)%Z c1) as H end.
  intros l' n' m' Hm' Hn' Hl' Hlt. rewrite H; try assumption; try lia; [reflexivity| |].
  { intros; apply K1; lia. }
  clear H l' n' m' Hm' Hn' Hl' Hlt. intros l1 c2 Hl1 K2 l' n' m' Hm' Hn' Hl' Hlt.
  assert (Ei : forall nn mm, (l1 * (mf + 1) * (nf + 1) + (nn * (mf + 1) + mm))%Z = lnm_idx mf nf l1 nn mm).
  { intros. unfold lnm_idx. ring. }
  rewrite !Ei.
  destruct (Z.eq_dec (lnm_idx mf nf l' n' m') (lnm_idx mf nf l1 n1 m1)) as [E|N].
  - rewrite E, upd_eq. apply idx_inj in E; try lia. destruct E as (-> & -> & ->).
    unfold cs_val. rewrite cmn_entry by lia.
    destruct (Z.eqb_spec m1 0) as [E1|N1], (Z.eqb_spec n1 0) as [E2|N2]; cbn [andb].
    + reflexivity.
    + destruct (Z.ltb_spec 0 n1); [|lia]. rewrite cmn_entry by lia. reflexivity.
    + destruct (Z.ltb_spec 0 m1); [|lia]. rewrite cmn_entry by lia. reflexivity.
    + rewrite andb_false_r. rewrite !cmn_entry by lia. reflexivity.
  - rewrite upd_neq by assumption. apply K2; try assumption.
    destruct Hlt as [?|(-> & [?|(-> & ?)])]; [left; assumption|right; split; [reflexivity|left; assumption]|].
    right. split; [reflexivity|]. right. split; [reflexivity|].
    destruct (Z.eq_dec l' l1) as [->|]; [contradiction|lia].
Qed.

Lemma centry_at m n s : (s <= m)%nat -> (s <= n)%nat ->
  centry (Z.of_nat (m + n - 2 * s)) (Z.of_nat n) (Z.of_nat m) = zernike m n s.
Proof.
  intros H1 H2. unfold centry.
  replace (Z.of_nat m + Z.of_nat n - Z.of_nat (m + n - 2 * s))%Z with (Z.of_nat s * 2)%Z by lia.
  rewrite Z.mod_mul, Z.div_mul by lia. rewrite !Nat2Z.id.
  destruct (Z.leb_spec (Z.abs (Z.of_nat m - Z.of_nat n)) (Z.of_nat (m + n - 2 * s))); [|lia].
  destruct (Z.leb_spec (Z.of_nat (m + n - 2 * s)) (Z.of_nat m + Z.of_nat n)); [|lia]. reflexivity.
Qed.

Lemma cmn_closed : forall mf nf m n s, (Z.of_nat m <= mf)%Z -> (Z.of_nat n <= nf)%Z -> (s <= m)%nat -> (s <= n)%nat ->
    cmn_table mf nf (lnm_idx mf nf (Z.of_nat (m + n - 2 * s)) (Z.of_nat n) (Z.of_nat m)) = zernike m n s.
Proof. intros. rewrite cmn_entry by lia. apply centry_at; assumption. Qed.

Lemma cmn_other : forall mf nf l m n, (0 <= m <= mf)%Z -> (0 <= n <= nf)%Z ->
    (forall s, (0 <= s)%Z -> (s <= m)%Z -> (s <= n)%Z -> l <> (m + n - 2 * s)%Z) ->
    cmn_table mf nf (lnm_idx mf nf l n m) = 0.
Proof.
  intros mf nf l m n Hm Hn H. rewrite cmn_entry by lia. unfold centry.
  destruct (Z.leb_spec (Z.abs (m - n)) l); cbn [andb]; [|reflexivity].
  destruct (Z.leb_spec l (m + n)); cbn [andb]; [|reflexivity].
  destruct (Z.eqb_spec ((m + n - l) mod 2) 0) as [E|E]; [|reflexivity].
  exfalso. pose proof (Z.div_mod (m + n - l) 2 ltac:(lia)).
  apply (H ((m + n - l) / 2)%Z); lia.
Qed.

Lemma cmns_closed : forall mf nf c0 l n m, (0 <= m <= mf)%Z -> (0 <= n <= nf)%Z -> (0 <= l <= mf + nf)%Z ->
    let c := fun n m => cmn_table mf nf (lnm_idx mf nf l n m) in
    cmns_table mf nf (cmn_table mf nf) c0 (lnm_idx mf nf l n m) =
      if Z.eq_dec m 0 then if Z.eq_dec n 0 then c 0%Z 0%Z else (c n 0%Z + c (n - 1)%Z 0%Z) / 2
      else if Z.eq_dec n 0 then (c 0%Z m + c 0%Z (m - 1)%Z) / 2
      else (c n m + c (n - 1)%Z m + c n (m - 1)%Z + c (n - 1)%Z (m - 1)%Z) / 2.
Proof.
  intros mf nf c0 l n m Hm Hn Hl c. rewrite cmns_entry by lia. unfold cs_val, c.
  destruct (Z.eq_dec m 0) as [->|Nm], (Z.eq_dec n 0) as [->|Nn]; cbn [Z.eqb andb].
  - rewrite cmn_entry by lia. reflexivity.
  - destruct (Z.eqb_spec n 0); [lia|]. rewrite !cmn_entry by lia. reflexivity.
  - destruct (Z.eqb_spec m 0); [lia|]. cbn [andb]. rewrite !cmn_entry by lia. reflexivity.
  - destruct (Z.eqb_spec m 0); [lia|]. destruct (Z.eqb_spec n 0); [lia|]. cbn [andb].
    rewrite !cmn_entry by lia. reflexivity.
Qed.

Lemma cmn_case : cmn_table 4 3 (lnm_idx 4 3 1 1 2) = 2 /\ cmn_table 4 3 (lnm_idx 4 3 3 1 2) = -3.
Proof.
  pose proof (cmn_closed 4 3 2 1 1 ltac:(lia) ltac:(lia) ltac:(lia) ltac:(lia)) as H1.
  pose proof (cmn_closed 4 3 2 1 0 ltac:(lia) ltac:(lia) ltac:(lia) ltac:(lia)) as H2.
  cbn [Nat.add Nat.sub Nat.mul Z.of_nat Pos.of_succ_nat Pos.succ] in H1, H2.
  split; [rewrite H1|rewrite H2]; unfold zernike; cbn; field.
Qed.
