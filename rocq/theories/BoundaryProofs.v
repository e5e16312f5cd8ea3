From Coq Require Import ZArith List Bool Reals Lra Lia.
From Verif Require Import Base BaseLemmas SumLemmas FourierModel FourierSpec FourierProofs BoundaryModel BoundarySpec.
Import ListNotations.
Open Scope R_scope.

(** ** atan2 *)
Lemma atan2_spec y x : exists r, 0 <= r /\ x = r * cos (atan2 y x) /\ y = r * sin (atan2 y x).
Proof.
  assert (CA : forall t, 0 < cos (atan t)) by (intro t; pose proof (atan_bound t); apply cos_gt_0; lra).
  assert (SA : forall t, sin (atan t) = t * cos (atan t)).
  { intro t. pose proof (CA t). rewrite <- (tan_atan t) at 2. unfold tan. field. lra. }
  unfold atan2. destruct (total_order_T x 0) as [[H|H]|H].
  - exists (- x / cos (atan (y / x))). pose proof (CA (y / x)).
    assert (E : forall s, s = PI \/ s = - PI -> x = - x / cos (atan (y / x)) * cos (atan (y / x) + s) /\ y = - x / cos (atan (y / x)) * sin (atan (y / x) + s)).
    { intros s Hs. assert (C1 : cos s = -1) by (destruct Hs; subst; rewrite ?cos_neg; apply cos_PI).
      assert (S1 : sin s = 0) by (destruct Hs; subst; rewrite ?sin_neg, sin_PI; lra).
      rewrite cos_plus, sin_plus, C1, S1, SA. split; field; try split; lra. }
    split; [apply Rlt_le, Rdiv_lt_0_compat; lra|].
    destruct (Rle_dec 0 y); apply E; auto.
  - subst x. destruct (total_order_T y 0) as [[G|G]|G].
    + exists (- y). rewrite cos_neg, sin_neg, cos_PI2, sin_PI2. repeat split; lra.
    + exists 0. subst. repeat split; lra.
    + exists y. rewrite cos_PI2, sin_PI2. repeat split; lra.
  - exists (x / cos (atan (y / x))). pose proof (CA (y / x)).
    split; [apply Rlt_le, Rdiv_lt_0_compat; lra|]. rewrite SA. split; field; try split; lra.
Qed.

Lemma req_true x y : req x y = true <-> x = y.
Proof. unfold req. destruct (Req_EM_T x y); split; auto; discriminate. Qed.

Section Bdy.
Variables (lasym lthreed : bool) (mpol ntor : Z).
Hypothesis Hm : (1 <= mpol)%Z.
Hypothesis Hn : (0 <= ntor)%Z.
Hypothesis H3 : lthreed = (0 <? ntor)%Z.
Variable id : indata_bdy.

(** Shifted coefficients, uniform in delta. *)
Definition dl := shift_delta lasym ntor id.
Definition rbc' m c := in_rbc id m c * cos (IZR m * dl) + (if lasym then in_rbs id m c * sin (IZR m * dl) else 0).
Definition zbs' m c := in_zbs id m c * cos (IZR m * dl) - (if lasym then in_zbc id m c * sin (IZR m * dl) else 0).
Definition rbs' m c := in_rbs id m c * cos (IZR m * dl) - in_rbc id m c * sin (IZR m * dl).
Definition zbc' m c := in_zbc id m c * cos (IZR m * dl) + in_zbs id m c * sin (IZR m * dl).

Lemma dl0 : lasym = false -> dl = 0.
Proof. unfold dl, shift_delta. intros ->. reflexivity. Qed.
Lemma cs0 m : dl = 0 -> cos (IZR m * dl) = 1 /\ sin (IZR m * dl) = 0.
Proof. intros ->. rewrite Rmult_0_r, cos_0, sin_0. auto. Qed.

Definition ind (b : bool) (x : R) := if b then x else 0.
Definition ix (m n : Z) : Z := (m * (ntor + 1) + Z.abs n)%Z.

(** Effect of one mode on each array. *)
Lemma parse_mode_add m n b i :
  rbcc (parse_mode lasym lthreed ntor id dl m n b) i = rbcc b i + ind (i =? ix m n)%Z (rbc' m (ntor + n)%Z) /\
  zbsc (parse_mode lasym lthreed ntor id dl m n b) i = zbsc b i + ind ((i =? ix m n) && (m >? 0))%Z (zbs' m (ntor + n)%Z) /\
  rbss (parse_mode lasym lthreed ntor id dl m n b) i = rbss b i + ind ((i =? ix m n)%Z && (lthreed && (m >? 0)%Z)) (IZR (signum n) * rbc' m (ntor + n)%Z) /\
  zbcs (parse_mode lasym lthreed ntor id dl m n b) i = zbcs b i + ind ((i =? ix m n)%Z && lthreed) (- (IZR (signum n) * zbs' m (ntor + n)%Z)) /\
  (lasym = true ->
  rbsc (parse_mode lasym lthreed ntor id dl m n b) i = rbsc b i + ind ((i =? ix m n) && (m >? 0))%Z (rbs' m (ntor + n)%Z) /\
  zbcc (parse_mode lasym lthreed ntor id dl m n b) i = zbcc b i + ind (i =? ix m n)%Z (zbc' m (ntor + n)%Z) /\
  rbcs (parse_mode lasym lthreed ntor id dl m n b) i = rbcs b i + ind ((i =? ix m n)%Z && lthreed) (- (IZR (signum n) * rbs' m (ntor + n)%Z)) /\
  zbss (parse_mode lasym lthreed ntor id dl m n b) i = zbss b i + ind ((i =? ix m n)%Z && (lthreed && (m >? 0)%Z)) (IZR (signum n) * zbc' m (ntor + n)%Z)).
Proof.
  unfold parse_mode. fold dl.
  set (RBC := if negb lasym || req dl 0 then _ else _). set (ZBS := if negb lasym || req dl 0 then in_zbs id m (ntor + n)%Z else _).
  set (RBS := if req dl 0 then in_rbs id m (ntor + n)%Z else _). set (ZBC := if req dl 0 then in_zbc id m (ntor + n)%Z else _).
  assert (E1 : RBC = rbc' m (ntor + n)%Z).
  { unfold RBC, rbc'. destruct (req dl 0) eqn:Q.
    - apply req_true in Q. rewrite orb_true_r. destruct (cs0 m Q) as (-> & ->). destruct lasym; lra.
    - destruct lasym eqn:LA; cbn [negb orb]; [reflexivity|]. exfalso. rewrite dl0 in Q by auto. assert (req 0 0 = true) by (apply req_true; auto). congruence. }
  assert (E2 : ZBS = zbs' m (ntor + n)%Z).
  { unfold ZBS, zbs'. destruct (req dl 0) eqn:Q.
    - apply req_true in Q. rewrite orb_true_r. destruct (cs0 m Q) as (-> & ->). destruct lasym; lra.
    - destruct lasym eqn:LA; cbn [negb orb]; [reflexivity|]. exfalso. rewrite dl0 in Q by auto. assert (req 0 0 = true) by (apply req_true; auto). congruence. }
  assert (E3 : RBS = rbs' m (ntor + n)%Z).
  { unfold RBS, rbs'. destruct (req dl 0) eqn:Q; [|reflexivity]. apply req_true in Q. destruct (cs0 m Q) as (-> & ->). lra. }
  assert (E4 : ZBC = zbc' m (ntor + n)%Z).
  { unfold ZBC, zbc'. destruct (req dl 0) eqn:Q; [|reflexivity]. apply req_true in Q. destruct (cs0 m Q) as (-> & ->). lra. }
  clearbody RBC ZBS RBS ZBC. subst RBC ZBS RBS ZBC. fold (ix m n).
  set (A1 := rbc' _ _). set (A2 := zbs' _ _). set (A3 := rbs' _ _). set (A4 := zbc' _ _). clearbody A1 A2 A3 A4. clear H3.
  cbv zeta. unfold ind, upd.
  assert (F : forall (X : Z -> R) a, (if (i =? ix m n)%Z then X (ix m n) + a else X i) = X i + (if (i =? ix m n)%Z then a else 0)).
  { intros. destruct (Z.eqb_spec i (ix m n)); [subst; lra|lra]. }
  destruct lasym, lthreed, (m >? 0)%Z; cbn [rbcc zbsc rbss zbcs rbsc zbcc rbcs zbss andb];
    rewrite ?andb_true_r, ?andb_false_r; unfold Rminus; rewrite ?F;
    repeat split; try discriminate; try lra; destruct (i =? ix m n)%Z; lra.
Qed.

(** Sum form of an array after parsing. *)
Definition total (p : Z -> Z -> bool) (g : Z -> Z -> R) (i : Z) : R :=
  zsum 0 mpol (fun m => zsum (- ntor) (ntor + 1) (fun n => ind ((i =? ix m n)%Z && p m n) (g m n))).

Lemma loop_add (pr : bdy -> Z -> R) p g b0 i :
  (forall m n b i, pr (parse_mode lasym lthreed ntor id dl m n b) i = pr b i + ind ((i =? ix m n)%Z && p m n) (g m n)) ->
  pr (for_up 0 mpol (fun m b => for_up (- ntor) (ntor + 1) (fun n b => parse_mode lasym lthreed ntor id dl m n b) b) b0) i
  = pr b0 i + total p g i.
Proof.
  intros H. unfold total, zsum, for_up.
  assert (K : forall m l b, pr (fold_left (fun s j => parse_mode lasym lthreed ntor id dl m j s) l b) i
      = pr b i + rsum l (fun n => ind ((i =? ix m n)%Z && p m n) (g m n))).
  { intros m. induction l as [|n l IH]; intros b; cbn [fold_left rsum]; [lra|]. rewrite IH, H. lra. }
  generalize (zrange 0 mpol). intros l. revert b0. induction l as [|m l IH]; intros b; cbn [fold_left rsum]; [lra|].
  rewrite IH, K. lra.
Qed.

(** Series of an array given in sum form. *)
Lemma total_series p g t1 t2 X th ze :
  (forall i, (0 <= i < mpol * (ntor + 1))%Z -> X i = total p g i) ->
  series_out mpol ntor t1 t2 X th ze =
  zsum 0 mpol (fun m => zsum (- ntor) (ntor + 1) (fun n => ind (p m n) (g m n) * (t1 (IZR m * th) * t2 (IZR (Z.abs n) * ze)))).
Proof.
  intros HX. unfold series_out.
  etransitivity; [symmetry; apply (rsum_pairs 0 mpol 0 (ntor + 1) (fun q => X (fst q * (ntor + 1) + snd q)%Z * (t1 (IZR (fst q) * th) * t2 (IZR (snd q) * ze))))|].
  etransitivity; [|apply (rsum_pairs 0 mpol (- ntor) (ntor + 1) (fun q => ind (p (fst q) (snd q)) (g (fst q) (snd q)) * (t1 (IZR (fst q) * th) * t2 (IZR (Z.abs (snd q)) * ze))))].
  apply (gather_sum pair_eqb (pairs 0 mpol (- ntor) (ntor + 1)) (pairs 0 mpol 0 (ntor + 1))
     (fun q => X (fst q * (ntor + 1) + snd q)%Z) (fun p => (fst p, Z.abs (snd p))) (fun q => ind (p (fst q) (snd q)) (g (fst q) (snd q)))
     (fun q => t1 (IZR (fst q) * th) * t2 (IZR (snd q) * ze))).
  - apply pair_eqb_eq.
  - apply pairs_NoDup.
  - intros (m, n) H. apply pairs_In in H. apply pairs_In. cbn. lia.
  - intros (m, k) H. apply pairs_In in H. cbn [fst snd]. rewrite HX by nia.
    rewrite rsum_pairs. unfold total. apply zsum_ext. intros m' Hm'. apply zsum_ext. intros n Hn'. cbn [fst snd].
    unfold ix, pair_eqb. cbn [fst snd].
    assert (EQ : (m * (ntor + 1) + k =? m' * (ntor + 1) + Z.abs n)%Z = ((m' =? m)%Z && (Z.abs n =? k)%Z)).
    { destruct (Z.eqb_spec m' m), (Z.eqb_spec (Z.abs n) k); cbn [andb]; subst.
      - apply Z.eqb_refl.
      - apply Z.eqb_neq. lia.
      - apply Z.eqb_neq. intros E. apply (flat_inj (ntor + 1)) in E; lia.
      - apply Z.eqb_neq. intros E. apply (flat_inj (ntor + 1)) in E; lia. }
    rewrite EQ. destruct ((m' =? m)%Z && (Z.abs n =? k)%Z); cbn [andb]; reflexivity.
Qed.

Lemma clear_at (b : bdy) i : (0 <= i < mpol * (ntor + 1))%Z ->
  let c := clear_bdy lasym lthreed mpol ntor b in
  rbcc c i = 0 /\ zbsc c i = 0 /\ (lthreed = true -> rbss c i = 0 /\ zbcs c i = 0) /\
  (lasym = true -> rbsc c i = 0 /\ zbcc c i = 0) /\ (lasym = true -> lthreed = true -> rbcs c i = 0 /\ zbss c i = 0).
Proof.
  intros Hi c. unfold c, clear_bdy. clear H3. cbn [rbcc zbsc rbss zbcs rbsc zbcc rbcs zbss].
  assert (F : forall a, fill0 (mpol * (ntor + 1)) a i = 0) by (intro; apply fill0_at; auto).
  repeat split; intros; subst; cbn [andb]; auto.
Qed.

Definition pb b := parseToInternalArrays lasym lthreed mpol ntor id b.

Lemma parse_sums b i : (0 <= i < mpol * (ntor + 1))%Z ->
  rbcc (pb b) i = total (fun _ _ => true) (fun m n => rbc' m (ntor + n)%Z) i /\
  zbsc (pb b) i = total (fun m _ => (m >? 0)%Z) (fun m n => zbs' m (ntor + n)%Z) i /\
  (lthreed = true -> rbss (pb b) i = total (fun m _ => (m >? 0)%Z) (fun m n => IZR (signum n) * rbc' m (ntor + n)%Z) i /\
     zbcs (pb b) i = total (fun _ _ => true) (fun m n => - (IZR (signum n) * zbs' m (ntor + n)%Z)) i) /\
  (lasym = true -> rbsc (pb b) i = total (fun m _ => (m >? 0)%Z) (fun m n => rbs' m (ntor + n)%Z) i /\
     zbcc (pb b) i = total (fun _ _ => true) (fun m n => zbc' m (ntor + n)%Z) i /\
   (lthreed = true -> rbcs (pb b) i = total (fun _ _ => true) (fun m n => - (IZR (signum n) * rbs' m (ntor + n)%Z)) i /\
     zbss (pb b) i = total (fun m _ => (m >? 0)%Z) (fun m n => IZR (signum n) * zbc' m (ntor + n)%Z) i)).
Proof.
  intros Hi. destruct (clear_at b i Hi) as (C1 & C2 & C3 & C4 & C5).
  assert (A := parse_mode_add). unfold pb, parseToInternalArrays. fold dl.
  assert (T : forall x : bool, x = x && true) by (intro; symmetry; apply andb_true_r).
  split; [|split; [|split; [|intros LA; split; [|split]]]].
  - rewrite (loop_add rbcc (fun _ _ => true) (fun m n => rbc' m (ntor + n)%Z)), C1; [lra|].
    intros m n b' i'. rewrite <- T. apply A.
  - rewrite (loop_add zbsc (fun m _ => (m >? 0)%Z) (fun m n => zbs' m (ntor + n)%Z)), C2; [lra|].
    intros m n b' i'. apply A.
  - intros L3. destruct (C3 L3) as (D1 & D2). split.
    + rewrite (loop_add rbss (fun m _ => (m >? 0)%Z) (fun m n => IZR (signum n) * rbc' m (ntor + n)%Z)), D1; [lra|].
      intros m n b' i'. destruct (A m n b' i') as (_ & _ & E & _). rewrite E, L3. reflexivity.
    + rewrite (loop_add zbcs (fun _ _ => true) (fun m n => - (IZR (signum n) * zbs' m (ntor + n)%Z))), D2; [lra|].
      intros m n b' i'. destruct (A m n b' i') as (_ & _ & _ & E & _). rewrite E, L3. reflexivity.
  - destruct (C4 LA) as (D1 & D2). rewrite (loop_add rbsc (fun m _ => (m >? 0)%Z) (fun m n => rbs' m (ntor + n)%Z)), D1; [lra|].
    intros m n b' i'. destruct (A m n b' i') as (_ & _ & _ & _ & E). apply E; auto.
  - destruct (C4 LA) as (D1 & D2). rewrite (loop_add zbcc (fun _ _ => true) (fun m n => zbc' m (ntor + n)%Z)), D2; [lra|].
    intros m n b' i'. destruct (A m n b' i') as (_ & _ & _ & _ & E). rewrite <- T. apply E; auto.
  - intros L3. destruct (C5 LA L3) as (D1 & D2). split.
    + rewrite (loop_add rbcs (fun _ _ => true) (fun m n => - (IZR (signum n) * rbs' m (ntor + n)%Z))), D1; [lra|].
      intros m n b' i'. destruct (A m n b' i') as (_ & _ & _ & _ & E). destruct (E LA) as (_ & _ & E' & _). rewrite E', L3. reflexivity.
    + rewrite (loop_add zbss (fun m _ => (m >? 0)%Z) (fun m n => IZR (signum n) * zbc' m (ntor + n)%Z)), D2; [lra|].
      intros m n b' i'. destruct (A m n b' i') as (_ & _ & _ & _ & E). destruct (E LA) as (_ & _ & _ & E'). rewrite E', L3. reflexivity.
Qed.

(** The parsed surface is the input surface with the shifted angle. *)
Lemma mode_sum (f g : Z -> Z -> R) :
  (forall m n, (0 <= m < mpol)%Z -> (- ntor <= n <= ntor)%Z -> f m n = g m n) ->
  zsum 0 mpol (fun m => zsum (- ntor) (ntor + 1) (fun n => f m n)) = zsum 0 mpol (fun m => zsum (- ntor) (ntor + 1) (fun n => g m n)).
Proof. intros H. apply zsum_ext. intros m Hm'. apply zsum_ext. intros n Hn'. apply H; lia. Qed.
Definition ms (f : Z -> Z -> R) := zsum 0 mpol (fun m => zsum (- ntor) (ntor + 1) (fun n => f m n)).
Lemma ms_plus f g : ms f + ms g = ms (fun m n => f m n + g m n).
Proof. unfold ms. rewrite <- zsum_plus. apply zsum_ext. intros. rewrite zsum_plus. reflexivity. Qed.

Lemma no3 n : lthreed = false -> (- ntor <= n <= ntor)%Z -> n = 0%Z.
Proof. rewrite H3. intros E Hb. apply Z.ltb_ge in E. lia. Qed.

Lemma parse_R b th ze : R_internal lasym lthreed mpol ntor (pb b) th ze = R_input lasym mpol ntor id (th + dl) ze.
Proof.
  unfold R_internal, R_input, series_in.
  assert (PS := parse_sums b). assert (N3 := no3).
  rewrite (total_series (fun _ _ => true) (fun m n => rbc' m (ntor + n)%Z)) by (intros i Hi; apply (PS i Hi)).
  change (zsum 0 mpol (fun m => zsum (- ntor) (ntor + 1) (fun n => in_rbc id m (ntor + n) * cos (IZR m * (th + dl) - IZR n * ze))))
    with (ms (fun m n => in_rbc id m (ntor + n) * cos (IZR m * (th + dl) - IZR n * ze))).
  change (zsum 0 mpol (fun m => zsum (- ntor) (ntor + 1) (fun n => in_rbs id m (ntor + n) * sin (IZR m * (th + dl) - IZR n * ze))))
    with (ms (fun m n => in_rbs id m (ntor + n) * sin (IZR m * (th + dl) - IZR n * ze))).
  set (SS := if lthreed then series_out mpol ntor sin sin _ th ze else 0).
  assert (ESS : SS = ms (fun m n => ind (m >? 0)%Z (IZR (signum n) * rbc' m (ntor + n)%Z) * (sin (IZR m * th) * sin (IZR (Z.abs n) * ze)))).
  { unfold SS. destruct lthreed eqn:L3.
    - apply total_series. intros i Hi. destruct (PS i Hi) as (_ & _ & E & _). apply E; auto.
    - symmetry. unfold ms. apply zsum_zero. intros m Hm'. apply zsum_zero. intros n Hn'. rewrite (N3 n) by (auto; lia). cbn [signum].
      unfold ind. destruct (m >? 0)%Z; unfold signum; cbn; lra. }
  rewrite ESS. clear ESS SS.
  destruct lasym eqn:LA.
  - rewrite (total_series (fun m _ => (m >? 0)%Z) (fun m n => rbs' m (ntor + n)%Z) sin cos) by (intros i Hi; destruct (PS i Hi) as (_ & _ & _ & E); apply E; auto).
    set (CS := if lthreed then series_out mpol ntor cos sin _ th ze else 0).
    assert (ECS : CS = ms (fun m n => ind true (- (IZR (signum n) * rbs' m (ntor + n)%Z)) * (cos (IZR m * th) * sin (IZR (Z.abs n) * ze)))).
    { unfold CS. destruct lthreed eqn:L3.
      - apply (total_series (fun _ _ => true)). intros i Hi. destruct (PS i Hi) as (_ & _ & _ & E). apply E; auto.
      - symmetry. unfold ms. apply zsum_zero. intros m Hm'. apply zsum_zero. intros n Hn'. rewrite (N3 n) by (auto; lia).
        unfold ind, signum. cbn. lra. }
    rewrite ECS. clear ECS CS.
    change (zsum 0 mpol (fun m => zsum (- ntor) (ntor + 1) ?f)) with (ms (fun m => f)).
    fold (ms (fun m n => ind true (rbc' m (ntor + n)%Z) * (cos (IZR m * th) * cos (IZR (Z.abs n) * ze)))).
    fold (ms (fun m n => ind (m >? 0)%Z (rbs' m (ntor + n)%Z) * (sin (IZR m * th) * cos (IZR (Z.abs n) * ze)))).
    rewrite !ms_plus. apply mode_sum. intros m n Hm' Hn'.
    unfold rbc', rbs', ind. rewrite signum_sgn, LA. rewrite cos_abs.
    replace (IZR m * (th + dl) - IZR n * ze) with ((IZR m * th - IZR n * ze) + IZR m * dl) by ring.
    rewrite cos_plus, sin_plus, cos_minus, sin_minus, <- (sgn_sin_abs n ze).
    destruct (m >? 0)%Z eqn:M0; [ring|].
    assert (m = 0)%Z by (rewrite Z.gtb_ltb in M0; apply Z.ltb_ge in M0; lia). subst m.
    rewrite !Rmult_0_l, sin_0, cos_0. ring.
  - fold (ms (fun m n => ind true (rbc' m (ntor + n)%Z) * (cos (IZR m * th) * cos (IZR (Z.abs n) * ze)))).
    rewrite Rplus_0_r, Rplus_0_r. rewrite ms_plus. apply mode_sum. intros m n Hm' Hn'.
    assert (D0 : dl = 0) by (apply dl0; exact LA).
    unfold rbc', ind. rewrite LA. destruct (cs0 m D0) as (-> & _). rewrite signum_sgn, D0, (Rplus_0_r th). rewrite cos_abs, cos_minus, <- (sgn_sin_abs n ze).
    destruct (m >? 0)%Z eqn:M0; [ring|].
    assert (m = 0)%Z by (rewrite Z.gtb_ltb in M0; apply Z.ltb_ge in M0; lia). subst m.
    rewrite !Rmult_0_l, sin_0, cos_0. ring.
Qed.

Lemma parse_Z b th ze : Z_internal lasym lthreed mpol ntor (pb b) th ze = Z_input lasym mpol ntor id (th + dl) ze.
Proof.
  unfold Z_internal, Z_input, series_in.
  assert (PS := parse_sums b). assert (N3 := no3).
  rewrite (total_series (fun m _ => (m >? 0)%Z) (fun m n => zbs' m (ntor + n)%Z)) by (intros i Hi; apply (PS i Hi)).
  change (zsum 0 mpol (fun m => zsum (- ntor) (ntor + 1) (fun n => in_zbs id m (ntor + n) * sin (IZR m * (th + dl) - IZR n * ze))))
    with (ms (fun m n => in_zbs id m (ntor + n) * sin (IZR m * (th + dl) - IZR n * ze))).
  change (zsum 0 mpol (fun m => zsum (- ntor) (ntor + 1) (fun n => in_zbc id m (ntor + n) * cos (IZR m * (th + dl) - IZR n * ze))))
    with (ms (fun m n => in_zbc id m (ntor + n) * cos (IZR m * (th + dl) - IZR n * ze))).
  set (CS := if lthreed then series_out mpol ntor cos sin _ th ze else 0).
  assert (ECS : CS = ms (fun m n => ind true (- (IZR (signum n) * zbs' m (ntor + n)%Z)) * (cos (IZR m * th) * sin (IZR (Z.abs n) * ze)))).
  { unfold CS. destruct lthreed eqn:L3.
    - apply (total_series (fun _ _ => true)). intros i Hi. destruct (PS i Hi) as (_ & _ & E & _). apply E; auto.
    - symmetry. unfold ms. apply zsum_zero. intros m Hm'. apply zsum_zero. intros n Hn'. rewrite (N3 n) by (auto; lia).
      unfold ind, signum; cbn; lra. }
  rewrite ECS. clear ECS CS.
  fold (ms (fun m n => ind (m >? 0)%Z (zbs' m (ntor + n)%Z) * (sin (IZR m * th) * cos (IZR (Z.abs n) * ze)))).
  destruct lasym eqn:LA.
  - rewrite (total_series (fun _ _ => true) (fun m n => zbc' m (ntor + n)%Z) cos cos) by (intros i Hi; destruct (PS i Hi) as (_ & _ & _ & E); apply E; auto).
    set (SS := if lthreed then series_out mpol ntor sin sin _ th ze else 0).
    assert (ESS : SS = ms (fun m n => ind (m >? 0)%Z (IZR (signum n) * zbc' m (ntor + n)%Z) * (sin (IZR m * th) * sin (IZR (Z.abs n) * ze)))).
    { unfold SS. destruct lthreed eqn:L3.
      - apply total_series. intros i Hi. destruct (PS i Hi) as (_ & _ & _ & E). apply E; auto.
      - symmetry. unfold ms. apply zsum_zero. intros m Hm'. apply zsum_zero. intros n Hn'. rewrite (N3 n) by (auto; lia).
        unfold ind. destruct (m >? 0)%Z; unfold signum; cbn; lra. }
    rewrite ESS. clear ESS SS.
    fold (ms (fun m n => ind true (zbc' m (ntor + n)%Z) * (cos (IZR m * th) * cos (IZR (Z.abs n) * ze)))).
    rewrite !ms_plus. apply mode_sum. intros m n Hm' Hn'.
    unfold zbs', zbc', ind. rewrite signum_sgn, LA. rewrite cos_abs.
    replace (IZR m * (th + dl) - IZR n * ze) with ((IZR m * th - IZR n * ze) + IZR m * dl) by ring.
    rewrite cos_plus, sin_plus, cos_minus, sin_minus, <- (sgn_sin_abs n ze).
    destruct (m >? 0)%Z eqn:M0; [ring|].
    assert (m = 0)%Z by (rewrite Z.gtb_ltb in M0; apply Z.ltb_ge in M0; lia). subst m.
    rewrite !Rmult_0_l, sin_0, cos_0. ring.
  - rewrite Rplus_0_r, Rplus_0_r. rewrite ms_plus. apply mode_sum. intros m n Hm' Hn'.
    assert (D0 : dl = 0) by (apply dl0; exact LA).
    unfold zbs', ind. rewrite LA. destruct (cs0 m D0) as (-> & _). rewrite signum_sgn, D0, (Rplus_0_r th). rewrite cos_abs, sin_minus, <- (sgn_sin_abs n ze).
    destruct (m >? 0)%Z eqn:M0; [ring|].
    assert (m = 0)%Z by (rewrite Z.gtb_ltb in M0; apply Z.ltb_ge in M0; lia). subst m.
    rewrite !Rmult_0_l, sin_0, cos_0. ring.
Qed.

(** The shifted asymmetric m = 1, n = 0 coefficients of R and Z agree. *)
Lemma shift_m1 b : lasym = true -> (2 <= mpol)%Z ->
  rbsc (pb b) (1 * (ntor + 1) + 0)%Z = zbcc (pb b) (1 * (ntor + 1) + 0)%Z.
Proof.
  intros LA M2.
  assert (Hi : (0 <= 1 * (ntor + 1) + 0 < mpol * (ntor + 1))%Z) by nia.
  destruct (parse_sums b _ Hi) as (_ & _ & _ & E). destruct (E LA) as (-> & -> & _).
  assert (T : forall p g, (p 1 0)%Z = true -> total p g (1 * (ntor + 1) + 0)%Z = g 1%Z 0%Z).
  { intros p g Hp. unfold total.
    rewrite (zsum_single 0 mpol 1); [|lia|]. 2:{ intros m Hm' Ne. apply zsum_zero. intros n Hn'. unfold ind, ix.
      destruct (Z.eqb_spec (1 * (ntor + 1) + 0) (m * (ntor + 1) + Z.abs n)) as [Q|Q]; [|reflexivity].
      apply (flat_inj (ntor + 1)) in Q; lia. }
    rewrite (zsum_single (- ntor) (ntor + 1) 0); [|lia|]. 2:{ intros n Hn' Ne. unfold ind, ix.
      destruct (Z.eqb_spec (1 * (ntor + 1) + 0) (1 * (ntor + 1) + Z.abs n)) as [Q|Q]; [lia|reflexivity]. }
    unfold ind, ix. rewrite Hp. cbn [Z.abs]. rewrite Z.eqb_refl. reflexivity. }
  rewrite !T by reflexivity. unfold rbs', zbc'. rewrite Rmult_1_l.
  unfold dl, shift_delta. rewrite LA.
  replace (ntor + 0)%Z with ntor by lia.
  destruct (atan2_spec (in_rbs id 1 ntor - in_zbc id 1 ntor) (in_rbc id 1 ntor + in_zbs id 1 ntor)) as (r & _ & X & Y).
  set (d := atan2 _ _) in *.
  assert (in_rbs id 1 ntor * cos d - in_zbc id 1 ntor * cos d = in_rbc id 1 ntor * sin d + in_zbs id 1 ntor * sin d); [|lra].
  rewrite <- Rmult_minus_distr_r, <- Rmult_plus_distr_r, X, Y. ring.
Qed.
End Bdy.

(** ** Loops acting pointwise on a family of arrays *)
Definition view (j : Z) (b : bdy) : R * R * R * R * R * R * R * R :=
  (rbcc b j, zbsc b j, rbss b j, zbcs b j, rbsc b j, zbcc b j, rbcs b j, zbss b j).

Lemma local_fold {A} (step : bdy -> A -> bdy) (idx : A -> Z) (g : A -> R * R * R * R * R * R * R * R -> R * R * R * R * R * R * R * R) (l : list A) :
  (forall p b j, In p l -> view j (step b p) = if (j =? idx p)%Z then g p (view j b) else view j b) ->
  NoDup (map idx l) ->
  (forall p b, In p l -> view (idx p) (fold_left step l b) = g p (view (idx p) b)) /\
  (forall j b, ~ In j (map idx l) -> view j (fold_left step l b) = view j b).
Proof.
  induction l as [|q l IH]; intros H ND; [split; [intros ? ? []|reflexivity]|].
  cbn [map] in ND. inversion ND as [|? ? N1 N2]; subst.
  destruct IH as (I1 & I2); [intros; apply H; right; auto|auto|].
  split.
  - intros p b [-> | Hp]; cbn [fold_left].
    + rewrite I2 by auto. rewrite H by (left; auto). rewrite Z.eqb_refl. reflexivity.
    + rewrite I1 by auto. rewrite H by (left; auto).
      destruct (Z.eqb_spec (idx p) (idx q)) as [E|E]; [|reflexivity].
      exfalso. apply N1. rewrite <- E. apply in_map. auto.
  - intros j b Hj. cbn [fold_left]. rewrite I2 by (intro; apply Hj; right; auto). rewrite H by (left; auto).
    destruct (Z.eqb_spec j (idx q)); [|reflexivity]. subst. exfalso. apply Hj. left; auto.
Qed.

(** ** Theta flip *)
Section Flip.
Variables (lasym lthreed : bool) (mpol ntor : Z).
Hypothesis Hm : (2 <= mpol)%Z.
Hypothesis Hn : (0 <= ntor)%Z.
Definition par (m : Z) : R := if (Z.rem m 2 =? 0)%Z then 1 else -1.
Definition flip_view (m : Z) (v : R * R * R * R * R * R * R * R) :=
  let '(rcc, zsc, rss, zcs, rsc, zcc, rcs, zss) := v in
  (rcc * par m, zsc * - par m, (if lthreed then rss * - par m else rss), (if lthreed then zcs * par m else zcs),
   (if lasym then rsc * - par m else rsc), (if lasym then zcc * par m else zcc),
   (if lasym && lthreed then rcs * par m else rcs), (if lasym && lthreed then zss * - par m else zss)).
Lemma flip_mode_view m n b j : view j (flip_mode lasym lthreed ntor m n b) =
  if (j =? m * (ntor + 1) + n)%Z then flip_view m (view j b) else view j b.
Proof.
  unfold flip_mode, view, flip_view, upd. cbn [rbcc zbsc rbss zbcs rbsc zbcc rbcs zbss].
  assert (P1 : IZR (if (Z.rem m 2 =? 0)%Z then 1%Z else (-1)%Z) = par m) by (unfold par; destruct (Z.rem m 2 =? 0)%Z; reflexivity).
  assert (P2 : IZR (- (if (Z.rem m 2 =? 0)%Z then 1%Z else (-1)%Z)) = - par m) by (rewrite opp_IZR, P1; reflexivity).
  rewrite P1, P2. destruct (Z.eqb_spec j (m * (ntor + 1) + n)) as [->|Ne].
  - destruct lasym, lthreed; cbn [andb]; rewrite ?Z.eqb_refl; reflexivity.
  - apply Z.eqb_neq in Ne. destruct lasym, lthreed; cbn [andb]; rewrite ?Ne; reflexivity.
Qed.
Lemma flip_at b m n : (0 <= m < mpol)%Z -> (0 <= n <= ntor)%Z ->
  view (m * (ntor + 1) + n) (flipTheta lasym lthreed mpol ntor b) =
  if (m =? 0)%Z then view (m * (ntor + 1) + n) b else flip_view m (view (m * (ntor + 1) + n) b).
Proof.
  intros M N. unfold flipTheta.
  rewrite (for_up_pairs (fun m n b => flip_mode lasym lthreed ntor m n b) 1 mpol 0 (ntor + 1)).
  destruct (local_fold (fun b q => flip_mode lasym lthreed ntor (fst q) (snd q) b) (fun q => (fst q * (ntor + 1) + snd q)%Z)
     (fun q => flip_view (fst q)) (pairs 1 mpol 0 (ntor + 1))) as (L1 & L2).
  - intros (p, q) b' j _. apply flip_mode_view.
  - apply nodup_map_inj; [apply pairs_NoDup|]. intros (a, c) (a', c') Ha Ha' E. apply pairs_In in Ha, Ha'. cbn in *.
    apply (flat_inj (ntor + 1)) in E; [|lia..]. destruct E; subst; reflexivity.
  - destruct (Z.eqb_spec m 0) as [->|Ne].
    + apply L2. intros Hi. apply in_map_iff in Hi. destruct Hi as ((a, c) & E & Ha). apply pairs_In in Ha. cbn in *. nia.
    + apply (L1 (m, n)). apply pairs_In. cbn. lia.
Qed.

Lemma cos_flip m th : cos (IZR m * (PI - th)) = par m * cos (IZR m * th).
Proof.
  replace (IZR m * (PI - th)) with (IZR m * PI - IZR m * th) by ring. rewrite cos_minus.
  destruct (Z.eq_dec (Z.rem m 2) 0) as [E|E]; unfold par.
  - rewrite E. cbn [Z.eqb]. rewrite (Z.quot_rem' m 2), E, Z.add_0_r.
    rewrite mult_IZR. set (k := Z.quot m 2).
    assert (S0 : sin (2 * IZR k * PI) = 0) by (apply sin_eq_0_1; exists (2 * k)%Z; rewrite mult_IZR; ring).
    assert (C0 : cos (2 * IZR k * PI) = 1).
    { replace (2 * IZR k * PI) with (2 * (IZR k * PI)) by ring. rewrite cos_2a_sin.
      rewrite (sin_eq_0_1 (IZR k * PI)) by (exists k; ring). ring. }
    rewrite S0, C0. ring.
  - destruct (Z.eqb_spec (Z.rem m 2) 0); [contradiction|].
    assert (S0 : sin (IZR m * PI) = 0) by (apply sin_eq_0_1; exists m; ring).
    assert (C0 : cos (IZR m * PI) = -1).
    { assert (O : exists k, m = (2 * k + 1)%Z).
      { destruct (Z.odd m) eqn:Od; [apply Zodd_bool_iff, Zodd_ex_iff in Od; exact Od|].
        exfalso. apply n. rewrite Z.rem_eq by lia. rewrite <- Z.negb_even in Od. apply negb_false_iff, Zeven_bool_iff, Zeven_ex_iff in Od. destruct Od as (k & ->).
        rewrite Z.mul_comm, Z.quot_mul by lia. lia. }
      destruct O as (k & ->). rewrite plus_IZR, mult_IZR.
      replace ((2 * IZR k + 1) * PI) with (2 * (IZR k * PI) + PI) by ring. rewrite neg_cos, cos_2a_sin.
      rewrite (sin_eq_0_1 (IZR k * PI)) by (exists k; ring). ring. }
    rewrite S0, C0. ring.
Qed.
Lemma sin_flip m th : sin (IZR m * (PI - th)) = - par m * sin (IZR m * th).
Proof.
  assert (C := cos_flip m 0). rewrite Rminus_0_r, Rmult_0_r, cos_0 in C.
  assert (S0 : sin (IZR m * PI) = 0) by (apply sin_eq_0_1; exists m; ring).
  replace (IZR m * (PI - th)) with (IZR m * PI - IZR m * th) by ring. rewrite sin_minus, S0, C. ring.
Qed.

Lemma series_flip (X Y : Z -> R) t1 t2 (k : Z -> R) th ze :
  (forall m n, (0 <= m < mpol)%Z -> (0 <= n <= ntor)%Z -> Y (m * (ntor + 1) + n)%Z * t1 (IZR m * th) = X (m * (ntor + 1) + n)%Z * t1 (IZR m * (PI - th))) ->
  series_out mpol ntor t1 t2 Y th ze = series_out mpol ntor t1 t2 X (PI - th) ze.
Proof.
  intros H. unfold series_out. apply zsum_ext. intros m Hm'. apply zsum_ext. intros n Hn'.
  rewrite <- !Rmult_assoc, H by lia. reflexivity.
Qed.

Lemma flip_proj b m n : (0 <= m < mpol)%Z -> (0 <= n <= ntor)%Z ->
  let b' := flipTheta lasym lthreed mpol ntor b in let i := (m * (ntor + 1) + n)%Z in
  let c := if (m =? 0)%Z then 1 else par m in let s := if (m =? 0)%Z then 1 else - par m in
  rbcc b' i = rbcc b i * c /\ zbsc b' i = zbsc b i * s /\
  (lthreed = true -> rbss b' i = rbss b i * s /\ zbcs b' i = zbcs b i * c) /\
  (lasym = true -> rbsc b' i = rbsc b i * s /\ zbcc b' i = zbcc b i * c /\
     (lthreed = true -> rbcs b' i = rbcs b i * c /\ zbss b' i = zbss b i * s)).
Proof.
  intros M N b' i c s. pose proof (flip_at b m n M N) as V. unfold c, s, b', i.
  set (b1 := flipTheta lasym lthreed mpol ntor b) in *. set (j := (m * (ntor + 1) + n)%Z) in *.
  destruct (m =? 0)%Z; unfold view, flip_view in V; injection V; intros E8 E7 E6 E5 E4 E3 E2 E1.
  - rewrite E1, E2, E3, E4, E5, E6, E7, E8. repeat split; intros; lra.
  - repeat split; intros; subst; cbn [andb] in *; auto.
Qed.

Lemma flip_series b th ze :
  R_internal lasym lthreed mpol ntor (flipTheta lasym lthreed mpol ntor b) th ze = R_internal lasym lthreed mpol ntor b (PI - th) ze /\
  Z_internal lasym lthreed mpol ntor (flipTheta lasym lthreed mpol ntor b) th ze = Z_internal lasym lthreed mpol ntor b (PI - th) ze.
Proof.
  unfold R_internal, Z_internal.
  assert (FC : forall x y m, y = x * (if (m =? 0)%Z then 1 else par m) -> y * cos (IZR m * th) = x * cos (IZR m * (PI - th))).
  { intros x y m ->. rewrite cos_flip. destruct (Z.eqb_spec m 0) as [->|]; [|ring]. unfold par. cbn. ring. }
  assert (FS : forall x y m, y = x * (if (m =? 0)%Z then 1 else - par m) -> y * sin (IZR m * th) = x * sin (IZR m * (PI - th))).
  { intros x y m ->. rewrite sin_flip. destruct (Z.eqb_spec m 0) as [->|]; [|ring]. rewrite !Rmult_0_l, sin_0. ring. }
  assert (FP := flip_proj b). cbv zeta in FP.
  set (b' := flipTheta lasym lthreed mpol ntor b) in *. clearbody b'.
  split; (apply (f_equal2 Rplus); [apply (f_equal2 Rplus)|]).
  - apply series_flip; [exact par|]. intros m n M N. apply FC, FP; auto.
  - destruct lthreed; [|reflexivity]. apply series_flip; [exact par|]. intros m n M N. apply FS. destruct (FP m n M N) as (_ & _ & E & _). apply E; auto.
  - destruct lasym; [|reflexivity]. apply (f_equal2 Rplus).
    + apply series_flip; [exact par|]. intros m n M N. apply FS. destruct (FP m n M N) as (_ & _ & _ & E). apply E; auto.
    + destruct lthreed; [|reflexivity]. apply series_flip; [exact par|]. intros m n M N. apply FC. destruct (FP m n M N) as (_ & _ & _ & E). apply E; auto.
  - apply series_flip; [exact par|]. intros m n M N. apply FS, FP; auto.
  - destruct lthreed; [|reflexivity]. apply series_flip; [exact par|]. intros m n M N. apply FC. destruct (FP m n M N) as (_ & _ & E & _). apply E; auto.
  - destruct lasym; [|reflexivity]. apply (f_equal2 Rplus).
    + apply series_flip; [exact par|]. intros m n M N. apply FC. destruct (FP m n M N) as (_ & _ & _ & E). apply E; auto.
    + destruct lthreed; [|reflexivity]. apply series_flip; [exact par|]. intros m n M N. apply FS. destruct (FP m n M N) as (_ & _ & _ & E). apply E; auto.
Qed.

(** Orientation test. *)
Lemma check_spec sj b : checkSignOfJacobian ntor sj b =
  if Rlt_dec 0 (zsum 0 (ntor + 1) (fun n => rbcc b (1 * (ntor + 1) + n)%Z) * zsum 0 (ntor + 1) (fun n => zbsc b (1 * (ntor + 1) + n)%Z) * IZR sj) then true else false.
Proof.
  unfold checkSignOfJacobian.
  assert (E : for_up 0 (ntor + 1) (fun n s => (fst s + rbcc b (1 * (ntor + 1) + n)%Z, snd s + zbsc b (1 * (ntor + 1) + n)%Z)) (0, 0)
     = (zsum 0 (ntor + 1) (fun n => rbcc b (1 * (ntor + 1) + n)%Z), zsum 0 (ntor + 1) (fun n => zbsc b (1 * (ntor + 1) + n)%Z))).
  { unfold for_up, zsum. generalize (zrange 0 (ntor + 1)). intros l.
    assert (K : forall a c, fold_left (fun (s : R * R) (n : Z) => (fst s + rbcc b (1 * (ntor + 1) + n)%Z, snd s + zbsc b (1 * (ntor + 1) + n)%Z)) l (a, c)
      = (a + rsum l (fun n => rbcc b (1 * (ntor + 1) + n)%Z), c + rsum l (fun n => zbsc b (1 * (ntor + 1) + n)%Z))).
    { induction l as [|n l IH]; intros a c; cbn [fold_left rsum fst snd]; [f_equal; lra|]. rewrite IH. f_equal; lra. }
    rewrite K. f_equal; lra. }
  cbv zeta. rewrite E. reflexivity.
Qed.

Lemma flip_orientation sj b : checkSignOfJacobian ntor sj b = true ->
  checkSignOfJacobian ntor sj (flipTheta lasym lthreed mpol ntor b) = false.
Proof.
  rewrite !check_spec.
  assert (F := flip_proj b). cbv zeta in F.
  rewrite (zsum_ext 0 (ntor + 1) (fun n => rbcc (flipTheta lasym lthreed mpol ntor b) (1 * (ntor + 1) + n)%Z) (fun n => rbcc b (1 * (ntor + 1) + n)%Z * -1)).
  2:{ intros n N. destruct (F 1%Z n) as (E & _); [lia..|]. rewrite E. reflexivity. }
  rewrite (zsum_ext 0 (ntor + 1) (fun n => zbsc (flipTheta lasym lthreed mpol ntor b) (1 * (ntor + 1) + n)%Z) (fun n => zbsc b (1 * (ntor + 1) + n)%Z)).
  2:{ intros n N. destruct (F 1%Z n) as (_ & E & _); [lia..|]. rewrite E. unfold par. cbn. lra. }
  rewrite zsum_scale_r. set (x := zsum _ _ _). set (y := zsum _ _ _).
  destruct (Rlt_dec 0 (x * y * IZR sj)); [|discriminate]. intros _.
  destruct (Rlt_dec 0 (x * -1 * y * IZR sj)); [lra|reflexivity].
Qed.
End Flip.

(** ** The m = 1 rotation *)
Section M1.
Variables (lasym lthreed : bool).
Definition m1_view (k : R) (v : R * R * R * R * R * R * R * R) :=
  let '(rcc, zsc, rss, zcs, rsc, zcc, rcs, zss) := v in
  (rcc, zsc, (if lthreed then (rss + zcs) * k else rss), (if lthreed then (rss - zcs) * k else zcs),
   (if lasym then (rsc + zcc) * k else rsc), (if lasym then (rsc - zcc) * k else zcc), rcs, zss).
Lemma m1_step_view k i b j : view j (m1_step lasym lthreed k i b) = if (j =? i)%Z then m1_view k (view j b) else view j b.
Proof.
  unfold m1_step, view, m1_view, upd. destruct (Z.eqb_spec j i) as [->|Ne].
  - destruct lasym, lthreed; cbn [rbcc zbsc rbss zbcs rbsc zbcc rbcs zbss]; rewrite ?Z.eqb_refl; reflexivity.
  - apply Z.eqb_neq in Ne. destruct lasym, lthreed; cbn [rbcc zbsc rbss zbcs rbsc zbcc rbcs zbss]; rewrite ?Ne; reflexivity.
Qed.
Lemma m1_view_inv k1 k2 v : k1 * k2 * 2 = 1 -> m1_view k2 (m1_view k1 v) = v.
Proof.
  intros H. destruct v as (((((((rcc, zsc), rss), zcs), rsc), zcc), rcs), zss). unfold m1_view.
  assert (A : forall x y, ((x + y) * k1 + (x - y) * k1) * k2 = x) by (intros x y; replace (((x + y) * k1 + (x - y) * k1) * k2) with (x * (k1 * k2 * 2)) by ring; rewrite H; ring).
  assert (B : forall x y, ((x + y) * k1 - (x - y) * k1) * k2 = y) by (intros x y; replace (((x + y) * k1 - (x - y) * k1) * k2) with (y * (k1 * k2 * 2)) by ring; rewrite H; ring).
  destruct lasym, lthreed; rewrite ?A, ?B; reflexivity.
Qed.

(** All surfaces nsMin .. hi-1. *)
Lemma m1Constraint_at mpol ntor nsMin nsMax k jMax b : (2 <= mpol)%Z -> (0 <= ntor)%Z ->
  let hi := match jMax with Some j => Z.min j nsMax | None => nsMax end in
  forall j m n, (nsMin <= j)%Z -> (0 <= m < mpol)%Z -> (0 <= n <= ntor)%Z ->
  let i := (((j - nsMin) * mpol + m) * (ntor + 1) + n)%Z in
  view i (m1Constraint lasym lthreed mpol ntor nsMin nsMax k jMax b) =
    if ((m =? 1) && (j <? hi))%Z then m1_view k (view i b) else view i b.
Proof.
  intros M2 N0 hi j m n J M N i. unfold m1Constraint. fold hi.
  rewrite (for_up_pairs (fun jF n b => m1_step lasym lthreed k (((jF - nsMin) * mpol + 1) * (ntor + 1) + n)%Z b) nsMin hi 0 (ntor + 1)).
  destruct (local_fold (fun b q => m1_step lasym lthreed k (((fst q - nsMin) * mpol + 1) * (ntor + 1) + snd q)%Z b)
     (fun q => (((fst q - nsMin) * mpol + 1) * (ntor + 1) + snd q)%Z) (fun _ => m1_view k) (pairs nsMin hi 0 (ntor + 1))) as (L1 & L2).
  - intros (p, q) b' j' _. apply m1_step_view.
  - apply nodup_map_inj; [apply pairs_NoDup|]. intros (a, c) (a', c') Ha Ha' E. apply pairs_In in Ha, Ha'. cbn in *.
    apply (flat_inj (ntor + 1)) in E; [|lia..]. destruct E as (E & ->). apply (flat_inj mpol) in E; [|lia..]. f_equal. lia.
  - destruct (Z.eqb_spec m 1) as [->|Ne]; cbn [andb].
    + destruct (Z.ltb_spec j hi).
      * apply (L1 (j, n)). apply pairs_In. cbn. lia.
      * apply L2. intros Hi. apply in_map_iff in Hi. destruct Hi as ((a, c) & E & Ha). apply pairs_In in Ha. cbn in *. unfold i in E.
        apply (flat_inj (ntor + 1)) in E; [|lia..]. destruct E as (E & _). apply (flat_inj mpol) in E; lia.
    + apply L2. intros Hi. apply in_map_iff in Hi. destruct Hi as ((a, c) & E & Ha). apply pairs_In in Ha. cbn in *. unfold i in E.
      apply (flat_inj (ntor + 1)) in E; [|lia..]. destruct E as (E & _). apply (flat_inj mpol) in E; lia.
Qed.

Lemma ensureM1_at mpol ntor k b : (2 <= mpol)%Z -> (0 <= ntor)%Z ->
  forall m n, (0 <= m < mpol)%Z -> (0 <= n <= ntor)%Z ->
  view (m * (ntor + 1) + n) (ensureM1Constrained lasym lthreed ntor k b) =
    if (m =? 1)%Z then m1_view k (view (m * (ntor + 1) + n) b) else view (m * (ntor + 1) + n) b.
Proof.
  intros M2 N0 m n M N. unfold ensureM1Constrained, for_up.
  destruct (local_fold (fun b n => m1_step lasym lthreed k (1 * (ntor + 1) + n)%Z b)
     (fun n => (1 * (ntor + 1) + n)%Z) (fun _ => m1_view k) (zrange 0 (ntor + 1))) as (L1 & L2).
  - intros p b' j' _. apply m1_step_view.
  - apply nodup_map_inj; [apply zrange_NoDup|]. intros; lia.
  - destruct (Z.eqb_spec m 1) as [->|Ne].
    + apply (L1 n). apply zrange_In. lia.
    + apply L2. intros Hi. apply in_map_iff in Hi. destruct Hi as (a & E & Ha). apply zrange_In in Ha.
      apply (flat_inj (ntor + 1)) in E; lia.
Qed.
End M1.

Lemma view_series lasym lthreed mpol ntor b b' th ze :
  (forall m n, (0 <= m < mpol)%Z -> (0 <= n <= ntor)%Z -> view (m * (ntor + 1) + n) b = view (m * (ntor + 1) + n) b') ->
  R_internal lasym lthreed mpol ntor b th ze = R_internal lasym lthreed mpol ntor b' th ze /\
  Z_internal lasym lthreed mpol ntor b th ze = Z_internal lasym lthreed mpol ntor b' th ze.
Proof.
  intros H. assert (S : forall t1 t2 X Y, (forall m n, (0 <= m < mpol)%Z -> (0 <= n <= ntor)%Z -> X (m * (ntor + 1) + n)%Z = Y (m * (ntor + 1) + n)%Z) ->
    series_out mpol ntor t1 t2 X th ze = series_out mpol ntor t1 t2 Y th ze).
  { intros t1 t2 X Y E. unfold series_out. apply zsum_ext. intros m M. apply zsum_ext. intros n N. rewrite E by lia. reflexivity. }
  unfold R_internal, Z_internal, view in *.
  split; (repeat (first [apply (f_equal2 Rplus) | apply S | destruct lthreed | destruct lasym | reflexivity]));
    intros m n M N; specialize (H m n M N); injection H; auto.
Qed.

(** Undoing the m = 1 rotation after the set-up gives back the surface. *)
Lemma setup_surface lasym mpol ntor id sj b0 : (2 <= mpol)%Z -> (0 <= ntor)%Z ->
  let lthreed := (0 <? ntor)%Z in
  let '(flipped, b) := setupFromIndata lasym lthreed mpol ntor id sj b0 in
  let b1 := ensureM1Constrained lasym lthreed ntor 1 b in
  forall th ze, let tau := (if flipped then PI - th else th) + shift_delta lasym ntor id in
  R_internal lasym lthreed mpol ntor b1 th ze = R_input lasym mpol ntor id tau ze /\
  Z_internal lasym lthreed mpol ntor b1 th ze = Z_input lasym mpol ntor id tau ze.
Proof.
  intros M N lthreed. unfold setupFromIndata. cbv zeta.
  set (p := parseToInternalArrays lasym lthreed mpol ntor id b0).
  set (fl := checkSignOfJacobian ntor sj p). intros th ze.
  set (q := if fl then flipTheta lasym lthreed mpol ntor p else p).
  destruct (view_series lasym lthreed mpol ntor
     (ensureM1Constrained lasym lthreed ntor 1 (ensureM1Constrained lasym lthreed ntor (1 / 2) q)) q th ze) as (-> & ->).
  { intros m n Mm Nn. rewrite !ensureM1_at with (mpol := mpol) by lia. destruct (m =? 1)%Z; [apply m1_view_inv; lra|reflexivity]. }
  unfold q, p. destruct fl.
  - destruct (flip_series lasym lthreed mpol ntor (parseToInternalArrays lasym lthreed mpol ntor id b0) th ze) as (-> & ->). split.
    + apply parse_R; auto; lia.
    + apply parse_Z; auto; lia.
  - split; [apply parse_R|apply parse_Z]; auto; lia.
Qed.

Lemma setup_orientation lasym lthreed mpol ntor id sj b0 : (2 <= mpol)%Z -> (0 <= ntor)%Z ->
  checkSignOfJacobian ntor sj (snd (setupFromIndata lasym lthreed mpol ntor id sj b0)) = false.
Proof.
  intros M N. unfold setupFromIndata. cbn [snd]. set (p := parseToInternalArrays lasym lthreed mpol ntor id b0).
  set (q := if checkSignOfJacobian ntor sj p then _ else _).
  assert (Q : checkSignOfJacobian ntor sj q = false).
  { unfold q. destruct (checkSignOfJacobian ntor sj p) eqn:E; [eapply flip_orientation; eauto|auto]. }
  rewrite <- Q, !check_spec. assert (A := ensureM1_at lasym lthreed mpol ntor (1 / 2) q M N 1). cbn [Z.eqb] in A.
  rewrite (zsum_ext 0 (ntor + 1) (fun n => rbcc (ensureM1Constrained lasym lthreed ntor (1 / 2) q) (1 * (ntor + 1) + n)%Z) (fun n => rbcc q (1 * (ntor + 1) + n)%Z)).
  2:{ intros n Nn. specialize (A n ltac:(lia) ltac:(lia)). unfold view, m1_view in A. injection A. auto. }
  rewrite (zsum_ext 0 (ntor + 1) (fun n => zbsc (ensureM1Constrained lasym lthreed ntor (1 / 2) q) (1 * (ntor + 1) + n)%Z) (fun n => zbsc q (1 * (ntor + 1) + n)%Z)).
  2:{ intros n Nn. specialize (A n ltac:(lia) ltac:(lia)). unfold view, m1_view in A. injection A. auto. }
  reflexivity.
Qed.

Lemma view_same i b b' : view i b = view i b' -> same_at i b b'.
Proof. unfold view, same_at. intros H. injection H. intros. repeat split; auto. Qed.

Lemma m1_undo lasym lthreed mpol ntor nsMin nsMax jMax b : (2 <= mpol)%Z -> (0 <= ntor)%Z ->
  forall j m n, (nsMin <= j)%Z -> (0 <= m < mpol)%Z -> (0 <= n <= ntor)%Z ->
  let i := (((j - nsMin) * mpol + m) * (ntor + 1) + n)%Z in
  let once := m1Constraint lasym lthreed mpol ntor nsMin nsMax (1 / 2) jMax b in
  same_at i (m1Constraint lasym lthreed mpol ntor nsMin nsMax 1 jMax once) b /\
  (m <> 1%Z -> same_at i once b).
Proof.
  intros M N j m n J Mm Nn i once. split.
  - apply view_same. unfold once, i. rewrite !m1Constraint_at by auto.
    set (c := _ && _). destruct c; [apply m1_view_inv; lra|reflexivity].
  - intros Ne. apply view_same. unfold once, i. rewrite m1Constraint_at by auto.
    apply Z.eqb_neq in Ne. rewrite Ne. reflexivity.
Qed.

Lemma bdy_m1_undo lasym lthreed mpol ntor b : (2 <= mpol)%Z -> (0 <= ntor)%Z ->
  forall m n, (0 <= m < mpol)%Z -> (0 <= n <= ntor)%Z ->
  let i := (m * (ntor + 1) + n)%Z in
  let once := ensureM1Constrained lasym lthreed ntor (1 / 2) b in
  same_at i (ensureM1Constrained lasym lthreed ntor 1 once) b /\ (m <> 1%Z -> same_at i once b).
Proof.
  intros M N m n Mm Nn i once. split.
  - apply view_same. unfold once, i. rewrite !ensureM1_at with (mpol := mpol) by auto.
    destruct (m =? 1)%Z; [apply m1_view_inv; lra|reflexivity].
  - intros Ne. apply view_same. unfold once, i. rewrite ensureM1_at with (mpol := mpol) by auto.
    apply Z.eqb_neq in Ne. rewrite Ne. reflexivity.
Qed.

Lemma check_orientation ntor sj b : checkSignOfJacobian ntor sj b = true <-> 0 < orientation ntor b * IZR sj.
Proof.
  rewrite check_spec. unfold orientation.
  rewrite (zsum_ext 0 (ntor + 1) (fun n => rbcc b (1 * (ntor + 1) + n)%Z) (fun n => rbcc b (ntor + 1 + n)%Z)) by (intros; f_equal; lia).
  rewrite (zsum_ext 0 (ntor + 1) (fun n => zbsc b (1 * (ntor + 1) + n)%Z) (fun n => zbsc b (ntor + 1 + n)%Z)) by (intros; f_equal; lia).
  destruct (Rlt_dec _ _); split; intros; auto; try discriminate; contradiction.
Qed.

Lemma flip_negates lasym lthreed mpol ntor b : (2 <= mpol)%Z -> (0 <= ntor)%Z ->
  orientation ntor (flipTheta lasym lthreed mpol ntor b) = - orientation ntor b.
Proof.
  intros M N. unfold orientation.
  assert (F := flip_proj lasym lthreed mpol ntor b). cbv zeta in F.
  rewrite (zsum_ext 0 (ntor + 1) (fun n => rbcc (flipTheta lasym lthreed mpol ntor b) (ntor + 1 + n)%Z) (fun n => rbcc b (ntor + 1 + n)%Z * -1)).
  2:{ intros n Nn. destruct (F 1%Z n) as (E & _); [lia..|]. rewrite Z.mul_1_l in E. rewrite E. reflexivity. }
  rewrite (zsum_ext 0 (ntor + 1) (fun n => zbsc (flipTheta lasym lthreed mpol ntor b) (ntor + 1 + n)%Z) (fun n => zbsc b (ntor + 1 + n)%Z)).
  2:{ intros n Nn. destruct (F 1%Z n) as (_ & E & _); [lia..|]. rewrite Z.mul_1_l in E. rewrite E. unfold par. cbn. lra. }
  rewrite zsum_scale_r. lra.
Qed.

Lemma setup_flag lasym lthreed mpol ntor id sj b0 : 
  fst (setupFromIndata lasym lthreed mpol ntor id sj b0) = checkSignOfJacobian ntor sj (parseToInternalArrays lasym lthreed mpol ntor id b0).
Proof. reflexivity. Qed.

Lemma setup_m1_zero lasym mpol ntor id sj b0 : (2 <= mpol)%Z -> (0 <= ntor)%Z -> lasym = true ->
  fst (setupFromIndata lasym (0 <? ntor)%Z mpol ntor id sj b0) = false ->
  zbcc (snd (setupFromIndata lasym (0 <? ntor)%Z mpol ntor id sj b0)) (ntor + 1)%Z = 0.
Proof.
  intros M N LA Hf. rewrite setup_flag in Hf. unfold setupFromIndata. cbv zeta. rewrite Hf. cbn [snd].
  set (p := parseToInternalArrays _ _ _ _ _ _).
  pose proof (ensureM1_at lasym (0 <? ntor)%Z mpol ntor (1 / 2) p M N 1 0 ltac:(lia) ltac:(lia)) as V.
  pose proof (shift_m1 lasym (0 <? ntor)%Z mpol ntor ltac:(lia) N id b0 LA M) as S.
  unfold pb in S. fold p in S. replace (1 * (ntor + 1) + 0)%Z with (ntor + 1)%Z in V, S by lia.
  remember (ntor + 1)%Z as i. change (1 =? 1)%Z with true in V. unfold view, m1_view in V. injection V. intros _ _ E _ _ _ _ _.
  rewrite E, LA, S. lra.
Qed.

Lemma atan2_pos0 x : 0 < x -> atan2 0 x = 0.
Proof.
  intros H. unfold atan2. destruct (total_order_T x 0) as [[G|G]|G]; [lra..|].
  replace (0 / x) with 0 by (field; lra). apply atan_0.
Qed.
