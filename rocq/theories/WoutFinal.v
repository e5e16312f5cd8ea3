From Coq Require Import ZArith List Bool Reals Lia Lra.
From Verif Require Import Base BaseLemmas SumLemmas PartModel SizesModel FourierModel FourierSpec FourierProofs DftModel DftSpec DftTables LapMain WoutModel WoutProofs.
Import ListNotations.
Open Scope R_scope.

Section W.
Variables (s : sizes) (ns : Z).
Hypothesis OK : sz_ok s.
Local Notation mpol := (sz_mpol s).
Local Notation ntor := (sz_ntor s).
Let B (m : Z) : Z := (ntor + 1 + (m - 1) * (2 * ntor + 1))%Z.
Local Notation pos m n := (mode_pos ntor m n).
Lemma pos_B m n : (1 <= m)%Z -> pos m n = (B m + (n + ntor))%Z.
Proof. intros. unfold mode_pos, B. destruct (Z.eqb_spec m 0); lia. Qed.

(** One pass over the modes with m > 0; [w m n] is what is written, if anything. *)
Definition pass (w : Z -> Z -> option R) (a : Z * (Z -> R)) : Z * (Z -> R) :=
  for_up 1 mpol (fun m a => for_up (- ntor) (ntor + 1) (fun n a =>
    ((fst a + 1)%Z, match w m n with Some v => upd (snd a) (fst a) v | None => snd a end)) a) a.
Lemma pass_spec w a0 : (forall q, (ntor + 1 <= q)%Z -> a0 q = 0) ->
  let r := pass w ((ntor + 1)%Z, a0) in
  fst r = n_modes mpol ntor /\ (forall q, (q < ntor + 1)%Z -> snd r q = a0 q) /\
  (forall m n, (1 <= m < mpol)%Z -> (- ntor <= n <= ntor)%Z -> snd r (pos m n) = match w m n with Some v => v | None => 0 end).
Proof.
  intros Z0 r. assert (Hn := so_ntor s OK). assert (Hm := so_mpol s OK).
  pose (I := fun (m : Z) (a : Z * (Z -> R)) => fst a = B m /\ (forall q, (q < ntor + 1)%Z -> snd a q = a0 q) /\
    (forall m' n, (1 <= m' < m)%Z -> (- ntor <= n <= ntor)%Z -> snd a (pos m' n) = match w m' n with Some v => v | None => 0 end) /\
    (forall q, (B m <= q)%Z -> snd a q = 0)).
  assert (F : I mpol r).
  { unfold r, pass. apply (for_up_ind I); [lia| |].
    - split; [cbn; unfold B; lia|]. split; [reflexivity|]. split; [intros; lia|]. intros q Hq. apply Z0. unfold B in Hq. lia.
    - intros m a Hm' (I1 & I2 & I3 & I4).
      pose (J := fun (n : Z) (a : Z * (Z -> R)) => fst a = (B m + (n + ntor))%Z /\ (forall q, (q < ntor + 1)%Z -> snd a q = a0 q) /\
        (forall m' n', (1 <= m' < m)%Z -> (- ntor <= n' <= ntor)%Z -> snd a (pos m' n') = match w m' n' with Some v => v | None => 0 end) /\
        (forall n', (- ntor <= n' < n)%Z -> snd a (pos m n') = match w m n' with Some v => v | None => 0 end) /\
        (forall q, (B m + (n + ntor) <= q)%Z -> snd a q = 0)).
      assert (FJ : J (ntor + 1)%Z (for_up (- ntor) (ntor + 1) (fun n a =>
         ((fst a + 1)%Z, match w m n with Some v => upd (snd a) (fst a) v | None => snd a end)) a)).
      { apply (for_up_ind J); [lia| |].
        - split; [rewrite I1; lia|]. split; [exact I2|]. split; [exact I3|]. split; [intros; lia|]. intros q Hq. apply I4. lia.
        - intros n a' Hn' (J1 & J2 & J3 & J4 & J5). unfold J. cbn [fst snd]. rewrite J1.
          assert (BM : (ntor + 1 <= B m)%Z) by (unfold B; nia).
          destruct (w m n) as [v|] eqn:W.
          + split; [lia|]. split; [intros q Hq; rewrite upd_neq by lia; apply J2; exact Hq|].
            split; [intros m' n' H1 H2; rewrite upd_neq by (rewrite pos_B by lia; unfold B; nia); apply J3; assumption|].
            split.
            * intros n' H1. rewrite pos_B by lia. destruct (Z.eq_dec n' n) as [-> | N0]; [rewrite upd_eq, W; reflexivity|].
              rewrite upd_neq by lia. rewrite <- pos_B by lia. apply J4. lia.
            * intros q Hq. rewrite upd_neq by lia. apply J5. lia.
          + split; [lia|]. split; [exact J2|]. split; [exact J3|]. split.
            * intros n' H1. destruct (Z.eq_dec n' n) as [-> | N0]; [rewrite W; apply J5; rewrite pos_B; lia|apply J4; lia].
            * intros q Hq. apply J5. lia. }
      destruct FJ as (J1 & J2 & J3 & J4 & J5). split; [rewrite J1; unfold B; lia|]. split; [exact J2|]. split.
      + intros m' n H1 H2. destruct (Z.eq_dec m' m) as [-> | N0]; [apply J4; lia|apply J3; lia].
      + intros q Hq. apply J5. unfold B in *. lia. }
  destruct F as (F1 & F2 & F3 & F4). split; [rewrite F1; unfold B, n_modes; lia|]. split; [exact F2|exact F3].
Qed.
Lemma zero_row (v : Z -> R) a0 : (forall q, (ntor + 1 <= q)%Z -> a0 q = 0) ->
  let r := for_up 0 (ntor + 1) (fun n (a : Z * (Z -> R)) => ((fst a + 1)%Z, upd (snd a) (fst a) (v n))) (0%Z, a0) in
  fst r = (ntor + 1)%Z /\ (forall n, (0 <= n <= ntor)%Z -> snd r n = v n) /\ (forall q, (ntor + 1 <= q)%Z -> snd r q = 0).
Proof.
  intros Z0 r. assert (Hn := so_ntor s OK).
  pose (I := fun (n : Z) (a : Z * (Z -> R)) => fst a = n /\ (forall n', (0 <= n' < n)%Z -> snd a n' = v n') /\ (forall q, (ntor + 1 <= q)%Z -> snd a q = 0)).
  assert (F : I (ntor + 1)%Z r).
  { apply (for_up_ind I); [lia| |].
    - split; [reflexivity|]. split; [intros; lia|exact Z0].
    - intros n a Hn' (I1 & I2 & I3). unfold I. cbn [fst snd]. rewrite I1. split; [lia|]. split.
      + intros n' H1. destruct (Z.eq_dec n' n) as [-> | N0]; [apply upd_eq|rewrite upd_neq by lia; apply I2; lia].
      + intros q Hq. rewrite upd_neq by lia. apply I3. exact Hq. }
  destruct F as (F1 & F2 & F3). split; [exact F1|]. split; [intros; apply F2; lia|exact F3].
Qed.

(** Values of the rows. *)
Definition cval (cc ss : Z -> R) (jF m n : Z) : R :=
  if (m =? 0)%Z then t1_ 0 n * cc (gidx s jF 0 n)
  else if (n =? 0)%Z then t1_ m 0 * cc (gidx s jF m 0)
  else if (jF >? 0)%Z then t1_ m (Z.abs n) * cc (gidx s jF m (Z.abs n)) / 2 + t1_ m (Z.abs n) * IZR (signum n) * ss (gidx s jF m (Z.abs n)) / 2
  else 0.
Definition sval (axis : bool) (sc cs : Z -> R) (jF m n : Z) : R :=
  if (m =? 0)%Z then
    if sz_lthreed s then if axis && (jF =? 0)%Z then - t1_ 0 n * (2 * cs (gidx s 1 0 n) - cs (gidx s 2 0 n)) else - t1_ 0 n * cs (gidx s jF 0 n) else 0
  else if (n =? 0)%Z then t1_ m 0 * sc (gidx s jF m 0)
  else if (jF >? 0)%Z then t1_ m (Z.abs n) * sc (gidx s jF m (Z.abs n)) / 2 - t1_ m (Z.abs n) * IZR (signum n) * cs (gidx s jF m (Z.abs n)) / 2
  else 0.
Lemma lthreed_n n : (- ntor <= n <= ntor)%Z -> n <> 0%Z -> sz_lthreed s = true.
Proof. intros. rewrite (so_3d s OK). apply Z.gtb_lt. lia. Qed.
Lemma cos_row_spec cc ss jF : fst (cos_row s cc ss jF) = n_modes mpol ntor /\
  forall m n, valid_mode mpol ntor m n -> snd (cos_row s cc ss jF) (pos m n) = cval cc ss jF m n.
Proof.
  assert (Hn := so_ntor s OK).
  assert (E0 := zero_row (fun n => t1_ 0 n * cc (gidx s jF 0 n)) (fun _ => 0) (fun _ _ => eq_refl)). cbv zeta in E0.
  unfold cos_row. set (s1 := for_up 0 (ntor + 1) _ _) in *. destruct E0 as (F1 & F2 & F3).
  destruct s1 as (k, a). cbn [fst snd] in F1, F2, F3. subst k.
  pose (w := fun m n : Z => if (n =? 0)%Z then Some (t1_ m (Z.abs n) * cc (gidx s jF m (Z.abs n)))
    else if (jF >? 0)%Z then Some (if sz_lthreed s then t1_ m (Z.abs n) * cc (gidx s jF m (Z.abs n)) / 2 + t1_ m (Z.abs n) * IZR (signum n) * ss (gidx s jF m (Z.abs n)) / 2
      else t1_ m (Z.abs n) * cc (gidx s jF m (Z.abs n)) / 2) else None).
  assert (P := pass_spec w a F3). cbv zeta in P.
  match goal with |- fst ?L = _ /\ _ => assert (E : L = pass w ((ntor + 1)%Z, a)) end.
  { unfold pass. apply for_up_ext. intros m b Hm. apply for_up_ext. intros n c Hn'. unfold w. cbv zeta.
    destruct (n =? 0)%Z; [reflexivity|]. destruct (jF >? 0)%Z; reflexivity. }
  rewrite E. destruct P as (P1 & P2 & P3). split; [exact P1|]. intros m n (V1 & V2 & V3). unfold cval.
  destruct (Z.eqb_spec m 0) as [-> | M0].
  - change (pos 0 n) with n. rewrite P2 by lia. apply F2. lia.
  - rewrite P3 by lia. unfold w. destruct (Z.eqb_spec n 0) as [-> | N0]; [reflexivity|].
    destruct (jF >? 0)%Z; [|reflexivity]. rewrite (lthreed_n n) by lia. reflexivity.
Qed.
Lemma sin_row_spec axis sc cs jF : fst (sin_row s axis sc cs jF) = n_modes mpol ntor /\
  forall m n, valid_mode mpol ntor m n -> snd (sin_row s axis sc cs jF) (pos m n) = sval axis sc cs jF m n.
Proof.
  assert (Hn := so_ntor s OK).
  assert (E0 : forall x0 : Z -> R, (forall q, (ntor + 1 <= q)%Z -> x0 q = 0) -> let r := for_up 0 (ntor + 1) (fun n (a : Z * (Z -> R)) =>
      ((fst a + 1)%Z, if sz_lthreed s then upd (snd a) (fst a) (- t1_ 0 n * cs (gidx s jF 0 n)) else snd a)) (0%Z, x0) in
    fst r = (ntor + 1)%Z /\ (forall n, (0 <= n <= ntor)%Z -> snd r n = if sz_lthreed s then - t1_ 0 n * cs (gidx s jF 0 n) else x0 n) /\ (forall q, (ntor + 1 <= q)%Z -> snd r q = 0)).
  { intros x0 Z0. cbv zeta. destruct (sz_lthreed s) eqn:L; [apply (zero_row (fun n => - t1_ 0 n * cs (gidx s jF 0 n)) x0 Z0)|].
    pose (I := fun (n : Z) (a : Z * (Z -> R)) => fst a = n /\ snd a = x0).
    assert (F : I (ntor + 1)%Z (for_up 0 (ntor + 1) (fun n (a : Z * (Z -> R)) => ((fst a + 1)%Z, snd a)) (0%Z, x0))).
    { apply (for_up_ind I); [lia|split; reflexivity|]. intros n a Hn' (I1 & I2). split; cbn; [lia|exact I2]. }
    destruct F as (F1 & F2). rewrite F2. split; [exact F1|]. split; [reflexivity|exact Z0]. }
  specialize (E0 (fun _ => 0) (fun _ _ => eq_refl)). cbv zeta in E0.
  unfold sin_row. set (s1 := for_up 0 (ntor + 1) _ (0%Z, fun _ => 0)) in *. destruct E0 as (F1 & F2 & F3).
  destruct s1 as (k, a). cbn [fst snd] in *. subst k.
  set (s2_ := if axis && sz_lthreed s && (jF =? 0)%Z then _ else _).
  assert (G : fst s2_ = (ntor + 1)%Z /\ (forall n, (0 <= n <= ntor)%Z -> snd s2_ n = sval axis sc cs jF 0 n) /\ (forall q, (ntor + 1 <= q)%Z -> snd s2_ q = 0)).
  { unfold s2_, sval. cbn [Z.eqb]. destruct (sz_lthreed s) eqn:L; [|rewrite andb_false_r; cbn [andb fst snd]; auto].
    destruct axis, (jF =? 0)%Z; cbn [andb fst snd]; auto.
    destruct (zero_row (fun n => - t1_ 0 n * (2 * cs (gidx s 1 0 n) - cs (gidx s 2 0 n))) a F3) as (G1 & G2 & G3). auto. }
  destruct G as (G1 & G2 & G3). destruct s2_ as (k, a2). cbn [fst snd] in G1, G2, G3. subst k.
  pose (w := fun m n : Z => if (n =? 0)%Z then Some (t1_ m (Z.abs n) * sc (gidx s jF m (Z.abs n)))
    else if (jF >? 0)%Z then Some (if sz_lthreed s then t1_ m (Z.abs n) * sc (gidx s jF m (Z.abs n)) / 2 - t1_ m (Z.abs n) * IZR (signum n) * cs (gidx s jF m (Z.abs n)) / 2
      else t1_ m (Z.abs n) * sc (gidx s jF m (Z.abs n)) / 2) else None).
  assert (P := pass_spec w a2 G3). cbv zeta in P.
  match goal with |- fst ?L = _ /\ _ => assert (E : L = pass w ((ntor + 1)%Z, a2)) end.
  { unfold pass. apply for_up_ext. intros m b Hm. apply for_up_ext. intros n c Hn'. unfold w. cbv zeta.
    destruct (n =? 0)%Z; [reflexivity|]. destruct (jF >? 0)%Z; reflexivity. }
  rewrite E. destruct P as (P1 & P2 & P3). split; [exact P1|]. intros m n (V1 & V2 & V3).
  destruct (Z.eq_dec m 0) as [-> | M0].
  - change (pos 0 n) with n. rewrite P2 by lia. apply G2. lia.
  - rewrite P3 by lia. unfold w, sval. destruct (Z.eqb_spec m 0) as [E0|_]; [lia|]. destruct (Z.eqb_spec n 0) as [-> | N0]; [reflexivity|].
    destruct (jF >? 0)%Z; [|reflexivity]. rewrite (lthreed_n n) by lia. reflexivity.
Qed.
Lemma by_surface_at row scale mn j : (0 <= j < ns)%Z -> (0 <= mn < sz_mnmax s)%Z -> by_surface s ns row scale mn j = scale j (snd (row j) mn).
Proof.
  intros Hj Hm. unfold by_surface. apply (for_up_set (fun w : Z -> Z -> R => w mn j) _ 0 ns j); [lia| |].
  - intros w. cbv zeta. apply (for_up_set (fun w : Z -> Z -> R => w mn j) _ 0 (sz_mnmax s) mn); [lia| |].
    + intros w'. apply upd2_eq.
    + intros x w' Hx NE. apply upd2_neq. lia.
  - intros x w Hx NE. cbv zeta. apply (for_up_keep (fun w : Z -> Z -> R => w mn j)). intros y w' Hy. apply upd2_neq. lia.
Qed.

(** Series of the rows. *)
Lemma series_ext_valid trig f g th ze : (forall m n, valid_mode mpol ntor m n -> f (pos m n) = g (pos m n)) ->
  combined_series trig mpol ntor f th ze = combined_series trig mpol ntor g th ze.
Proof.
  intros E. assert (Hn := so_ntor s OK). assert (Hm := so_mpol s OK). unfold combined_series. f_equal.
  - apply zsum_ext. intros n H. rewrite E by (unfold valid_mode; lia). reflexivity.
  - apply zsum_ext. intros m H. apply zsum_ext. intros n H2. rewrite E by (unfold valid_mode; lia). reflexivity.
Qed.
Lemma t1_norm m n : t1_ m n = 1 / basis_norm m n.
Proof. unfold t1_, basis_norm. unfold Rdiv. rewrite !Rmult_1_l, Rinv_inv. reflexivity. Qed.
Definition prod2 (t1 t2 : R -> R) (X : Z -> R) (j : Z) (th ze : R) : R :=
  product_series t1 t2 mpol ntor (fun m n => gidx s j m n) X th ze.
Lemma prod2_shift t1 t2 X j th ze :
  product_series t1 t2 mpol ntor (fun m n => ProductIndex FastToroidal m n mpol ntor) (fun i => X (j * (ntor + 1) * mpol + i)%Z) th ze = prod2 t1 t2 X j th ze.
Proof.
  unfold prod2, product_series. apply zsum_ext. intros m Hm. apply zsum_ext. intros n Hn. f_equal. f_equal. unfold ProductIndex, gidx. ring.
Qed.
Lemma cos_row_series cc ss j f th ze : (1 <= j)%Z -> (forall m n, valid_mode mpol ntor m n -> f (pos m n) = cval cc ss j m n) ->
  combined_series cos mpol ntor f th ze = prod2 cos cos cc j th ze + prod2 sin sin ss j th ze.
Proof.
  intros Hj E. assert (Hn := so_ntor s OK). assert (Hm := so_mpol s OK).
  rewrite <- !prod2_shift. rewrite <- (back_cos_series FastToroidal ntor mpol Hn Hm _ _ (fun _ => 0)). apply series_ext_valid.
  intros m n V. rewrite E by exact V. clear E f.
  pose (off := (j * (ntor + 1) * mpol)%Z).
  assert (PI_ : forall m n, gidx s j m n = (off + ProductIndex FastToroidal m n mpol ntor)%Z) by (intros; unfold gidx, off, ProductIndex; ring).
  destruct (back_fold ntor mpol Hn Hm 0 (fun n => cc (off + ProductIndex FastToroidal 0 n mpol ntor)%Z / basis_norm 0 n)
    (fun m n => if Z.eqb (Z.abs n) 0 then cc (off + ProductIndex FastToroidal m (Z.abs n) mpol ntor)%Z / basis_norm m (Z.abs n)
       else 1 / 2 * (cc (off + ProductIndex FastToroidal m (Z.abs n) mpol ntor)%Z + IZR (signum n) * ss (off + ProductIndex FastToroidal m (Z.abs n) mpol ntor)%Z) / basis_norm m (Z.abs n)) (fun _ => 0) ltac:(lia)) as (_ & B2 & _).
  assert (B' : snd (cc_ss_to_cos FastToroidal ntor mpol (fun i => cc (off + i)%Z) (fun i => ss (off + i)%Z) (fun _ => 0)) (pos m n) =
    if Z.eqb m 0 then cc (off + ProductIndex FastToroidal 0 n mpol ntor)%Z / basis_norm 0 n else if Z.eqb (Z.abs n) 0 then cc (off + ProductIndex FastToroidal m (Z.abs n) mpol ntor)%Z / basis_norm m (Z.abs n)
       else 1 / 2 * (cc (off + ProductIndex FastToroidal m (Z.abs n) mpol ntor)%Z + IZR (signum n) * ss (off + ProductIndex FastToroidal m (Z.abs n) mpol ntor)%Z) / basis_norm m (Z.abs n))
    by (apply (B2 m n); destruct V; apply modes_In; lia).
  unfold off in B'. rewrite B'. fold off. unfold cval. rewrite !t1_norm, !PI_.
  pose proof (basis_norm_pos m (Z.abs n)). pose proof (basis_norm_pos 0 n). pose proof (basis_norm_pos m 0).
  destruct (Z.eqb_spec m 0) as [-> | M0]; [field; lra|]. destruct (Z.eqb_spec n 0) as [-> | N0]; [cbn [Z.abs Z.eqb]; field; lra|].
  destruct (Z.eqb_spec (Z.abs n) 0); [lia|]. destruct (Z.gtb_spec j 0); [|lia]. field. lra.
Qed.
Lemma sin_row_series axis sc cs j f th ze : (1 <= j)%Z -> (forall m n, valid_mode mpol ntor m n -> f (pos m n) = sval axis sc cs j m n) ->
  combined_series sin mpol ntor f th ze = prod2 sin cos sc j th ze + prod2 cos sin cs j th ze.
Proof.
  intros Hj E. assert (Hn := so_ntor s OK). assert (Hm := so_mpol s OK).
  rewrite <- !prod2_shift. rewrite <- (back_sin_series FastToroidal ntor mpol Hn Hm _ _ (fun _ => 0)).
  pose (off := (j * (ntor + 1) * mpol)%Z).
  assert (PI_ : forall m n, gidx s j m n = (off + ProductIndex FastToroidal m n mpol ntor)%Z) by (intros; unfold gidx, off, ProductIndex; ring).
  destruct (back_fold ntor mpol Hn Hm 1 (fun n => - cs (off + ProductIndex FastToroidal 0 n mpol ntor)%Z / basis_norm 0 n)
    (fun m n => if Z.eqb (Z.abs n) 0 then sc (off + ProductIndex FastToroidal m (Z.abs n) mpol ntor)%Z / basis_norm m (Z.abs n)
       else 1 / 2 * (sc (off + ProductIndex FastToroidal m (Z.abs n) mpol ntor)%Z - IZR (signum n) * cs (off + ProductIndex FastToroidal m (Z.abs n) mpol ntor)%Z) / basis_norm m (Z.abs n)) (fun _ => 0) ltac:(lia)) as (_ & B2 & _).
  assert (V' : forall m n, valid_mode mpol ntor m n -> (m, n) <> (0, 0)%Z -> f (pos m n) =
    snd (sc_cs_to_sin FastToroidal ntor mpol (fun i => sc (off + i)%Z) (fun i => cs (off + i)%Z) (fun _ => 0)) (pos m n)).
  { intros m n V NE. rewrite E by exact V.
    assert (MI : In (m, n) (modes_ ntor mpol 1)).
    { destruct V as (V1 & V2 & V3). apply modes_In; [lia|]. destruct (Z.eq_dec m 0) as [-> | M0]; [left|right; lia].
      split; [reflexivity|]. destruct (Z.eq_dec n 0) as [-> | ]; [congruence|lia]. }
    assert (B' : snd (sc_cs_to_sin FastToroidal ntor mpol (fun i => sc (off + i)%Z) (fun i => cs (off + i)%Z) (fun _ => 0)) (pos m n) =
      if Z.eqb m 0 then - cs (off + ProductIndex FastToroidal 0 n mpol ntor)%Z / basis_norm 0 n else if Z.eqb (Z.abs n) 0 then sc (off + ProductIndex FastToroidal m (Z.abs n) mpol ntor)%Z / basis_norm m (Z.abs n)
       else 1 / 2 * (sc (off + ProductIndex FastToroidal m (Z.abs n) mpol ntor)%Z - IZR (signum n) * cs (off + ProductIndex FastToroidal m (Z.abs n) mpol ntor)%Z) / basis_norm m (Z.abs n))
      by (exact (B2 m n MI)).
    rewrite B'. unfold sval. rewrite !t1_norm, !PI_.
    pose proof (basis_norm_pos m (Z.abs n)). pose proof (basis_norm_pos 0 n). pose proof (basis_norm_pos m 0).
    destruct (Z.eqb_spec m 0) as [-> | M0].
    - destruct V as (_ & V2 & V3). rewrite (lthreed_n n) by (try lia; intros ->; congruence).
      destruct (Z.eqb_spec j 0); [lia|]. rewrite andb_false_r. field. lra.
    - destruct (Z.eqb_spec n 0) as [-> | N0]; [cbn [Z.abs Z.eqb]; field; lra|].
      destruct (Z.eqb_spec (Z.abs n) 0); [lia|]. destruct (Z.gtb_spec j 0); [|lia]. field. lra. }
  change (fun i : Z => sc (j * (ntor + 1) * mpol + i)%Z) with (fun i : Z => sc (off + i)%Z).
  change (fun i : Z => cs (j * (ntor + 1) * mpol + i)%Z) with (fun i : Z => cs (off + i)%Z).
  unfold combined_series. f_equal.
  - apply zsum_ext. intros n H. destruct (Z.eq_dec n 0) as [-> | N0].
    + rewrite Rmult_0_l, Ropp_0, sin_0. ring.
    + rewrite V' by (unfold valid_mode; try lia; congruence). reflexivity.
  - apply zsum_ext. intros m H. apply zsum_ext. intros n H2. rewrite V' by (unfold valid_mode; try lia; intros E0; injection E0; lia). reflexivity.
Qed.
End W.
