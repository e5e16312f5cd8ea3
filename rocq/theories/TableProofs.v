From Coq Require Import ZArith List Bool Reals Lia Lra.
From Verif Require Import Base BaseLemmas SumLemmas SizesModel JxbModel JxbMain AxisProofs LapMain TableModel.
Open Scope R_scope.

Lemma for_up_upd (f : Z -> R) lo hi a j : for_up lo hi (fun j a => upd a j (f j)) a j = if ((lo <=? j) && (j <? hi))%Z then f j else a j.
Proof.
  destruct ((lo <=? j) && (j <? hi))%Z eqn:E.
  - apply andb_prop in E. destruct E as (E1 & E2). apply Z.leb_le in E1. apply Z.ltb_lt in E2.
    apply (for_up_set (fun a : Z -> R => a j) (fun j a => upd a j (f j)) lo hi j); [lia|intros; apply upd_eq|].
    intros x b Hx N. apply upd_neq. lia.
  - apply (for_up_keep (fun a : Z -> R => a j) (fun j a => upd a j (f j))). intros x b Hx. apply upd_neq. intros ->.
    apply andb_false_iff in E. destruct E as [E|E]; [apply Z.leb_gt in E|apply Z.ltb_ge in E]; lia.
Qed.
Lemma in_range lo hi j : (lo <= j < hi)%Z -> ((lo <=? j) && (j <? hi))%Z = true.
Proof. intros. apply andb_true_intro. split; [apply Z.leb_le|apply Z.ltb_lt]; lia. Qed.
Lemma out_range lo hi j : ~ (lo <= j < hi)%Z -> ((lo <=? j) && (j <? hi))%Z = false.
Proof. intros. apply andb_false_iff. destruct (Z_lt_le_dec j lo); [left; apply Z.leb_gt; lia|right; apply Z.ltb_ge; lia]. Qed.

Section P.
Variables (s : sizes) (ns : Z) (sgn ds : R) (presH phipH iotaH dVdsH chipF phipF bsubu bsubv : Z -> R).
Hypothesis NS : (3 <= ns)%Z.

Lemma full_at H c jF : (0 <= jF < ns)%Z -> to_full ns H c jF =
  if (jF =? ns - 1)%Z then c (15 / 10 * H (ns - 2)%Z) (- (5 / 10 * H (ns - 3)%Z)) else if (jF =? 0)%Z then c (15 / 10 * H 0%Z) (- (5 / 10 * H 1%Z)) else c (H jF / 2) (H (jF - 1)%Z / 2).
Proof.
  intros Hj. unfold to_full. destruct (Z.eqb_spec jF (ns - 1)) as [->|N]; [apply upd_eq|]. rewrite upd_neq by lia.
  rewrite (for_up_upd (fun j => c (H j / 2) (H (j - 1)%Z / 2))). destruct (Z.eqb_spec jF 0) as [->|N0].
  - rewrite out_range by lia. apply upd_eq.
  - rewrite in_range by lia. reflexivity.
Qed.
(** linear half-grid profiles are continued to the full grid exactly *)
Lemma full_linear H a b : (forall jH, (0 <= jH < ns - 1)%Z -> H jH = a + b * (IZR jH + / 2)) -> forall jF, (0 <= jF < ns)%Z -> to_full ns H (fun x y => x + y) jF = a + b * IZR jF.
Proof.
  intros HL jF Hj. rewrite full_at by exact Hj. destruct (Z.eqb_spec jF (ns - 1)) as [->|N].
  - rewrite !HL by lia. rewrite !minus_IZR. field.
  - destruct (Z.eqb_spec jF 0) as [->|N0]; rewrite !HL by lia; [field|]. rewrite minus_IZR. field.
Qed.
Lemma phipf_linear a b : (forall jH, (0 <= jH < ns - 1)%Z -> phipH jH = a + b * (IZR jH + / 2)) -> forall jF, (0 <= jF < ns)%Z -> phipf_loc ns sgn phipH jF = 2 * PI * sgn * (a + b * IZR jF).
Proof.
  intros HL jF Hj. rewrite <- (full_linear phipH a b HL jF Hj). unfold phipf_loc. rewrite !full_at by exact Hj.
  destruct (jF =? ns - 1)%Z, (jF =? 0)%Z; ring.
Qed.
Lemma bucof_linear a b : (forall jH, (0 <= jH < ns - 1)%Z -> bucoH s bsubu jH = a + b * (IZR jH + / 2)) -> forall jF, (1 <= jF < ns)%Z -> bucof s ns bsubu jF = a + b * IZR jF.
Proof.
  intros HL jF Hj. unfold bucof. destruct (Z.eq_dec jF (ns - 1)) as [->|N].
  - rewrite upd_eq, !HL by lia. rewrite !minus_IZR. field.
  - rewrite upd_neq by lia. rewrite (for_up_upd (fun j => (bucoH s bsubu j + bucoH s bsubu (j - 1)%Z) / 2)), in_range by lia. rewrite !HL by lia. rewrite minus_IZR. field.
Qed.

(** interior values *)
Lemma ends_in a jF : (1 <= jF < ns - 1)%Z -> ends ns a jF = a jF.
Proof. intros H. unfold ends. rewrite !upd_neq by lia. reflexivity. Qed.
Lemma ends_0 a : (4 <= ns)%Z -> ends ns a 0 = 2 * ends ns a 1 - ends ns a 2.
Proof. intros N. rewrite (ends_in a 1), (ends_in a 2) by lia. unfold ends. rewrite upd_neq by lia. apply upd_eq. Qed.
Lemma ends_last a : (4 <= ns)%Z -> ends ns a (ns - 1) = 2 * ends ns a (ns - 2) - ends ns a (ns - 3).
Proof. intros N. rewrite (ends_in a (ns - 2)), (ends_in a (ns - 3)) by lia. unfold ends. rewrite upd_eq. rewrite !(upd_neq _ 0) by lia. reflexivity. Qed.
Lemma jcurv_in jF : (1 <= jF < ns - 1)%Z -> jcurv s ns sgn ds bsubu jF = sgn / ds * (bucoH s bsubu jF - bucoH s bsubu (jF - 1)).
Proof. intros H. unfold jcurv. rewrite ends_in by exact H. unfold jcurv0. rewrite (for_up_upd (fun j => signByDeltaS sgn ds * (bucoH s bsubu j - bucoH s bsubu (j - 1)%Z))), in_range by lia. reflexivity. Qed.
Lemma jcuru_in jF : (1 <= jF < ns - 1)%Z -> jcuru s ns sgn ds bsubv jF = - (sgn / ds) * (bvcoH s bsubv jF - bvcoH s bsubv (jF - 1)).
Proof. intros H. unfold jcuru. rewrite ends_in by exact H. unfold jcuru0. rewrite (for_up_upd (fun j => - signByDeltaS sgn ds * (bvcoH s bsubv j - bvcoH s bsubv (j - 1)%Z))), in_range by lia. reflexivity. Qed.
Lemma presgrad_in jF : (1 <= jF < ns - 1)%Z -> presgrad ns ds presH jF = (presH jF - presH (jF - 1)%Z) / ds.
Proof. intros H. unfold presgrad. rewrite ends_in by exact H. unfold presgrad0. rewrite (for_up_upd (fun j => (presH j - presH (j - 1)%Z) / ds)), in_range by lia. reflexivity. Qed.
Lemma vpphi_in jF : (1 <= jF < ns - 1)%Z -> vpphi ns dVdsH jF = (dVdsH jF + dVdsH (jF - 1)%Z) / 2.
Proof. intros H. unfold vpphi. rewrite ends_in by exact H. unfold vpphi0. rewrite (for_up_upd (fun j => 5 / 10 * (dVdsH j + dVdsH (j - 1)%Z))), in_range by lia. field. Qed.

Local Notation Jv := (jcurv s ns sgn ds bsubu).
Local Notation Ju := (jcuru s ns sgn ds bsubv).
Local Notation dp := (presgrad ns ds presH).
Local Notation Vp := (vpphi ns dVdsH).
Lemma equif_in jF : (1 <= jF < ns - 1)%Z -> Vp jF <> 0 ->
  radial_force s ns sgn ds presH dVdsH chipF phipF bsubu bsubv jF =
  (chipF jF * Jv jF - phipF jF * Ju jF + dp jF * Vp jF) / (Rabs (chipF jF * Jv jF) + Rabs (phipF jF * Ju jF) + Rabs (dp jF * Vp jF)).
Proof.
  intros H V. unfold radial_force, equif. rewrite ends_in by exact H. unfold equif0.
  set (den := fun j => vpphi0 ns dVdsH j / (Rabs (jcurv0 s ns sgn ds bsubu j * chipF j) + Rabs (jcuru0 s ns sgn ds bsubv j * phipF j) + Rabs (presgrad0 ns ds presH j * vpphi0 ns dVdsH j))).
  change (for_up 1 (ns - 1) _ _) with (for_up 1 (ns - 1) (fun j a => upd a j (a j * den j)) (equif00 s ns sgn ds presH dVdsH chipF phipF bsubu bsubv)).
  assert (E : for_up 1 (ns - 1) (fun j a => upd a j (a j * den j)) (equif00 s ns sgn ds presH dVdsH chipF phipF bsubu bsubv) jF = equif00 s ns sgn ds presH dVdsH chipF phipF bsubu bsubv jF * den jF).
  { refine (proj1 (for_up_ind (fun k (a : Z -> R) => ((jF < k)%Z -> a jF = equif00 s ns sgn ds presH dVdsH chipF phipF bsubu bsubv jF * den jF) /\ ((k <= jF)%Z -> a jF = equif00 s ns sgn ds presH dVdsH chipF phipF bsubu bsubv jF)) _ 1%Z (ns - 1)%Z _ _ _ _) _).
    - lia.
    - split; [intros; lia|reflexivity].
    - intros k a Hk (A & B). destruct (Z.eq_dec k jF) as [->|N].
      + split; [intros _; rewrite upd_eq, B by lia; reflexivity|intros; lia].
      + rewrite !upd_neq by lia. split; intros; [apply A; lia|apply B; lia].
    - lia. }
  rewrite E. unfold equif00. rewrite (for_up_upd (fun j => (chipF j * jcurv0 s ns sgn ds bsubu j - phipF j * jcuru0 s ns sgn ds bsubv j) / vpphi0 ns dVdsH j + presgrad0 ns ds presH j)), in_range by lia.
  unfold den. unfold jcurv, jcuru, presgrad, vpphi in *. rewrite !ends_in in * by exact H.
  rewrite (Rmult_comm (jcurv0 s ns sgn ds bsubu jF)), (Rmult_comm (jcuru0 s ns sgn ds bsubv jF)).
  unfold Rdiv. rewrite <- Rmult_assoc. f_equal. field. exact V.
Qed.
Lemma normed_bound x y z : Rabs x + Rabs y + Rabs z <> 0 -> Rabs ((x - y + z) / (Rabs x + Rabs y + Rabs z)) <= 1 /\ ((x - y + z) / (Rabs x + Rabs y + Rabs z) = 0 <-> x - y + z = 0).
Proof.
  intros D. pose proof (Rabs_pos x). pose proof (Rabs_pos y). pose proof (Rabs_pos z). set (d := Rabs x + Rabs y + Rabs z) in *. assert (P : 0 < d) by (assert (0 <= d) by (unfold d; lra); destruct (Rdichotomy _ _ D); lra).
  split.
  - unfold Rdiv. rewrite Rabs_mult, (Rabs_right (/ d)) by (apply Rle_ge, Rlt_le, Rinv_0_lt_compat, P).
    apply Rmult_le_reg_r with (1 := P). rewrite Rmult_assoc, Rinv_l, Rmult_1_r, (Rmult_1_l d) by lra.
    unfold d. apply Rle_trans with (Rabs (x - y) + Rabs z); [apply Rabs_triang|]. apply Rplus_le_compat_r.
    unfold Rminus. apply Rle_trans with (Rabs x + Rabs (- y)); [apply Rabs_triang|]. rewrite Rabs_Ropp. lra.
  - split; intros E; [|rewrite E; unfold Rdiv; ring]. apply Rmult_eq_reg_r with (/ d); [|apply Rinv_neq_0_compat; lra]. rewrite Rmult_0_l; exact E.
Qed.

(** currents telescope *)
Lemma current_sum : ds <> 0 -> zsum 1 (ns - 1) (fun jF => Jv jF * ds) = sgn * (bucoH s bsubu (ns - 2) - bucoH s bsubu 0).
Proof.
  intros D. rewrite (zsum_ext 1 (ns - 1) _ (fun j => sgn * (bucoH s bsubu j - bucoH s bsubu (j - 1)%Z))) by (intros j Hj; rewrite jcurv_in by lia; field; exact D).
  rewrite zsum_scale. f_equal.
  assert (K : forall n, (0 <= n)%Z -> zsum 1 (1 + n) (fun j => bucoH s bsubu j - bucoH s bsubu (j - 1)%Z) = bucoH s bsubu n - bucoH s bsubu 0).
  { apply natlike_ind; [rewrite zsum_empty by lia; ring|]. intros n Hn IH. replace (1 + Z.succ n)%Z with (1 + n + 1)%Z by lia. rewrite zsum_snoc, IH by lia.
    replace (1 + n - 1)%Z with n by lia. replace (1 + n)%Z with (Z.succ n) by lia. ring. }
  replace (ns - 1)%Z with (1 + (ns - 2))%Z by lia. apply K. lia.
Qed.

(** fluxes *)
Lemma fluxes_ok jF : (0 <= jF < ns)%Z ->
  phi1 ns ds phipH iotaH jF = zsum 0 jF (fun j => phipH j * ds) /\ chi1 ns ds phipH iotaH jF = zsum 0 jF (fun j => phipH j * iotaH j * ds) /\
  chi ns ds phipH iotaH jF = 2 * PI * zsum 0 jF (fun j => phipH j * iotaH j * ds).
Proof.
  intros Hj. unfold phi1, chi1, chi, fluxes.
  refine (for_up_ind (fun k st => forall j, (0 <= j < k)%Z -> fst (fst st) j = zsum 0 j (fun j => phipH j * ds) /\ snd (fst st) j = zsum 0 j (fun j => phipH j * iotaH j * ds) /\
    snd st j = 2 * PI * zsum 0 j (fun j => phipH j * iotaH j * ds)) _ 1%Z ns _ _ _ _ jF _); [lia| | |lia].
  - intros j H. assert (j = 0%Z) as -> by lia. cbn [fst snd]. rewrite !upd_eq, !zsum_empty by lia. repeat split; ring.
  - intros k ((p & c) & x) Hk IH j H. cbn [fst snd] in *. destruct (Z.eq_dec j k) as [->|N].
    + rewrite !upd_eq. destruct (IH (k - 1)%Z ltac:(lia)) as (A & B & _). rewrite A, B.
      assert (Z1 : forall f, zsum 0 k f = zsum 0 (k - 1) f + f (k - 1)%Z) by (intros f; rewrite <- zsum_snoc by lia; f_equal; lia).
      rewrite !Z1. repeat split; ring.
    + rewrite !upd_neq by lia. apply IH. lia.
Qed.
End P.
