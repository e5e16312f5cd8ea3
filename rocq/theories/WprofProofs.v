From Coq Require Import ZArith List Bool Reals Lia Lra.
From Verif Require Import Base BaseLemmas SumLemmas SizesModel JxbModel JxbMain TableModel TableSpec TableProofs TableMain ShapeFinal WprofModel WprofSpec.
Import ListNotations.
Open Scope R_scope.

Lemma scaled_at ns c a j : (0 <= j < ns)%Z -> scaled ns c a j = c (a j).
Proof. intros H. unfold scaled. rewrite (for_up_upd (fun j => c (a j))), in_range by exact H. reflexivity. Qed.
Lemma q_ok ns big iotaf j : (0 <= j < ns)%Z -> (iotaf j <> 0 -> q_factor ns big iotaf j * iotaf j = 1) /\ (iotaf j = 0 -> q_factor ns big iotaf j = big).
Proof.
  intros H. unfold q_factor.
  assert (K : for_up 0 ns (fun jF a => if Req_EM_T (iotaf jF) 0 then a else upd a jF (1 / iotaf jF)) (fun _ => big) j = if Req_EM_T (iotaf j) 0 then big else 1 / iotaf j).
  { refine (proj1 (for_up_ind (fun k (a : Z -> R) => ((j < k)%Z -> a j = if Req_EM_T (iotaf j) 0 then big else 1 / iotaf j) /\ ((k <= j)%Z -> a j = big)) _ 0%Z ns _ _ _ _) _); [lia|split; [lia|reflexivity]| |lia].
    intros k a Hk (A & B). destruct (Z.eq_dec k j) as [->|N].
    - split; [intros _|lia]. destruct (Req_EM_T (iotaf j) 0); [apply B; lia|apply upd_eq].
    - destruct (Req_EM_T (iotaf k) 0); rewrite ?upd_neq by lia; split; intros; [apply A; lia|apply B; lia|apply A; lia|apply B; lia]. }
  rewrite K. destruct (Req_EM_T (iotaf j) 0) as [E|E]; split; intros F; try (exfalso; auto; fail); [reflexivity|field; exact E].
Qed.
Lemma shift_loop (v : Z -> R) n a i : for_up 0 n (fun j w => upd w (j + 1)%Z (v j)) a i = if ((1 <=? i) && (i <? n + 1))%Z then v (i - 1)%Z else a i.
Proof.
  destruct ((1 <=? i) && (i <? n + 1))%Z eqn:E.
  - apply andb_prop in E. destruct E as (E1 & E2). apply Z.leb_le in E1. apply Z.ltb_lt in E2.
    apply (LapMain.for_up_set (fun a : Z -> R => a i) (fun j a => upd a (j + 1)%Z (v j)) 0 n (i - 1)%Z); [lia|intros b; replace (i - 1 + 1)%Z with i by lia; apply upd_eq|].
    intros x b Hx N. apply upd_neq. lia.
  - apply (LapMain.for_up_keep (fun a : Z -> R => a i) (fun j a => upd a (j + 1)%Z (v j))). intros x b Hx. apply upd_neq.
    apply andb_false_iff in E. destruct E as [E|E]; [apply Z.leb_gt in E|apply Z.ltb_ge in E]; lia.
Qed.
Lemma shifted_at ns H j : (1 <= j < ns)%Z -> w_shifted ns H j = H (j - 1)%Z.
Proof.
  intros J. unfold w_shifted. replace (ns - (ns - 1))%Z with 1%Z by lia. rewrite (offset_loop H 1), in_range by lia. reflexivity.
Qed.
Lemma shifted_0 ns H : (1 <= ns)%Z -> w_shifted ns H 0 = 0.
Proof. intros J. unfold w_shifted. replace (ns - (ns - 1))%Z with 1%Z by lia. rewrite (offset_loop H 1), out_range by lia. reflexivity. Qed.
Lemma shifted_mu_at ns H j : (1 <= j < ns)%Z -> w_shifted_per_mu0 ns H j = H (j - 1)%Z / MU_0.
Proof. intros J. unfold w_shifted_per_mu0. rewrite (shift_loop (fun j => H j / MU_0)), in_range by lia. reflexivity. Qed.

(** relations between the arrays of the file *)
Section Rel.
Variables (s : sizes) (ns : Z) (sgn ds : R) (presH phipH iotaH dVdsH chipF phipF bsubu bsubv : Z -> R).
Hypothesis NS : (3 <= ns)%Z.
Let pres := w_shifted_per_mu0 ns presH.
Let buco := w_shifted ns (bucoH s bsubu).
Let bvco := w_shifted ns (bvcoH s bsubv).
Let vp := w_shifted ns dVdsH.
Let jv := w_per_mu0 ns (jcurv s ns sgn ds bsubu).
Let ju := w_per_mu0 ns (jcuru s ns sgn ds bsubv).
Lemma rel_ampere j : (1 <= j < ns - 1)%Z -> ds <> 0 -> jv j * MU_0 * ds = sgn * (buco (j + 1)%Z - buco j) /\ ju j * MU_0 * ds = - (sgn * (bvco (j + 1)%Z - bvco j)).
Proof.
  intros H D. pose proof mu_pos as M. unfold jv, ju, buco, bvco, w_per_mu0. rewrite !scaled_at, !shifted_at by lia. rewrite jcurv_in, jcuru_in by assumption.
  replace (j + 1 - 1)%Z with j by lia. split; field; (split; [exact D|lra]) || (split; [lra|exact D]).
Qed.
Lemma rel_presf j : (1 <= j < ns - 1)%Z -> w_per_mu0 ns (presf ns presH) j = (pres j + pres (j + 1)%Z) / 2.
Proof.
  intros H. pose proof mu_pos as M. unfold w_per_mu0, pres. rewrite scaled_at by lia. rewrite !shifted_mu_at by lia. replace (j + 1 - 1)%Z with j by lia.
  unfold presf. rewrite (full_at ns) by lia. destruct (Z.eqb_spec j (ns - 1)); [lia|]. destruct (Z.eqb_spec j 0); [lia|]. field. lra.
Qed.
(** the radial force column from the other columns *)
Lemma rel_force j : (1 <= j < ns - 1)%Z -> ds <> 0 -> sgn = 1 \/ sgn = -1 -> vp j + vp (j + 1)%Z <> 0 ->
  let x := w_flux_deriv ns sgn chipF j * jv j in let y := - (w_flux_deriv ns sgn phipF j * ju j) in
  let z := sgn * (2 * PI) * ((pres (j + 1)%Z - pres j) / ds) * ((vp j + vp (j + 1)%Z) / 2) in
  Rabs x + Rabs y + Rabs z <> 0 ->
  radial_force s ns sgn ds presH dVdsH chipF phipF bsubu bsubv j = sgn * (x + y + z) / (Rabs x + Rabs y + Rabs z).
Proof.
  intros H D SG V x y z NZ. pose proof mu_pos as M. pose proof PI_RGT_0 as P.
  assert (V' : across dVdsH j <> 0). { unfold vp in V. rewrite !shifted_at in V by lia. replace (j + 1 - 1)%Z with j in V by lia. unfold across. lra. }
  destruct (force s ns sgn ds presH dVdsH chipF phipF bsubu bsubv NS j H V' _ _ _ eq_refl) as (E & _). cbv zeta in E. rewrite E. clear E.
  set (x0 := chipF j * _). set (y0 := phipF j * _). set (z0 := slope ds presH j * _).
  assert (X : x = sgn * (2 * PI) / MU_0 * x0).
  { unfold x, x0, jv, w_flux_deriv, w_per_mu0. rewrite !scaled_at by lia. rewrite jcurv_slope by assumption. field. lra. }
  assert (Y : y = sgn * (2 * PI) / MU_0 * y0).
  { unfold y, y0, ju, w_flux_deriv, w_per_mu0. rewrite !scaled_at by lia. rewrite jcuru_slope by assumption. field. lra. }
  assert (Z' : z = sgn * (2 * PI) / MU_0 * z0).
  { unfold z, z0, pres, vp. rewrite !shifted_mu_at, !shifted_at by lia. replace (j + 1 - 1)%Z with j by lia. unfold slope, across. field. split; [exact D|lra] || (split; [lra|exact D]). }
  assert (C : 0 < 2 * PI / MU_0) by (apply Rmult_lt_0_compat; [lra|apply Rinv_0_lt_compat, M]).
  assert (AB : forall v, Rabs (sgn * (2 * PI) / MU_0 * v) = 2 * PI / MU_0 * Rabs v).
  { intros v. rewrite Rabs_mult. f_equal. destruct SG as [-> | ->]; [rewrite Rabs_right; [unfold Rdiv; ring|]|rewrite Rabs_left; [unfold Rdiv; ring|]].
    - replace (1 * (2 * PI) / MU_0) with (2 * PI / MU_0) by (unfold Rdiv; ring). lra.
    - replace (-1 * (2 * PI) / MU_0) with (- (2 * PI / MU_0)) by (unfold Rdiv; ring). lra. }
  assert (D0 : Rabs x0 + Rabs y0 + Rabs z0 <> 0). { intros Q. apply NZ. rewrite X, Y, Z', !AB. replace (2 * PI / MU_0 * Rabs x0 + 2 * PI / MU_0 * Rabs y0 + 2 * PI / MU_0 * Rabs z0) with (2 * PI / MU_0 * (Rabs x0 + Rabs y0 + Rabs z0)) by ring. rewrite Q. ring. }
  rewrite X, Y, Z', !AB. replace (2 * PI / MU_0 * Rabs x0 + 2 * PI / MU_0 * Rabs y0 + 2 * PI / MU_0 * Rabs z0) with (2 * PI / MU_0 * (Rabs x0 + Rabs y0 + Rabs z0)) by ring.
  set (d0 := Rabs x0 + Rabs y0 + Rabs z0) in *. destruct SG as [-> | ->]; field; repeat split; first [lra|exact D0].
Qed.
End Rel.

(** chi against phi and chipf *)
Lemma chi_relation ns sgn ds phipH iotaH : (3 <= ns)%Z -> sgn = 1 \/ sgn = -1 -> forall j, (1 <= j < ns)%Z ->
  chi ns ds phipH iotaH j - chi ns ds phipH iotaH (j - 1) =
  sgn * (w_shifted ns iotaH j * (toroidal_flux ns sgn ds phipH iotaH j - toroidal_flux ns sgn ds phipH iotaH (j - 1))).
Proof.
  intros N SG j H. destruct (fluxes_spec ns sgn ds phipH iotaH N) as (_ & _ & F). destruct (F j H) as (A & B). rewrite A, B, shifted_at by lia.
  destruct SG as [-> | ->]; ring.
Qed.
Lemma chi_bad : exists phipH iotaH chipF : Z -> R,
  (forall j, (0 <= j < 5)%Z -> chipF j = phipH j * iotaH j) /\
  (forall j, (1 <= j < 5)%Z -> 0 < toroidal_flux 5 (-1) (/ 4) phipH iotaH j - toroidal_flux 5 (-1) (/ 4) phipH iotaH (j - 1)) /\
  (forall j, (1 <= j < 5)%Z -> 0 < w_shifted 5 iotaH j /\ 0 < w_flux_deriv 5 (-1) chipF j) /\
  forall j, (1 <= j < 5)%Z -> chi 5 (/ 4) phipH iotaH j - chi 5 (/ 4) phipH iotaH (j - 1) < 0.
Proof.
  exists (fun _ => -1), (fun _ => 1), (fun _ => -1). pose proof PI_RGT_0 as P. assert (N : (3 <= 5)%Z) by lia.
  destruct (fluxes_spec 5 (-1) (/ 4) (fun _ => -1) (fun _ => 1) N) as (_ & _ & F).
  split; [intros; ring|]. split; [intros j H; destruct (F j H) as (A & _); rewrite A; lra|].
  split; [intros j H; split; [rewrite shifted_at by lia; lra|unfold w_flux_deriv; rewrite scaled_at by lia; lra]|].
  intros j H. destruct (F j H) as (_ & A). rewrite A. lra.
Qed.

(** the energy trace *)
Lemma assign_below lens : forall start w i, Forall (fun l => (1 <= l)%Z) lens -> (i <= start)%Z -> wdot_assign start lens w i = w i.
Proof.
  induction lens as [|a L IH]; intros start w i F H; [reflexivity|]. cbn [wdot_assign]. inversion F; subst. rewrite IH by (auto; lia).
  unfold wdot_piece. rewrite out_range by lia. reflexivity.
Qed.
Lemma first_piece n a rest E i : pieces n (a :: rest) -> (0 <= i <= a)%Z -> wdot (a :: rest) E i = relative_change E i.
Proof.
  intros (F & _) H. inversion F; subst. unfold wdot. cbn [wdot_assign]. rewrite assign_below by (auto; lia). unfold wdot_piece, relative_change.
  destruct (Z.eqb_spec i 0) as [->|N]; [rewrite out_range by lia; reflexivity|rewrite in_range by lia; reflexivity].
Qed.
Lemma second_piece n a b rest E : pieces n (a :: b :: rest) -> wdot (a :: b :: rest) E (a + 1) = (E (a + 1)%Z - relative_change E a) / E (a + 1)%Z.
Proof.
  intros (F & _). inversion F as [|x xs F1 F2]; subst. inversion F2; subst. unfold wdot. cbn [wdot_assign]. rewrite assign_below by (auto; lia). unfold wdot_piece at 1. rewrite in_range by lia.
  assert (E1 : wdot_piece 0 a E (a + 1) = E (a + 1)%Z) by (unfold wdot_piece; rewrite out_range by lia; reflexivity).
  assert (E2 : wdot_piece 0 a E (a + 1 - 1) = relative_change E a).
  { unfold wdot_piece. rewrite in_range by lia. replace (a + 1 - 1)%Z with a by lia. unfold relative_change. destruct (Z.eqb_spec a 0); [lia|reflexivity]. }
  rewrite E1, E2. reflexivity.
Qed.
Lemma wdot_constant_bad n a b rest : pieces n (a :: b :: rest) -> relative_change (fun _ => 1) (a + 1) = 0 /\ wdot (a :: b :: rest) (fun _ => 1) (a + 1) = 1.
Proof.
  intros P. pose proof P as (F & _). inversion F; subst. rewrite (second_piece n) by exact P. unfold relative_change.
  destruct (Z.eqb_spec (a + 1) 0); [lia|]. destruct (Z.eqb_spec a 0); [lia|]. split; lra.
Qed.
