From Coq Require Import ZArith List Bool Reals Lra Lia.
From Coquelicot Require Import Coquelicot.
From Verif Require Import Base BaseLemmas SumLemmas ProfileModel PolyProofs ProfileGridProofs FluxModel.
Import ListNotations.
Open Scope R_scope.

Lemma loop_at (v : Z -> R -> R) lo hi (f : Z -> R) j : (lo <= j < hi)%Z ->
  for_up lo hi (fun i g => upd g i (v i (g i))) f j = v j (f j).
Proof.
  intros H.
  pose (I := fun m (r : Z -> R) => (forall i, (lo <= i < m)%Z -> r i = v i (f i)) /\ (forall i, (m <= i)%Z -> r i = f i)).
  assert (P : I hi (for_up lo hi (fun i g => upd g i (v i (g i))) f)).
  { apply (for_up_ind I); unfold I.
    - lia.
    - split; intros; [lia|reflexivity].
    - intros m r Hm (A & B). split; intros i Hi.
      + destruct (Z.eq_dec i m) as [->|N]; [rewrite upd_eq, B by lia; reflexivity|]. rewrite upd_neq by exact N. apply A. lia.
      + rewrite upd_neq by lia. apply B. lia. }
  apply P. exact H.
Qed.

Lemma loop_sum (x : Z -> R) hi (f : Z -> R) j : (0 <= j < hi)%Z -> f 0%Z = 0 ->
  for_up 1 hi (fun i g => upd g i (g (i - 1)%Z + x (i - 1)%Z)) f j = zsum 0 j x.
Proof.
  intros Hj H0.
  pose (I := fun m (r : Z -> R) => forall i, (0 <= i < m)%Z -> r i = zsum 0 i x).
  assert (P : I hi (for_up 1 hi (fun i g => upd g i (g (i - 1)%Z + x (i - 1)%Z)) f)).
  { apply (for_up_ind I); unfold I.
    - lia.
    - intros i Hi. replace i with 0%Z by lia. rewrite H0. symmetry. apply zsum_empty. lia.
    - intros m r Hm A i Hi. destruct (Z.eq_dec i m) as [->|N].
      + rewrite upd_eq, A by lia. replace (zsum 0 m x) with (zsum 0 ((m - 1) + 1) x) by (f_equal; lia).
        rewrite zsum_snoc by lia. reflexivity.
      + rewrite upd_neq by exact N. apply A. lia. }
  apply P. exact Hj.
Qed.

Lemma phi_sum sign ns phipF old j : (0 <= j < ns)%Z ->
  recomputeToroidalFlux sign ns phipF old j = sign * 2 * PI * deltaS ns * zsum 0 j phipF.
Proof.
  intros Hj. unfold recomputeToroidalFlux.
  rewrite (loop_at (fun _ y => y * (sign * 2 * PI * deltaS ns)) 0 ns _ j) by lia.
  rewrite loop_sum; [ring|lia|apply upd_eq].
Qed.

Lemma chi_at ns phipH iotaH old j : (0 < j < ns)%Z ->
  snd (fluxProfileChi ns phipH iotaH old) j = 2 * PI * deltaS ns * zsum 0 j (fun i => phipH i * iotaH i).
Proof.
  intros Hj. unfold fluxProfileChi.
  set (b := fun (jF : Z) (c : (Z -> R) * (Z -> R)) => _).
  pose (I := fun m (c : (Z -> R) * (Z -> R)) =>
    (forall i, (0 <= i < m)%Z -> fst c i = zsum 0 i (fun i => phipH i * iotaH i * deltaS ns)) /\
    (forall i, (1 <= i < m)%Z -> snd c i = 2 * PI * zsum 0 i (fun i => phipH i * iotaH i * deltaS ns))).
  assert (P : I ns (for_up 1 ns b (upd old 0 0, old))).
  { apply (for_up_ind I); unfold I.
    - lia.
    - split; intros i Hi; [|lia]. replace i with 0%Z by lia. cbn [fst]. rewrite upd_eq. symmetry. apply zsum_empty. lia.
    - intros m r Hm (A & B). unfold b. cbn [fst snd].
      assert (E : upd (fst r) m (fst r (m - 1)%Z + phipH (m - 1)%Z * iotaH (m - 1)%Z * deltaS ns) m = zsum 0 m (fun i => phipH i * iotaH i * deltaS ns)).
      { rewrite upd_eq, A by lia.
        replace (zsum 0 m (fun i => phipH i * iotaH i * deltaS ns)) with (zsum 0 ((m - 1) + 1) (fun i => phipH i * iotaH i * deltaS ns)) by (f_equal; lia).
        rewrite zsum_snoc by lia. reflexivity. }
      split; intros i Hi; (destruct (Z.eq_dec i m) as [->|N]; [|rewrite upd_neq by exact N; (apply A || apply B); lia]).
      + exact E.
      + rewrite upd_eq, E. reflexivity. }
  destruct P as (_ & P). rewrite P by lia. rewrite zsum_scale_r. ring.
Qed.

Lemma chi_zero ns phipH iotaH old : snd (fluxProfileChi ns phipH iotaH old) 0%Z = old 0%Z.
Proof.
  unfold fluxProfileChi. set (b := fun (jF : Z) (c : (Z -> R) * (Z -> R)) => _).
  destruct (Z_le_gt_dec ns 1) as [H|H]; [rewrite for_up_empty by lia; reflexivity|].
  pose (I := fun (m : Z) (c : (Z -> R) * (Z -> R)) => snd c 0%Z = old 0%Z).
  assert (P : I ns (for_up 1 ns b (upd old 0 0, old))).
  { apply (for_up_ind I); unfold I; [lia|reflexivity|].
    intros m r Hm A. unfold b. cbn [snd]. rewrite upd_neq by lia. exact A. }
  exact P.
Qed.

Lemma phi1_sum ns phipH old j : (0 <= j < ns)%Z ->
  fluxProfilePhi1 ns phipH old j = deltaS ns * zsum 0 j phipH.
Proof.
  intros Hj. unfold fluxProfilePhi1.
  rewrite (loop_sum (fun i => phipH i * deltaS ns)); [rewrite zsum_scale_r; ring|lia|apply upd_eq].
Qed.

Lemma deriv_at sign ns xF old j : (0 <= j < ns)%Z -> woutDeriv sign ns xF old j = sign * 2 * PI * xF j.
Proof. intros Hj. unfold woutDeriv. apply (loop_at (fun i _ => sign * 2 * PI * xF i) 0 ns old j). lia. Qed.

Lemma chipHalf_at ns phipH iotaH old j : (0 <= j < ns - 1)%Z -> chipHalf ns phipH iotaH old j = iotaH j * phipH j.
Proof. intros Hj. unfold chipHalf. apply (loop_at (fun i _ => iotaH i * phipH i) 0 (ns - 1) old j). lia. Qed.
Lemma chipFull_at ns chipH old j : (1 <= j < ns - 1)%Z -> chipFull ns chipH old j = 1 / 2 * (chipH j + chipH (j - 1)%Z).
Proof.
  intros Hj. unfold chipFull. rewrite upd_neq by lia.
  apply (loop_at (fun i _ => 1 / 2 * (chipH i + chipH (i - 1)%Z)) 1 (ns - 1) old j). lia.
Qed.

Lemma delta_pos ns : (2 <= ns)%Z -> 0 < deltaS ns.
Proof. intros H. unfold deltaS. apply Rdiv_lt_0_compat; [lra|]. apply IZR_le in H. lra. Qed.
Lemma delta_full ns j : full_pos ns j = IZR j * deltaS ns.
Proof. unfold full_pos, deltaS. unfold Rdiv. ring. Qed.

(** The exact flux is the sum of its increments over the cells. *)
Lemma telescope (F : Z -> R) j : (0 <= j)%Z -> zsum 0 j (fun i => F (i + 1)%Z - F i) = F j - F 0%Z.
Proof.
  intros H. revert j H. apply (natlike_ind (fun j => zsum 0 j (fun i => F (i + 1)%Z - F i) = F j - F 0%Z)).
  - rewrite zsum_empty by lia. ring.
  - intros x Hx IH. unfold Z.succ. rewrite zsum_snoc, IH by lia. ring.
Qed.

Lemma torflux_zero aphi : torflux aphi 0 = 0.
Proof. unfold torflux. ring. Qed.

Lemma zsum_le lo hi f g : (forall i, (lo <= i < hi)%Z -> f i <= g i) -> zsum lo hi f <= zsum lo hi g.
Proof.
  intros H. unfold zsum. assert (G : forall i, In i (zrange lo hi) -> f i <= g i) by (intros i Hi; apply H, zrange_In, Hi).
  revert G. generalize (zrange lo hi). intros l. induction l as [|a l IH]; intros G; cbn; [lra|].
  apply Rplus_le_compat; [apply G; left; reflexivity|apply IH; intros; apply G; right; assumption].
Qed.
Lemma zsum_triangle lo hi f : Rabs (zsum lo hi f) <= zsum lo hi (fun i => Rabs (f i)).
Proof.
  unfold zsum. generalize (zrange lo hi). intros l. induction l as [|a l IH]; cbn; [rewrite Rabs_R0; lra|].
  eapply Rle_trans; [apply Rabs_triang|]. apply Rplus_le_compat; [lra|exact IH].
Qed.

(** One cell, by the mean value theorem. *)
Lemma cell aphi L a b : a < b -> (forall x y, a <= x <= b -> a <= y <= b -> Rabs (torfluxDeriv aphi x - torfluxDeriv aphi y) <= L * Rabs (x - y)) ->
  Rabs ((b - a) * torfluxDeriv aphi a - (torflux aphi b - torflux aphi a)) <= L * (b - a) * (b - a).
Proof.
  intros Hab HL.
  destruct (MVT_cor2 (torflux aphi) (torfluxDeriv aphi) a b Hab) as (c & E & Hc).
  { intros c _. apply torflux_derivative. }
  rewrite E. replace ((b - a) * torfluxDeriv aphi a - torfluxDeriv aphi c * (b - a)) with ((torfluxDeriv aphi a - torfluxDeriv aphi c) * (b - a)) by ring.
  rewrite Rabs_mult, (Rabs_pos_eq (b - a)) by lra.
  apply Rmult_le_compat_r; [lra|].
  assert (H0 : 0 <= L).
  { pose proof (HL a b ltac:(lra) ltac:(lra)) as H. pose proof (Rabs_pos (torfluxDeriv aphi a - torfluxDeriv aphi b)).
    assert (0 < Rabs (a - b)) by (apply Rabs_pos_lt; lra). destruct (Rle_dec 0 L) as [|N]; [assumption|]. nra. }
  eapply Rle_trans; [apply HL; lra|]. apply Rmult_le_compat_l; [exact H0|].
  rewrite Rabs_minus_sym, Rabs_pos_eq; lra.
Qed.

Lemma left_sum aphi L ns j : (2 <= ns)%Z -> (0 <= j < ns)%Z ->
  (forall x y, 0 <= x <= 1 -> 0 <= y <= 1 -> Rabs (torfluxDeriv aphi x - torfluxDeriv aphi y) <= L * Rabs (x - y)) ->
  Rabs (deltaS ns * zsum 0 j (fun i => torfluxDeriv aphi (full_pos ns i)) - torflux aphi (full_pos ns j)) <= L * deltaS ns * full_pos ns j.
Proof.
  intros Hns Hj HL. pose proof (delta_pos ns Hns) as HD.
  assert (E : deltaS ns * zsum 0 j (fun i => torfluxDeriv aphi (full_pos ns i)) - torflux aphi (full_pos ns j)
    = zsum 0 j (fun i => deltaS ns * torfluxDeriv aphi (full_pos ns i) - (torflux aphi (full_pos ns (i + 1)) - torflux aphi (full_pos ns i)))).
  { rewrite zsum_minus, zsum_scale, (telescope (fun i => torflux aphi (full_pos ns i))) by lia.
    replace (full_pos ns 0) with 0 by (unfold full_pos; field; apply IZR_le in Hns; lra).
    rewrite torflux_zero. ring. }
  rewrite E. eapply Rle_trans; [apply zsum_triangle|].
  replace (L * deltaS ns * full_pos ns j) with (zsum 0 j (fun _ => L * deltaS ns * deltaS ns)).
  2:{ rewrite zsum_const by lia. rewrite delta_full, Z.sub_0_r. ring. }
  apply zsum_le. intros i Hi.
  assert (Hs : full_pos ns (i + 1) - full_pos ns i = deltaS ns) by (rewrite !delta_full, plus_IZR; ring).
  assert (H0 : 0 <= full_pos ns i) by (rewrite delta_full; apply Rmult_le_pos; [apply (IZR_le 0); lia|lra]).
  assert (H1 : full_pos ns (i + 1) <= 1).
  { rewrite delta_full. apply Rle_trans with ((IZR ns - 1) * deltaS ns).
    - apply Rmult_le_compat_r; [lra|]. rewrite <- minus_IZR. apply IZR_le. lia.
    - right. unfold deltaS. field. apply IZR_le in Hns. lra. }
  pose proof (cell aphi L (full_pos ns i) (full_pos ns (i + 1))) as C. rewrite Hs in C. apply C; [lra|].
  intros x y Hx Hy. apply HL; lra.
Qed.
