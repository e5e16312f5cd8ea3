(** The scalar results are exact for profiles that are linear in the flux. *)
From Coq Require Import Reals List Arith Lia Lra.
From Verif Require Import SimsGridModel.
Open Scope R_scope.

Lemma ns_pos ns : (2 <= ns)%nat -> 0 < INR (ns - 1).
Proof. intros H. apply lt_0_INR. lia. Qed.
Lemma grids ns i : (2 <= ns)%nat -> grid_ds ns = / INR (ns - 1) /\ s_full_grid ns 0 = 0 /\ s_full_grid ns (ns - 1) = 1 /\
  s_half_grid ns i = (INR i + / 2) / INR (ns - 1).
Proof.
  intros H. pose proof (ns_pos ns H) as P. unfold s_half_grid, grid_ds, s_full_grid, linspace01. rewrite plus_INR. cbn [INR].
  repeat split; field; lra.
Qed.
Lemma rsum_ext n f g : (forall i, (i < n)%nat -> f i = g i) -> rsum n f = rsum n g.
Proof. induction n; intros H; cbn; [reflexivity|]. rewrite IHn by (intros; apply H; lia). rewrite H by lia. reflexivity. Qed.
Lemma rsum_lin n a b c : rsum n (fun i => a + b * ((INR i + / 2) * c)) = INR n * a + b * c * (INR n * INR n / 2).
Proof. induction n; [cbn; lra|]. cbn [rsum]. rewrite IHn, S_INR. lra. Qed.
(** [f] holds the values at the half grid points, entry 0 is not used *)
Definition linear_half (ns : nat) (f : nat -> R) (a b : R) : Prop := forall i, (i < ns - 1)%nat -> f (i + 1)%nat = a + b * ((INR i + / 2) / INR (ns - 1)).
Lemma mean_lin ns f a b : (2 <= ns)%nat -> linear_half ns f a b -> mean_iota ns f = a + b / 2.
Proof.
  intros H L. pose proof (ns_pos ns H) as P. unfold mean_iota. rewrite (rsum_ext _ _ (fun i => a + b * ((INR i + / 2) * / INR (ns - 1)))).
  - rewrite rsum_lin. field. lra.
  - intros i Hi. rewrite (L i Hi). unfold Rdiv. reflexivity.
Qed.
Lemma well_lin ns g a b : (3 <= ns)%nat -> a <> 0 -> linear_half ns (fun i => Rabs (g i)) a b -> vacuum_well ns g = (a - (a + b)) / a.
Proof.
  intros H A L. pose proof (ns_pos ns ltac:(lia)) as P. unfold vacuum_well.
  replace (ns - 1 - 1)%nat with (ns - 2)%nat by lia. replace (ns - 1 - 2)%nat with (ns - 3)%nat by lia.
  rewrite (L 0%nat), (L 1%nat), (L (ns - 2)%nat), (L (ns - 3)%nat) by lia.
  assert (E1 : INR (ns - 2) = INR (ns - 1) - 1) by (rewrite !minus_INR by lia; cbn; lra).
  assert (E2 : INR (ns - 3) = INR (ns - 1) - 2) by (rewrite !minus_INR by lia; cbn; lra).
  rewrite E1, E2. cbn [INR]. set (n := INR (ns - 1)) in *. pose proof PI_RGT_0 as PP. cbv zeta.
  assert (S0 : 15 / 10 * (4 * PI * PI * (a + b * ((0 + / 2) / n))) - 5 / 10 * (4 * PI * PI * (a + b * ((1 + / 2) / n))) = 4 * PI * PI * a) by (field; lra).
  assert (S1 : 15 / 10 * (4 * PI * PI * (a + b * ((n - 1 + / 2) / n))) - 5 / 10 * (4 * PI * PI * (a + b * ((n - 2 + / 2) / n))) = 4 * PI * PI * (a + b)) by (field; lra).
  rewrite S0, S1. field. split; [exact A|lra].
Qed.
Lemma current_lin ns f a b : (3 <= ns)%nat -> linear_half ns f a b -> external_current ns f = 2 * PI * (a + b) / (4 * PI / 10 ^ 7).
Proof.
  intros H L. pose proof (ns_pos ns ltac:(lia)) as P. unfold external_current.
  pose proof (L (ns - 2)%nat ltac:(lia)) as L1. pose proof (L (ns - 3)%nat ltac:(lia)) as L2.
  replace (ns - 2 + 1)%nat with (ns - 1)%nat in L1 by lia. replace (ns - 3 + 1)%nat with (ns - 2)%nat in L2 by lia. rewrite L1, L2.
  assert (E1 : INR (ns - 2) = INR (ns - 1) - 1) by (rewrite !minus_INR by lia; cbn; lra).
  assert (E2 : INR (ns - 3) = INR (ns - 1) - 2) by (rewrite !minus_INR by lia; cbn; lra).
  rewrite E1, E2. pose proof PI_RGT_0. field. lra.
Qed.
Lemma case_lin : linear_half 4 (fun i => match i with 1%nat => -3 | 2%nat => -4 | _ => -5 end) (-5 / 2) (-3).
Proof. intros i Hi. destruct i as [|[|[|]]]; cbn in *; try lra. lia. Qed.
