From Coq Require Import ZArith List Bool Reals Lia Lra.
From Verif Require Import Base BaseLemmas SumLemmas PartModel SizesModel FourierModel FourierSpec FourierProofs BoundaryModel BoundarySpec BoundaryProofs
  AxisSpec ProfileModel DftModel DftSpec DftTables LapMain WoutModel WoutSpec WoutProofs WoutFinal WoutMain InitModel InitSpec.
Import ListNotations.
Open Scope R_scope.

Definition bval (c : comp) (k : bk) (b : bdy) : Z -> R :=
  match c, k with
  | cR, b_cc => rbcc b | cR, b_ss => rbss b | cR, b_sc => rbsc b | cR, b_cs => rbcs b
  | cZ, b_cc => zbcc b | cZ, b_ss => zbss b | cZ, b_sc => zbsc b | cZ, b_cs => zbcs b
  | cL, _ => fun _ => 0 end.
Definition aval (rc rs zs zc : Z -> R) (c : comp) (k : bk) (n : Z) : R :=
  match c, k with cR, b_cc => rc n | cR, b_cs => - rs n | cZ, b_cs => - zs n | cZ, b_cc => zc n | _, _ => 0 end.

Section I.
Variables (s : sizes) (p : rpart) (ns : Z) (sq : Z -> R) (b : bdy) (rc rs zs zc : Z -> R).
Hypothesis OK : sz_ok s.
Hypothesis M2 : (2 <= sz_mpol s)%Z.
Local Notation mpol := (sz_mpol s).
Local Notation ntor := (sz_ntor s).
Local Notation nfp := (sz_nfp s).
Local Notation init := (interpFromBoundaryAndAxis s p sq b rc rs zs zc).
Local Notation b1 := (ensureM1Constrained (sz_lasym s) (sz_lthreed s) ntor 1 b).

Lemma init_at x c k j m n : c <> cL -> has s c k = true -> (nsMinF1 p <= j < nsMaxF1 p)%Z -> (0 <= m < mpol)%Z -> (0 <= n <= ntor)%Z ->
  init x c k (at_mn s (j - nsMinF1 p) m n) =
  basis_norm m n * (weight (sq (j - nsMinF1 p)%Z) m * bval c k b (m * (ntor + 1) + n)%Z + (if (m =? 0)%Z then (1 - sq (j - nsMinF1 p)%Z * sq (j - nsMinF1 p)%Z) * aval rc rs zs zc c k n else 0)).
Proof.
  intros NL HB Hj Hm Hn. unfold interpFromBoundaryAndAxis, at_mn.
  pose (pr := fun y : coefs => y c k (((j - nsMinF1 p) * mpol + m) * (ntor + 1) + n)%Z).
  assert (KEEP : forall j' m' n' y, (0 <= m' < mpol)%Z -> (0 <= n' <= ntor)%Z -> (j' <> j \/ m' <> m \/ n' <> n)%Z -> pr (init_cell s p sq b rc rs zs zc j' m' n' y) = pr y).
  { intros j' m' n' y Hm' Hn' NE. unfold pr, init_cell. cbv zeta. destruct c; try contradiction; rewrite HB; apply upd_neq; intros E; apply (local_inj s) in E; lia. }
  apply (for_up_set pr _ (nsMinF1 p) (nsMaxF1 p) j); [lia| |].
  - intros y1. apply (for_up_set pr _ 0 mpol m); [lia| |].
    + intros y2. apply (for_up_set pr _ 0 (ntor + 1) n); [lia| |].
      * intros y3. unfold pr, init_cell, weight, basis_norm. cbv zeta.
        destruct c; try contradiction; rewrite HB, upd_eq; destruct (m =? 0)%Z; destruct k; cbn [init_m0 init_m bval aval]; ring.
      * intros n' y3 Hn' NE. apply KEEP; lia.
    + intros m' y2 Hm' NE. apply (for_up_keep pr). intros n' y3 Hn'. apply KEEP; lia.
  - intros j' y1 Hj' NE. apply (for_up_keep pr). intros m' y2 Hm'. apply (for_up_keep pr). intros n' y3 Hn'. apply KEEP; lia.
Qed.
Lemma init_lambda x k : init x cL k = x cL k.
Proof.
  unfold interpFromBoundaryAndAxis. apply (for_up_keep (fun y : coefs => y cL k)). intros j y1 _. apply (for_up_keep (fun y : coefs => y cL k)). intros m y2 _.
  apply (for_up_keep (fun y : coefs => y cL k)). intros n y3 _. reflexivity.
Qed.
(** the coefficients on one surface as a table for all surfaces *)
Definition onesurf (j : Z) (x : coefs) : coefs := fun c k q => x c k (at_mn s (j - nsMinF1 p) (q mod mpol) ((q / mpol) mod (ntor + 1))).
Lemma onesurf_at j x c k m n : (0 <= m < mpol)%Z -> (0 <= n <= ntor)%Z -> onesurf j x c k (gidx s j m n) = x c k (at_mn s (j - nsMinF1 p) m n).
Proof.
  intros Hm Hn. unfold onesurf, gidx. f_equal. f_equal.
  - rewrite Z.add_comm, Z.mod_add by lia. apply Z.mod_small. lia.
  - rewrite Z.div_add_l by lia. rewrite (Z.div_small m) by lia. rewrite Z.add_0_r, Z.add_comm, Z.mod_add by lia. apply Z.mod_small. lia.
Qed.
Lemma b1_at c k m n : c <> cL -> has s c k = true -> (0 <= m < mpol)%Z -> (0 <= n <= ntor)%Z ->
  bval c k b1 (m * (ntor + 1) + n)%Z = m1val s c k m (fun c k => bval c k b (m * (ntor + 1) + n)%Z).
Proof.
  intros NL HB Hm Hn. pose proof (ensureM1_at (sz_lasym s) (sz_lthreed s) mpol ntor 1 b M2 (so_ntor s OK) m n Hm Hn) as E.
  unfold m1val. destruct (m =? 1)%Z; unfold view, m1_view in E; injection E as E1 E2 E3 E4 E5 E6 E7 E8;
    destruct c; try contradiction; destruct k; cbn [bval] in *; try assumption; cbn [has] in HB; rewrite HB in *; rewrite ?Rmult_1_r in *; assumption.
Qed.
Lemma phys_at x c k j m n : c <> cL -> has s c k = true -> (nsMinF1 p <= j < nsMaxF1 p)%Z -> (0 <= j < ns)%Z -> (0 <= m < mpol)%Z -> (0 <= n <= ntor)%Z ->
  let rho := sq (j - nsMinF1 p)%Z in
  physical s ns (onesurf j (init x)) c k (gidx s j m n) =
  basis_norm m n * (weight rho m * bval c k b1 (m * (ntor + 1) + n)%Z + (if (m =? 0)%Z then (1 - rho * rho) * aval rc rs zs zc c k n else 0)).
Proof.
  intros NL HB Hj Hj' Hm Hn rho. rewrite (physical_at s ns M2) by assumption. rewrite b1_at by assumption. unfold m1val.
  destruct (Z.eqb_spec m 1) as [M1|M1].
  - assert (E0 : (m =? 0)%Z = false) by (apply Z.eqb_neq; lia).
    destruct c; try contradiction; destruct k; cbn [has] in HB; rewrite ?HB; rewrite !onesurf_at by assumption;
      rewrite !init_at by (first [discriminate|reflexivity|assumption|cbn [has]; assumption]); rewrite E0; fold rho; ring.
  - rewrite onesurf_at by assumption. rewrite init_at by assumption. reflexivity.
Qed.
Lemma norm_s2 m n : basis_norm m n * (s2 m * s2 n) = 1.
Proof.
  unfold basis_norm, s2. assert (S := sqrt_lt_R0 2 ltac:(lra)). unfold mscale, nscale. destruct (m =? 0)%Z, (n =? 0)%Z; field; lra.
Qed.
Lemma kind_sum x c k j th ph : In k (kinds (sz_lasym s) c) -> c <> cL -> (nsMinF1 p <= j < nsMaxF1 p)%Z -> (0 <= j < ns)%Z ->
  let rho := sq (j - nsMinF1 p)%Z in let ze := IZR nfp * ph in
  prod2 s (in_theta k) (in_zeta k) (physical s ns (onesurf j (init x)) c k) j th (IZR nfp * ph) =
  if has s c k then zsum 0 mpol (fun m => weight rho m * row_out ntor (in_theta k) (in_zeta k) (bval c k b1) th ze m)
    + (1 - rho * rho) * zsum 0 (ntor + 1) (fun n => aval rc rs zs zc c k n * (in_theta k 0 * in_zeta k (IZR n * ze))) else 0.
Proof.
  intros HI NL Hj Hj' rho ze. rewrite (prod2_kind s c k). assert (Hn0 := so_ntor s OK). destruct (has s c k) eqn:HB.
  - rewrite (zsum_ext 0 mpol _ (fun m => weight rho m * row_out ntor (in_theta k) (in_zeta k) (bval c k b1) th ze m +
       (if (m =? 0)%Z then (1 - rho * rho) * zsum 0 (ntor + 1) (fun n => aval rc rs zs zc c k n * (in_theta k 0 * in_zeta k (IZR n * ze))) else 0))).
    + rewrite zsum_plus. f_equal. rewrite (zsum_single 0 mpol 0) by (first [lia|intros i _ Hi; destruct (Z.eqb_spec i 0); [lia|reflexivity]]). reflexivity.
    + intros m Hm. unfold row_out. rewrite <- zsum_scale.
      transitivity (zsum 0 (ntor + 1) (fun n => weight rho m * (bval c k b1 (m * (ntor + 1) + n)%Z * (in_theta k (IZR m * th) * in_zeta k (IZR n * ze))) +
         (if (m =? 0)%Z then (1 - rho * rho) * (aval rc rs zs zc c k n * (in_theta k 0 * in_zeta k (IZR n * ze))) else 0))).
      * apply zsum_ext. intros n Hn. rewrite phys_at by (assumption || lia). fold rho. unfold Phi. fold ze.
        transitivity (basis_norm m n * (s2 m * s2 n) * ((weight rho m * bval c k b1 (m * (ntor + 1) + n)%Z + (if (m =? 0)%Z then (1 - rho * rho) * aval rc rs zs zc c k n else 0)) * (in_theta k (IZR m * th) * in_zeta k (IZR n * ze)))); [ring|].
        rewrite norm_s2. destruct (Z.eqb_spec m 0) as [->|]; [|ring]. rewrite Rmult_0_l. ring.
      * rewrite zsum_plus. f_equal. destruct (m =? 0)%Z; [rewrite <- zsum_scale; reflexivity|apply zsum_zero; reflexivity].
  - apply zsum_zero. intros m Hm. apply zsum_zero. intros n Hn. assert (P0 : Phi nfp k m n th ph = 0) by (eapply no_kind; eauto; lia). rewrite P0. ring.
Qed.
End I.
