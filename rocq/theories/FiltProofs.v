From Coq Require Import ZArith List Bool Reals Lia Lra.
From Verif Require Import Base BaseLemmas SumLemmas SizesModel FourierModel FourierSpec FourierProofs TrigSums
  PartModel DftModel DftSpec DftTables DftProofs DftGeo DftForces DftFold DftFinal LapMain FiltModel FiltSpec.
Import ListNotations.
Open Scope R_scope.

Lemma make_sizes_nyq lasym nfp mpol ntor ntheta nzeta mg ng s :
  make_sizes lasym nfp mpol ntor ntheta nzeta mg ng = Some s ->
  (sz_mpol s <= sz_mnyq s)%Z /\ ((0 < sz_ntor s)%Z -> (sz_ntor s < sz_nnyq s)%Z).
Proof.
  unfold make_sizes. destruct ((nfp <? 1)%Z || (mpol <? 1)%Z || (ntor <? 0)%Z) eqn:C; [discriminate|].
  apply orb_false_elim in C. destruct C as [C C3]. apply orb_false_elim in C. destruct C as [C1 C2].
  apply Z.ltb_ge in C1, C2, C3.
  intros E. apply some_inj in E. subst s. cbn [sz_mpol sz_mnyq sz_ntor sz_nnyq].
  set (nth := if (ntheta <? 2 * mpol + 6)%Z then (2 * mpol + 6)%Z else ntheta).
  assert (2 * mpol + 6 <= nth)%Z by (unfold nth; destruct (Z.ltb_spec ntheta (2 * mpol + 6)); lia).
  assert (Q := Z.quot_rem nth 2 ltac:(lia)). assert (Q2 := Z.rem_bound_pos nth 2 ltac:(lia) ltac:(lia)).
  set (h := Z.quot nth 2) in *.
  assert (E2 : forall x, (2 * x ÷ 2 = x)%Z) by (intros; rewrite Z.mul_comm; apply Z.quot_mul; lia).
  rewrite E2. set (z0 := if ((ntor =? 0)%Z && (nzeta <? 1)%Z)%bool then 1%Z else nzeta).
  set (z := if (ntor >? 0)%Z then (if (z0 <? 2 * ntor + 4)%Z then (2 * ntor + 4)%Z else z0) else z0).
  assert (Mx : forall a b, (0 <= b -> Z.max 0 (Z.max (2 * a) (2 * b)) = 2 * Z.max a b)%Z) by (intros; lia).
  rewrite !Mx by lia. rewrite !E2. split; [lia|]. intros P.
  assert (ZZ : (2 * ntor + 4 <= z)%Z).
  { unfold z. destruct (Z.gtb_spec ntor 0); [|lia]. destruct (Z.ltb_spec z0 (2 * ntor + 4)); lia. }
  assert (Q3 := Z.quot_rem z 2 ltac:(lia)). assert (Q4 := Z.rem_bound_pos z 2 ltac:(lia) ltac:(lia)). lia.
Qed.

Section F.
Variable s : sizes.
Hypothesis OK : sz_ok s.
Hypothesis NY1 : (sz_mpol s <= sz_mnyq s)%Z.
Hypothesis NY2 : (0 < sz_ntor s)%Z -> (sz_ntor s < sz_nnyq s)%Z.
Variable b0 : basis_tables.
Local Notation t := (tab s b0).
Local Notation mpol := (sz_mpol s).
Local Notation ntor := (sz_ntor s).
Local Notation nfp := (sz_nfp s).
Local Notation nz := (sz_nZeta s).
Local Notation nTR := (sz_nThetaReduced s).
Local Notation nT := (sz_nThetaEven s).
Local Notation nTE := (sz_nThetaEff s).
Local Notation nZr := (nZnT_reduced s).
Local Notation nZnT := (sz_nZnT s).

Lemma dnorm_one m n : (0 <= m < mpol)%Z -> (0 <= n <= ntor)%Z -> dnorm1 s m n = 1.
Proof.
  intros Hm Hn. unfold dnorm1. destruct (Z.eqb_spec m (sz_mnyq s)); [lia|].
  destruct (Z.eqb_spec n (sz_nnyq s)); [|reflexivity]. destruct (Z.eqb_spec n 0); [reflexivity|]. lia.
Qed.

(** position in the reduced layout *)
Definition rp (j k l : Z) : Z := (j * nZr + (k * nTR + l))%Z.
Lemma rp_inj j k l j' k' l' : (0 <= k < nz)%Z -> (0 <= l < nTR)%Z -> (0 <= k' < nz)%Z -> (0 <= l' < nTR)%Z ->
  rp j k l = rp j' k' l' -> j = j' /\ k = k' /\ l = l'.
Proof.
  intros Hk Hl Hk' Hl' E. unfold rp, nZnT_reduced in E.
  assert (B : (0 <= k * nTR + l < nTR * nz)%Z) by nia. assert (B' : (0 <= k' * nTR + l' < nTR * nz)%Z) by nia.
  apply flat_inj in E; [|exact B|exact B']. destruct E as [-> E]. apply flat_inj in E; [|lia|lia]. tauto.
Qed.
Lemma rp_quot k l : (0 <= k < nz)%Z -> (0 <= l < nTR)%Z ->
  Z.quot (k * nTR + l) nTR = k /\ Z.rem (k * nTR + l) nTR = l.
Proof.
  intros Hk Hl. rewrite Z.quot_div_nonneg, Z.rem_mod_nonneg by nia.
  rewrite Z.div_add_l, Z.div_small by lia. rewrite (Z.add_comm (k * nTR) l), Z.mod_add, Z.mod_small by lia. lia.
Qed.

(** table values *)
Definition tr (b : bk) (src : Z -> R) (j m n : Z) : R :=
  match b with
  | b_cc => transform s (bt_cosmui t) (bt_cosnv t) src j m n
  | b_ss => transform s (bt_sinmui t) (bt_sinnv t) src j m n
  | b_sc => transform s (bt_sinmui t) (bt_cosnv t) src j m n
  | b_cs => transform s (bt_cosmui t) (bt_sinnv t) src j m n
  end.
Lemma transform_sum pol tor src j m n :
  transform s pol tor src j m n = zsum 0 nz (fun k => zsum 0 nTR (fun l =>
    pol (m * nTR + l)%Z * tor (k * (sz_nnyq2 s + 1) + n)%Z * dnorm1 s m n * src (rp j k l))).
Proof.
  unfold transform.
  transitivity (for_up 0 nz (fun k acc => acc + zsum 0 nTR (fun l =>
    pol (m * nTR + l)%Z * tor (k * (sz_nnyq2 s + 1) + n)%Z * dnorm1 s m n * src (rp j k l))) 0).
  2: apply acc_sum.
  apply for_up_ext. intros k acc Hk.
  pose proof (for_up_add (I := unit) (fun l (a : unit -> R) (_ : unit) => a tt + pol (m * nTR + l)%Z * tor (k * (sz_nnyq2 s + 1) + n)%Z * dnorm1 s m n * src (rp j k l))
    (fun l _ => pol (m * nTR + l)%Z * tor (k * (sz_nnyq2 s + 1) + n)%Z * dnorm1 s m n * src (rp j k l)) 0 nTR (fun _ => acc)) as A.
  specialize (A ltac:(intros ? ? [] ?; reflexivity) tt). rewrite <- A.
  symmetry. apply (for_up_proj (fun a : unit -> R => a tt)). intros; reflexivity.
Qed.
Lemma tr_eq b src j m n : (0 <= m < mpol)%Z -> (0 <= n <= ntor)%Z ->
  tr b src j m n = red_avg s (fun k l => src (rp j k l) * Phi nfp b m n (theta_pt s l) (phi_pt s k)).
Proof.
  intros Hm Hn. unfold red_avg.
  destruct b; cbn [tr]; rewrite transform_sum; rewrite dnorm_one by assumption;
    apply zsum_ext; intros k Hk; apply zsum_ext; intros l Hl.
  - pose proof (pol_a_eq s OK b0 b_cc m l Hm Hl) as A. pose proof (tor_a_eq s OK b0 b_cc k n Hk Hn) as B.
    cbn [pol_a tor_a] in A, B. rewrite A, B. unfold Phi. cbn [in_theta in_zeta]. ring.
  - pose proof (pol_a_eq s OK b0 b_ss m l Hm Hl) as A. pose proof (tor_a_eq s OK b0 b_ss k n Hk Hn) as B.
    cbn [pol_a tor_a] in A, B. rewrite A, B. unfold Phi. cbn [in_theta in_zeta]. ring.
  - pose proof (pol_a_eq s OK b0 b_sc m l Hm Hl) as A. pose proof (tor_a_eq s OK b0 b_sc k n Hk Hn) as B.
    cbn [pol_a tor_a] in A, B. rewrite A, B. unfold Phi. cbn [in_theta in_zeta]. ring.
  - pose proof (pol_a_eq s OK b0 b_cs m l Hm Hl) as A. pose proof (tor_a_eq s OK b0 b_cs k n Hk Hn) as B.
    cbn [pol_a tor_a] in A, B. rewrite A, B. unfold Phi. cbn [in_theta in_zeta]. ring.
Qed.

(** one mode added to an array *)
Definition at_point (v : Z -> Z -> R) (j : Z) (i : Z) : R :=
  zsum 0 nz (fun k => zsum 0 nTR (fun l => if (i =? rp j k l)%Z then v k l else 0)).
Lemma accumulate_at p1 t1 p2 t2 c1 c2 j m n a i :
  accumulate s p1 t1 p2 t2 c1 c2 j m n a i = a i + at_point (fun k l =>
    p1 (m * nTR + l)%Z * t1 (k * (sz_nnyq2 s + 1) + n)%Z * c1 + p2 (m * nTR + l)%Z * t2 (k * (sz_nnyq2 s + 1) + n)%Z * c2) j i.
Proof.
  unfold accumulate, at_point.
  apply (for_up_add _ (fun k i => zsum 0 nTR (fun l => if (i =? rp j k l)%Z then
    p1 (m * nTR + l)%Z * t1 (k * (sz_nnyq2 s + 1) + n)%Z * c1 + p2 (m * nTR + l)%Z * t2 (k * (sz_nnyq2 s + 1) + n)%Z * c2 else 0))).
  clear a i. intros k a i Hk.
  apply (for_up_add _ (fun l i => if (i =? rp j k l)%Z then
    p1 (m * nTR + l)%Z * t1 (k * (sz_nnyq2 s + 1) + n)%Z * c1 + p2 (m * nTR + l)%Z * t2 (k * (sz_nnyq2 s + 1) + n)%Z * c2 else 0)).
  clear a i. intros l a i Hl. cbv zeta. unfold upd. fold (rp j k l). destruct (Z.eqb_spec i (rp j k l)) as [->|]; ring.
Qed.
Lemma at_point_hit v j k l : (0 <= k < nz)%Z -> (0 <= l < nTR)%Z -> at_point v j (rp j k l) = v k l.
Proof.
  intros Hk Hl. unfold at_point. rewrite (zsum_single 0 nz k); [|lia|].
  - rewrite (zsum_single 0 nTR l); [|lia|]; [rewrite Z.eqb_refl; reflexivity|].
    intros l' Hl' Ne. destruct (Z.eqb_spec (rp j k l) (rp j k l')) as [E|]; [|reflexivity].
    apply rp_inj in E; try assumption. lia.
  - intros k' Hk' Ne. apply zsum_zero. intros l' Hl'.
    destruct (Z.eqb_spec (rp j k l) (rp j k' l')) as [E|]; [|reflexivity]. apply rp_inj in E; try assumption. lia.
Qed.
Lemma at_point_miss v j j' k l : (0 <= k < nz)%Z -> (0 <= l < nTR)%Z -> j <> j' -> at_point v j' (rp j k l) = 0.
Proof.
  intros Hk Hl Ne. unfold at_point. apply zsum_zero. intros k' Hk'. apply zsum_zero. intros l' Hl'.
  destruct (Z.eqb_spec (rp j k l) (rp j' k' l')) as [E|]; [|reflexivity]. apply rp_inj in E; try assumption. lia.
Qed.
Lemma modes_at num body (v : Z -> Z -> Z -> Z -> Z -> R) :
  (forall j m n a i, (0 <= j < num)%Z -> (0 <= m < mpol)%Z -> (0 <= n <= ntor)%Z -> body j m n a i = a i + at_point (v j m n) j i) ->
  forall j k l, (0 <= j < num)%Z -> (0 <= k < nz)%Z -> (0 <= l < nTR)%Z ->
  modes s num body zeros (rp j k l) = zsum 0 mpol (fun m => zsum 0 (ntor + 1) (fun n => v j m n k l)).
Proof.
  intros H j k l Hj Hk Hl. unfold modes.
  rewrite (for_up_add _ (fun j i => zsum 0 mpol (fun m => zsum 0 (ntor + 1) (fun n => at_point (v j m n) j i)))).
  - unfold zeros. rewrite Rplus_0_l. rewrite (zsum_single 0 num j); [|lia|].
    + apply zsum_ext. intros m _. apply zsum_ext. intros n _. apply at_point_hit; assumption.
    + intros j' Hj' Ne. apply zsum_zero. intros m _. apply zsum_zero. intros n _. apply at_point_miss; [assumption..|lia].
  - intros j' a i Hj'. apply (for_up_add _ (fun m i => zsum 0 (ntor + 1) (fun n => at_point (v j' m n) j' i))).
    clear a i. intros m a i Hm. apply (for_up_add _ (fun n i => at_point (v j' m n) j' i)).
    clear a i. intros n a i Hn. apply H; lia.
Qed.

(** [D] of kind [b] as the code emits it *)
Definition sy (D : Z -> bk -> Z -> Z -> R -> R -> R) (b : bk) (src : Z -> R) (j k l : Z) : R :=
  zsum 0 mpol (fun m => zsum 0 (ntor + 1) (fun n =>
    red_avg s (fun k l => src (rp j k l) * Phi nfp b m n (theta_pt s l) (phi_pt s k)) * D nfp b m n (theta_pt s l) (phi_pt s k))).

Ltac tabs := rewrite ?(t_cosmu s OK b0), ?(t_sinmu s OK b0), ?(t_cosmum s OK b0), ?(t_sinmum s OK b0),
  ?(t_cosnv s OK b0), ?(t_sinnv s OK b0), ?(t_cosnvn s OK b0), ?(t_sinnvn s OK b0) by lia.
Ltac solve_filt b1 b2 :=
  let Hj := fresh in let Hk := fresh in let Hl := fresh in
  intros Hj Hk Hl; unfold sy;
  match goal with |- modes s ?num ?body zeros (rp ?j ?k ?l) = zsum 0 mpol ?f + zsum 0 mpol ?g =>
    rewrite <- zsum_plus end;
  erewrite modes_at; [|intros; apply accumulate_at|assumption..];
  apply zsum_ext; let m := fresh "m" in let Hm := fresh in intros m Hm; rewrite <- zsum_plus; apply zsum_ext;
  let n := fresh "n" in let Hn := fresh in intros n Hn; cbv beta;
  rewrite <- (tr_eq b1) by lia; rewrite <- (tr_eq b2) by lia; cbn [tr];
  unfold Phi, Phi_theta, Phi_phi; cbn [in_theta in_zeta d_in_theta d_in_zeta];
  rewrite ?(phi_ang s OK), ?theta_pt_ang; tabs; rewrite ?mult_IZR, ?opp_IZR; ring.

Lemma filt_s_at num src j k l : (0 <= j < num)%Z -> (0 <= k < nz)%Z -> (0 <= l < nTR)%Z ->
  filt_s s t num src (rp j k l) = sy Phi b_cc src j k l + sy Phi b_ss src j k l.
Proof. unfold filt_s. solve_filt b_cc b_ss. Qed.
Lemma filt_a_at num src j k l : (0 <= j < num)%Z -> (0 <= k < nz)%Z -> (0 <= l < nTR)%Z ->
  filt_a s t num src (rp j k l) = sy Phi b_sc src j k l + sy Phi b_cs src j k l.
Proof. unfold filt_a. solve_filt b_sc b_cs. Qed.
Lemma filt_su_s_at num src j k l : (0 <= j < num)%Z -> (0 <= k < nz)%Z -> (0 <= l < nTR)%Z ->
  filt_su_s s t num src (rp j k l) = sy Phi_theta b_sc src j k l + sy Phi_theta b_cs src j k l.
Proof. unfold filt_su_s. solve_filt b_sc b_cs. Qed.
Lemma filt_sv_s_at num src j k l : (0 <= j < num)%Z -> (0 <= k < nz)%Z -> (0 <= l < nTR)%Z ->
  filt_sv_s s t num src (rp j k l) = sy Phi_phi b_sc src j k l + sy Phi_phi b_cs src j k l.
Proof. unfold filt_sv_s. solve_filt b_sc b_cs. Qed.
Lemma filt_su_a_at num src j k l : (0 <= j < num)%Z -> (0 <= k < nz)%Z -> (0 <= l < nTR)%Z ->
  filt_su_a s t num src (rp j k l) = sy Phi_theta b_cc src j k l + sy Phi_theta b_ss src j k l.
Proof. unfold filt_su_a. solve_filt b_cc b_ss. Qed.
Lemma filt_sv_a_at num src j k l : (0 <= j < num)%Z -> (0 <= k < nz)%Z -> (0 <= l < nTR)%Z ->
  filt_sv_a s t num src (rp j k l) = sy Phi_phi b_cc src j k l + sy Phi_phi b_ss src j k l.
Proof. unfold filt_sv_a. solve_filt b_cc b_ss. Qed.
End F.
