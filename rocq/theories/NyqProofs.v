From Coq Require Import ZArith List Bool Reals Lia Lra.
From Verif Require Import Base BaseLemmas SumLemmas SizesModel FourierModel FourierSpec FourierProofs FourierTables TrigSums
  PartModel DftModel DftSpec DftTables DftProofs DftGeo DftForces DftFold DftFinal LapMain NyqModel NyqKernel.
Import ListNotations.
Open Scope R_scope.

(** Sizes of the Nyquist tables *)
Record nyq_ok (s : sizes) : Prop := {
  ny_m : sz_mnyq s = (sz_nThetaReduced s - 1)%Z;
  ny_m2 : sz_mnyq2 s = (2 * sz_mnyq s)%Z;
  ny_n : sz_nnyq s = Z.quot (sz_nZeta s) 2;
  ny_n2 : sz_nnyq2 s = (2 * sz_nnyq s)%Z;
  ny_mn : sz_mnmax_nyq s = n_modes (sz_mnyq s + 1) (sz_nnyq s) }.

Lemma make_sizes_nyq_ok lasym nfp mpol ntor ntheta nzeta mg ng s :
  make_sizes lasym nfp mpol ntor ntheta nzeta mg ng = Some s -> nyq_ok s.
Proof.
  unfold make_sizes. destruct ((nfp <? 1)%Z || (mpol <? 1)%Z || (ntor <? 0)%Z) eqn:C; [discriminate|].
  apply orb_false_elim in C. destruct C as [C C3]. apply orb_false_elim in C. destruct C as [C1 C2].
  apply Z.ltb_ge in C1, C2, C3.
  intros E. apply some_inj in E. subst s.
  set (nth := if (ntheta <? 2 * mpol + 6)%Z then (2 * mpol + 6)%Z else ntheta).
  assert (2 * mpol + 6 <= nth)%Z by (unfold nth; destruct (Z.ltb_spec ntheta (2 * mpol + 6)); lia).
  assert (Q := Z.quot_rem nth 2 ltac:(lia)). assert (Q2 := Z.rem_bound_pos nth 2 ltac:(lia) ltac:(lia)).
  set (h := Z.quot nth 2) in *.
  set (z0 := if ((ntor =? 0)%Z && (nzeta <? 1)%Z)%bool then 1%Z else nzeta).
  set (z := if (ntor >? 0)%Z then (if (z0 <? 2 * ntor + 4)%Z then (2 * ntor + 4)%Z else z0) else z0).
  assert (ZZ : (1 <= z)%Z /\ (0 < ntor -> 2 * ntor + 4 <= z)%Z).
  { unfold z. destruct (Z.gtb_spec ntor 0).
    - destruct (Z.ltb_spec z0 (2 * ntor + 4)); lia.
    - unfold z0. destruct (Z.eqb_spec ntor 0); [|lia]. cbn [andb]. destruct (Z.ltb_spec nzeta 1); lia. }
  assert (Q3 := Z.quot_rem z 2 ltac:(lia)). assert (Q4 := Z.rem_bound_pos z 2 ltac:(lia) ltac:(lia)).
  set (q := Z.quot z 2) in *.
  assert (E1 : (Z.max 0 (Z.max (2 * h) (2 * (mpol - 1))) = 2 * h)%Z) by lia.
  assert (E2 : (Z.max 0 (Z.max (2 * q) (2 * ntor)) = 2 * q)%Z) by lia.
  split; cbn [sz_mnyq sz_mnyq2 sz_nnyq sz_nnyq2 sz_mnmax_nyq sz_nThetaReduced sz_nZeta];
    fold nth h z0 z; rewrite ?even_quot; fold q; rewrite ?E1, ?E2, ?even_quot; try lia.
  unfold n_modes. ring.
Qed.

Section N.
Variable s : sizes.
Hypothesis OK : sz_ok s.
Hypothesis NY : nyq_ok s.
Variable b0 : basis_tables.
Local Notation t := (tab s b0).
Local Notation nZeta := (sz_nZeta s).
Local Notation nTR := (sz_nThetaReduced s).
Local Notation nT := (sz_nThetaEven s).
Local Notation nTE := (sz_nThetaEff s).
Local Notation M := (sz_mnyq s).
Local Notation Q := (sz_nnyq s).
Local Notation xmn := (nyq_modes s).
Local Notation xm := (fst xmn).
Local Notation xn := (snd xmn).

Lemma MQ : (1 <= M /\ nT = 2 * M /\ 0 <= Q /\ (nZeta = 2 * Q \/ nZeta = 2 * Q + 1))%Z.
Proof.
  rewrite (ny_m s NY), (ny_n s NY), (so_nT s OK). assert (A := so_nTR s OK). assert (B := so_nZeta s OK).
  assert (Q3 := Z.quot_rem nZeta 2 ltac:(lia)). assert (Q4 := Z.rem_bound_pos nZeta 2 ltac:(lia) ltac:(lia)). lia.
Qed.

Lemma pol_tab2 (pr : basis_tables -> Z -> R) (val : Z -> Z -> R) :
  (forall k n b, pr (toroidal_entry FastPoloidal (sz_nfp s) nZeta (sz_nnyq2 s) k n b) = pr b) ->
  (forall m l b j, pr (poloidal_entry FastPoloidal nZeta nT nTR (sz_mnyq2 s) m l b) j =
     if (j =? m * nTR + l)%Z then val m l else pr b j) ->
  forall m l, (0 <= m <= sz_mnyq2 s)%Z -> (0 <= l < nTR)%Z -> pr t (m * nTR + l)%Z = val m l.
Proof.
  intros Ht Hp m l Hm Hl. unfold tab, computeFourierBasis.
  rewrite (for_up_same pr).
  2:{ intros j b. apply (for_up_same pr). intros. apply Ht. }
  rewrite (for_up_pairs (fun m l b => poloidal_entry FastPoloidal nZeta nT nTR (sz_mnyq2 s) m l b)).
  set (L := pairs 0 (sz_mnyq2 s + 1) 0 nTR).
  assert (In (m, l) L) by (apply pairs_In; lia).
  apply (local_assign pr _ (fun q => fst q * nTR + snd q)%Z (fun q => val (fst q) (snd q)) L
    ) with (a := (m, l)); [| |  |assumption].
  - intros b [m' l'] j _. apply Hp.
  - apply pairs_NoDup.
  - intros [m1 l1] [m2 l2] I1 I2 E. apply pairs_In in I1, I2. cbn [fst snd] in E.
    apply flat_inj in E; try lia. destruct E; subst; reflexivity.
Qed.
Lemma tor_tab2 (pr : basis_tables -> Z -> R) (val : Z -> Z -> R) :
  (forall k n b j, pr (toroidal_entry FastPoloidal (sz_nfp s) nZeta (sz_nnyq2 s) k n b) j =
     if (j =? k * (sz_nnyq2 s + 1) + n)%Z then val k n else pr b j) ->
  forall k n, (0 <= k < nZeta)%Z -> (0 <= n <= sz_nnyq2 s)%Z -> pr t (k * (sz_nnyq2 s + 1) + n)%Z = val k n.
Proof.
  intros Ht k n Hk Hn. unfold tab, computeFourierBasis.
  rewrite (for_up_pairs (fun k n b => toroidal_entry FastPoloidal (sz_nfp s) nZeta (sz_nnyq2 s) k n b)).
  set (L := pairs 0 nZeta 0 (sz_nnyq2 s + 1)).
  assert (In (k, n) L) by (apply pairs_In; lia).
  apply (local_assign pr _ (fun q => fst q * (sz_nnyq2 s + 1) + snd q)%Z (fun q => val (fst q) (snd q)) L
    ) with (a := (k, n)); [| |  |assumption].
  - intros b [m' l'] j _. apply Ht.
  - apply pairs_NoDup.
  - intros [m1 l1] [m2 l2] I1 I2 E. apply pairs_In in I1, I2. cbn [fst snd] in E.
    apply flat_inj in E; try lia. destruct E; subst; reflexivity.
Qed.
Lemma cosmui2 m l : (0 <= m <= sz_mnyq2 s)%Z -> (0 <= l < nTR)%Z ->
  bt_cosmui t (m * nTR + l)%Z = half_end s l (cos (IZR m * ang nT l) * s2 m * norm_ s).
Proof.
  apply (pol_tab2 bt_cosmui (fun m l => half_end s l (cos (IZR m * ang nT l) * s2 m * norm_ s))). reflexivity.
  intros. unfold poloidal_entry, half_end. cbn [bt_cosmui PoloidalBasisIndex]. unfold upd.
  rewrite Z.eqb_refl. destruct ((l0 =? 0)%Z || (l0 =? nTR - 1)%Z); destruct (Z.eqb_spec j (m0 * nTR + l0)); rewrite ?Z.eqb_refl; reflexivity.
Qed.
Lemma sinmui2 m l : (0 <= m <= sz_mnyq2 s)%Z -> (0 <= l < nTR)%Z ->
  bt_sinmui t (m * nTR + l)%Z = sin (IZR m * ang nT l) * s2 m * norm_ s.
Proof.
  apply (pol_tab2 bt_sinmui (fun m l => sin (IZR m * ang nT l) * s2 m * norm_ s)). reflexivity.
  intros. unfold poloidal_entry. cbn [bt_sinmui PoloidalBasisIndex]. unfold upd. rewrite Z.eqb_refl. reflexivity.
Qed.
Lemma cosnv2 k n : (0 <= k < nZeta)%Z -> (0 <= n <= sz_nnyq2 s)%Z ->
  bt_cosnv t (k * (sz_nnyq2 s + 1) + n)%Z = cos (IZR n * ang nZeta k) * s2 n.
Proof. apply (tor_tab2 bt_cosnv (fun k n => cos (IZR n * ang nZeta k) * s2 n)). intros. reflexivity. Qed.
Lemma sinnv2 k n : (0 <= k < nZeta)%Z -> (0 <= n <= sz_nnyq2 s)%Z ->
  bt_sinnv t (k * (sz_nnyq2 s + 1) + n)%Z = sin (IZR n * ang nZeta k) * s2 n.
Proof. apply (tor_tab2 bt_sinnv (fun k n => sin (IZR n * ang nZeta k) * s2 n)). intros. reflexivity. Qed.

(** the halved copies *)
Lemma upd_self {A} (c : Z -> A) i v : upd c i v i = v.
Proof. unfold upd. rewrite Z.eqb_refl. reflexivity. Qed.
Lemma upd_other {A} (c : Z -> A) i v j : j <> i -> upd c i v j = c j.
Proof. intros H. unfold upd. destruct (Z.eqb_spec j i); [contradiction|reflexivity]. Qed.
Lemma halve_loop (idx : Z -> Z) lo hi (c : Z -> R) :
  (forall a b, (lo <= a < hi)%Z -> (lo <= b < hi)%Z -> idx a = idx b -> a = b) ->
  let r := for_up lo hi (fun l c => upd c (idx l) (c (idx l) / 2)) c in
  (forall l, (lo <= l < hi)%Z -> r (idx l) = c (idx l) / 2) /\
  (forall i, (forall l, (lo <= l < hi)%Z -> i <> idx l) -> r i = c i).
Proof.
  intros Inj. cbv zeta. destruct (Z_le_gt_dec lo hi) as [Hh|Hh].
  2:{ rewrite for_up_empty by lia. split; [intros; lia|reflexivity]. }
  pose (I := fun x (r : Z -> R) => (forall l, (lo <= l < x)%Z -> r (idx l) = c (idx l) / 2) /\
    (forall i, (forall l, (lo <= l < x)%Z -> i <> idx l) -> r i = c i)).
  apply (for_up_ind I); unfold I; [lia|split; [intros; lia|reflexivity]|].
  intros x r Hx [A B]. split.
  - intros l Hl. destruct (Z.eq_dec l x) as [-> | N0].
    + rewrite upd_self. rewrite B; [reflexivity|]. intros l' Hl' E. apply Inj in E; lia.
    + rewrite upd_other; [apply A; lia|]. intros E. apply Inj in E; lia.
  - intros i Hi. rewrite upd_other by (apply Hi; lia). apply B. intros l Hl. apply Hi. lia.
Qed.
Lemma copy_loop (n : Z) (g : Z -> R) i : (0 <= i < n)%Z -> for_up 0 n (fun j c => upd c j (g j)) (fun _ => 0) i = g i.
Proof. intros Hi. apply (proj1 (for_up_fill (fun j => j) g 0 n (fun _ => 0) (fun a b _ _ E => E)) i Hi). Qed.

Lemma nyq_cosmui_at m l : (0 <= m <= M)%Z -> (0 <= l < nTR)%Z ->
  nyq_cosmui s t (m * nTR + l)%Z = hh M m * (wred s l * (s2 m * cos (IZR m * ang nT l))).
Proof.
  intros Hm Hl. destruct MQ as (M1 & MT & _). assert (M2 := ny_m2 s NY).
  unfold nyq_cosmui. destruct (Z.eqb_spec M 0) as [|M0]; [lia|]. cbn [negb].
  set (c := for_up 0 (nTR * (sz_mnyq2 s + 1)) _ _). cbv zeta.
  assert (C : forall m l, (0 <= m <= M)%Z -> (0 <= l < nTR)%Z -> c (m * nTR + l)%Z = wred s l * (s2 m * cos (IZR m * ang nT l))).
  { intros m' l' Hm' Hl'. unfold c. rewrite (copy_loop _ (bt_cosmui t)) by nia. rewrite cosmui2 by lia.
    unfold wred, half_end. destruct ((l' =? 0)%Z || (l' =? nTR - 1)%Z); field. }
  destruct (halve_loop (fun l => (M * nTR + l)%Z) 0 nTR c) as [A B]; [intros; lia|]. cbv zeta in A, B.
  unfold hh. destruct (Z.eqb_spec M 0); [contradiction|]. cbn [negb andb].
  destruct (Z.eqb_spec m M) as [-> | NM].
  - rewrite A by lia. rewrite C by lia. field.
  - rewrite B. + rewrite C by lia. ring.
    + intros l' Hl' E. apply flat_inj in E; lia.
Qed.
Lemma nyq_cosnv_at k n : (0 <= k < nZeta)%Z -> (0 <= n <= Q)%Z ->
  nyq_cosnv s t (k * (sz_nnyq2 s + 1) + n)%Z = hh Q n * (s2 n * cos (IZR n * ang nZeta k)).
Proof.
  intros Hk Hn. destruct MQ as (_ & _ & Q0 & QZ). assert (N2 := ny_n2 s NY).
  unfold nyq_cosnv. set (c := for_up 0 ((sz_nnyq2 s + 1) * nZeta) _ _). cbv zeta.
  assert (C : forall k n, (0 <= k < nZeta)%Z -> (0 <= n <= Q)%Z -> c (k * (sz_nnyq2 s + 1) + n)%Z = s2 n * cos (IZR n * ang nZeta k)).
  { intros k' n' Hk' Hn'. unfold c. rewrite (copy_loop _ (bt_cosnv t)) by nia. rewrite cosnv2 by lia. ring. }
  unfold hh. destruct (Z.eqb_spec Q 0) as [E0|E0]; cbn [negb andb]; [rewrite C by lia; ring|].
  destruct (halve_loop (fun k => (k * (sz_nnyq2 s + 1) + Q)%Z) 0 nZeta c) as [A B].
  { intros a b Ha Hb E. apply flat_inj in E; lia. }
  cbv zeta in A, B. destruct (Z.eqb_spec n Q) as [-> | NQ].
  - rewrite A by lia. rewrite C by lia. field.
  - rewrite B. + rewrite C by lia. ring.
    + intros k' Hk' E. apply flat_inj in E; lia.
Qed.
Lemma sinmui_at m l : (0 <= m <= M)%Z -> (0 <= l < nTR)%Z ->
  bt_sinmui t (m * nTR + l)%Z = hh M m * (wred s l * (s2 m * sin (IZR m * ang nT l))).
Proof.
  intros Hm Hl. destruct MQ as (M1 & MT & _). assert (M2 := ny_m2 s NY). rewrite sinmui2 by lia.
  assert (Z0 : m = M -> sin (IZR m * ang nT l) = 0).
  { intros ->. rewrite MT. unfold ang. replace (IZR M * (2 * PI * IZR l / IZR (2 * M))) with (IZR l * PI).
    - apply sin_eq_0_1. exists l. reflexivity.
    - rewrite mult_IZR. field. apply not_0_IZR. lia. }
  unfold hh. destruct (Z.eqb_spec M 0); [lia|]. cbn [negb andb].
  destruct (Z.eqb_spec m M) as [E|E]; [rewrite Z0 by exact E; ring|].
  unfold wred, half_end. destruct ((l =? 0)%Z || (l =? nTR - 1)%Z) eqn:EE; [|ring].
  rewrite (end_sin s OK); [ring|]. apply orb_true_iff in EE. destruct EE as [EE|EE]; apply Z.eqb_eq in EE; lia.
Qed.
Lemma sinnv_at k n : (0 <= k < nZeta)%Z -> (0 <= n <= Q)%Z ->
  bt_sinnv t (k * (sz_nnyq2 s + 1) + n)%Z = s2 n * sin (IZR n * ang nZeta k).
Proof.
  intros Hk Hn. destruct MQ as (_ & _ & Q0 & QZ). assert (N2 := ny_n2 s NY). rewrite sinnv2 by lia. ring.
Qed.
Lemma sin_nyq k : (nZeta = 2 * Q)%Z -> sin (IZR Q * ang nZeta k) = 0.
Proof.
  intros EV. assert (Z1 := so_nZeta s OK). rewrite EV. unfold ang.
  replace (IZR Q * (2 * PI * IZR k / IZR (2 * Q))) with (IZR k * PI).
  - apply sin_eq_0_1. exists k. reflexivity.
  - rewrite mult_IZR. field. apply not_0_IZR. lia.
Qed.

Lemma acc_sum lo hi (f : Z -> R) : (lo <= hi)%Z -> for_up lo hi (fun l acc => acc + f l) 0 = zsum lo hi f.
Proof.
  intros H. pose (I := fun x a => a = zsum lo x f). apply (for_up_ind I); unfold I; [lia|rewrite zsum_empty by lia; reflexivity|].
  intros x a Hx ->. rewrite zsum_snoc by lia. reflexivity.
Qed.
Lemma partial_at tb val m k : (0 <= m <= M)%Z -> (0 <= k < nZeta)%Z ->
  partial_sums s tb val (m * nZeta + k)%Z = zsum 0 nTR (fun l => tb (m * nTR + l)%Z * val k l).
Proof.
  intros Hm Hk. assert (H2 := so_nTR s OK). unfold partial_sums.
  rewrite <- (acc_sum 0 nTR (fun l => tb (m * nTR + l)%Z * val k l)) by lia.
  set (v := fun m k => for_up 0 nTR (fun l acc => acc + tb (m * nTR + l)%Z * val k l) 0). match goal with |- ?L = _ => change (L = v m k) end.
  apply (for_up_set (fun F => F (m * nZeta + k)%Z) _ 0 (M + 1) m (v m k)); [lia| |].
  - intros F. apply (for_up_set (fun F => F (m * nZeta + k)%Z) _ 0 nZeta k (v m k)); [lia| |].
    + intros F'. apply upd_self.
    + intros x F' Hx N0. apply upd_other. lia.
  - intros x F Hx N0. apply (for_up_keep (fun F => F (m * nZeta + k)%Z)). intros y F' Hy. apply upd_other.
    intros E. apply flat_inj in E; lia.
Qed.
Lemma mode_idx m n : valid_mode (M + 1) Q m n -> xm (mode_pos Q m n) = m /\ Z.quot (xn (mode_pos Q m n)) (sz_nfp s) = n /\
  (0 <= mode_pos Q m n < sz_mnmax_nyq s)%Z.
Proof.
  intros V. destruct MQ as (M1 & _ & Q0 & _). destruct (tables_spec Q (M + 1) (sz_nfp s)) as [_ T]; [lia|lia|].
  destruct (T m n V) as [A B]. unfold nyq_modes. rewrite A, B. split; [reflexivity|]. split; [apply Z.quot_mul; pose proof (so_nfp s OK); lia|].
  rewrite (ny_mn s NY). destruct V as (V1 & V2 & V3). unfold mode_pos, n_modes. destruct (Z.eqb_spec m 0); nia.
Qed.
Lemma spectrum_at num off coef val j mn : (0 <= j < num)%Z -> (0 <= mn < sz_mnmax_nyq s)%Z ->
  spectrum s t num off coef val mn (j + off)%Z =
  coef (partial_sums s (nyq_cosmui s t) (val j)) (partial_sums s (bt_sinmui t) (val j)) mn.
Proof.
  intros Hj Hm. unfold spectrum.
  apply (for_up_set (fun w : Z -> Z -> R => w mn (j + off)%Z) _ 0 num j); [lia| |].
  - intros w. cbv zeta. apply (for_up_set (fun w : Z -> Z -> R => w mn (j + off)%Z) _ 0 (sz_mnmax_nyq s) mn); [lia| |].
    + intros w'. unfold upd2. rewrite !Z.eqb_refl. reflexivity.
    + intros x w' Hx N0. unfold upd2. destruct (Z.eqb_spec mn x); [lia|]. reflexivity.
  - intros x w Hx N0. cbv zeta. apply (for_up_keep (fun w : Z -> Z -> R => w mn (j + off)%Z)). intros y w' Hy. unfold upd2.
    destruct (Z.eqb_spec mn y); [|reflexivity]. destruct (Z.eqb_spec (j + off) (x + off)); [lia|reflexivity].
Qed.
Definition w_mn (m n : Z) : R := if (m =? 0)%Z && (n =? 0)%Z then 1 else 2.
Lemma dmult_w m n : dmult m n * (s2 m * s2 (Z.abs n)) = w_mn m n.
Proof.
  unfold dmult, w_mn, mscale, nscale, s2. assert (S := sqrt_sqrt 2 ltac:(lra)).
  destruct (Z.eqb_spec m 0); destruct (Z.eqb_spec n 0); destruct (Z.eqb_spec (Z.abs n) 0); try lia; cbn [orb andb].
  - field.
  - transitivity (sqrt 2 * sqrt 2); [field|exact S].
  - transitivity (sqrt 2 * sqrt 2); [field|exact S].
  - transitivity (1 / 2 * ((sqrt 2 * sqrt 2) * (sqrt 2 * sqrt 2))); [field|rewrite S; field].
Qed.
Lemma signum_trig n x : cos (IZR (Z.abs n) * x) = cos (IZR n * x) /\ IZR (signum n) * sin (IZR (Z.abs n) * x) = sin (IZR n * x).
Proof.
  unfold signum. destruct (Z.gtb_spec n 0); destruct (Z.ltb_spec n 0); try lia.
  - rewrite Z.abs_eq by lia. cbn. split; ring.
  - rewrite Z.abs_neq, opp_IZR by lia. replace (- IZR n * x) with (- (IZR n * x)) by ring. rewrite cos_neg, sin_neg. cbn. split; ring.
  - assert (n = 0)%Z by lia. subst n. cbn. rewrite !Rmult_0_l, sin_0. split; reflexivity.
Qed.
(** The coefficient of mode (m, n): the two terms of cos(m theta - n zeta) have
    different weights at the highest n. *)
Definition cpart (val : Z -> Z -> R) m n : R := red_avg s (fun k l => val k l * (cos (IZR m * ang nT l) * cos (IZR n * ang nZeta k))).
Definition spart (val : Z -> Z -> R) m n : R := red_avg s (fun k l => val k l * (sin (IZR m * ang nT l) * sin (IZR n * ang nZeta k))).
Definition cpart' (val : Z -> Z -> R) m n : R := red_avg s (fun k l => val k l * (sin (IZR m * ang nT l) * cos (IZR n * ang nZeta k))).
Definition spart' (val : Z -> Z -> R) m n : R := red_avg s (fun k l => val k l * (cos (IZR m * ang nT l) * sin (IZR n * ang nZeta k))).
Lemma cos_coef_at val m n : valid_mode (M + 1) Q m n ->
  cos_coef s t xm xn (partial_sums s (nyq_cosmui s t) val) (partial_sums s (bt_sinmui t) val) (mode_pos Q m n) =
  w_mn m n * hh M m * (hh Q (Z.abs n) * cpart val m n + spart val m n).
Proof.
  intros V. destruct (mode_idx m n V) as (A & B & _). destruct V as (V1 & V2 & V3).
  assert (Z1 := so_nZeta s OK). assert (H2 := so_nTR s OK).
  unfold cos_coef. cbv zeta. rewrite A, B. rewrite acc_sum by lia. rewrite <- dmult_w.
  rewrite !Rmult_assoc. apply (f_equal (Rmult (dmult m n))). unfold cpart, spart, red_avg.
  rewrite <- !zsum_scale, <- zsum_plus, <- !zsum_scale. apply zsum_ext. intros k Hk. rewrite !partial_at by lia.
  rewrite nyq_cosnv_at, sinnv_at by lia. rewrite <- !zsum_scale, <- zsum_plus, <- zsum_plus, <- !zsum_scale. apply zsum_ext. intros l Hl.
  rewrite nyq_cosmui_at, sinmui_at by lia. destruct (signum_trig n (ang nZeta k)) as [S1 S2].
  rewrite S1, <- S2. ring.
Qed.
Lemma sin_coef_at val m n : valid_mode (M + 1) Q m n ->
  sin_coef s t xm xn (partial_sums s (nyq_cosmui s t) val) (partial_sums s (bt_sinmui t) val) (mode_pos Q m n) =
  w_mn m n * hh M m * (hh Q (Z.abs n) * cpart' val m n - spart' val m n).
Proof.
  intros V. destruct (mode_idx m n V) as (A & B & _). destruct V as (V1 & V2 & V3).
  assert (Z1 := so_nZeta s OK). assert (H2 := so_nTR s OK).
  unfold sin_coef. cbv zeta. rewrite A, B. rewrite acc_sum by lia. rewrite <- dmult_w.
  rewrite !Rmult_assoc. apply (f_equal (Rmult (dmult m n))). unfold cpart', spart', red_avg.
  rewrite <- !zsum_scale, <- zsum_minus, <- !zsum_scale. apply zsum_ext. intros k Hk. rewrite !partial_at by lia.
  rewrite nyq_cosnv_at, sinnv_at by lia. rewrite <- !zsum_scale, <- zsum_minus, <- zsum_minus, <- !zsum_scale. apply zsum_ext. intros l Hl.
  rewrite nyq_cosmui_at, sinmui_at by lia. destruct (signum_trig n (ang nZeta k)) as [S1 S2].
  rewrite S1, <- S2. ring.
Qed.

(** A field of definite parity on the whole grid: sums over half the grid give the
    interpolating series. *)
Local Notation RK := (rk s).
Local Notation RL := (rl s).
Lemma refl_x m n k l : (0 <= k < nZeta)%Z -> (0 <= l < nT)%Z ->
  cos (IZR m * ang nT (RL l) - IZR n * ang nZeta (RK k)) = cos (IZR m * ang nT l - IZR n * ang nZeta k) /\
  sin (IZR m * ang nT (RL l) - IZR n * ang nZeta (RK k)) = - sin (IZR m * ang nT l - IZR n * ang nZeta k).
Proof.
  intros Hk Hl. destruct MQ as (M1 & MT & _). assert (Z1 := so_nZeta s OK).
  destruct (refl_trig_mod nT l m ltac:(lia) Hl) as [C1 S1]. destruct (refl_trig_mod nZeta k n ltac:(lia) Hk) as [C2 S2].
  unfold rk, rl. rewrite !cos_minus, !sin_minus, C1, S1, C2, S2. split; ring.
Qed.
Lemma full_odd g : (forall k l, (0 <= k < nZeta)%Z -> (0 <= l < nT)%Z -> g (RK k) (RL l) = - g k l) -> full s g = 0.
Proof.
  intros H. assert (E := full_refl s OK g). rewrite (full_ext s _ (fun k l => (-1) * g k l + 0 * g k l)) in E.
  2:{ intros k l Hk Hl. rewrite H by lia. ring. }
  rewrite full_lin in E. lra.
Qed.
Lemma full_scale c g : full s (fun k l => c * g k l) = c * full s g.
Proof.
  rewrite (full_ext s _ (fun k l => c * g k l + 0 * g k l)) by (intros; ring). rewrite full_lin. ring.
Qed.
Lemma full_zsum lo hi (f : Z -> Z -> Z -> R) : full s (fun k l => zsum lo hi (fun x => f x k l)) = zsum lo hi (fun x => full s (f x)).
Proof.
  unfold full. transitivity (zsum 0 nZeta (fun k => zsum lo hi (fun x => zsum 0 nT (fun l => f x k l)))).
  - apply zsum_ext. intros k _. apply zsum_swap.
  - apply zsum_swap.
Qed.
Lemma full_pick g k l : (0 <= k < nZeta)%Z -> (0 <= l < nT)%Z ->
  full s (fun k' l' => if (k' =? k)%Z && (l' =? l)%Z then g k' l' else 0) = g k l.
Proof.
  intros Hk Hl. unfold full. rewrite (zsum_single 0 nZeta k); [|lia|].
  - rewrite (zsum_single 0 nT l); [|lia|].
    + rewrite !Z.eqb_refl. reflexivity.
    + intros l' _ N0. destruct (Z.eqb_spec l' l); [lia|]. rewrite andb_false_r. reflexivity.
  - intros k' _ N0. apply zsum_zero. intros l' _. destruct (Z.eqb_spec k' k); [lia|reflexivity].
Qed.
Definition trig_ (even_ : bool) : R -> R := if even_ then cos else sin.
Definition sg_ (even_ : bool) : R := if even_ then 1 else -1.
Lemma trig_term e (E : Z -> Z -> R) m n th ze :
  (forall k l, (0 <= k < nZeta)%Z -> (0 <= l < nT)%Z -> E (RK k) (RL l) = sg_ e * E k l) ->
  red_avg s (fun k l => E k l * trig_ e (IZR m * ang nT l - IZR n * ang nZeta k)) * trig_ e (IZR m * th - IZR n * ze) =
  norm_ s / 2 * full s (fun k l => E k l * cos (IZR m * (th - ang nT l) - IZR n * (ze - ang nZeta k))).
Proof.
  intros HE. rewrite (red_even s OK).
  2:{ intros k l Hk Hl. rewrite HE by lia. destruct (refl_x m n k l Hk Hl) as [C S].
      unfold trig_, sg_. destruct e; rewrite ?C, ?S; ring. }
  rewrite Rmult_assoc. apply (f_equal (Rmult (norm_ s / 2))).
  set (x := IZR m * th - IZR n * ze). set (y := fun k l => IZR m * ang nT l - IZR n * ang nZeta k).
  set (o := fun k l => E k l * trig_ (negb e) (y k l)).
  assert (O : full s o = 0).
  { apply full_odd. intros k l Hk Hl. unfold o, y. rewrite HE by lia. destruct (refl_x m n k l Hk Hl) as [C S].
    unfold trig_, sg_. destruct e; cbn [negb]; rewrite ?C, ?S; ring. }
  transitivity (trig_ e x * full s (fun k l => E k l * trig_ e (y k l)) + trig_ (negb e) x * full s o).
  - rewrite O. unfold y. ring.
  - rewrite <- full_lin. apply full_ext. intros k l _ _. unfold o.
    replace (IZR m * (th - ang nT l) - IZR n * (ze - ang nZeta k)) with (x - y k l) by (unfold x, y; ring).
    rewrite cos_minus. unfold trig_. destruct e; cbn [negb]; ring.
Qed.
Lemma ang_sub N a b : ang N a - ang N b = ang N (a - b).
Proof. unfold ang. rewrite minus_IZR. unfold Rdiv. ring. Qed.
Lemma series_full e (E : Z -> Z -> R) (c g : Z -> R) : good g nZeta Q ->
  (forall k l, (0 <= k < nZeta)%Z -> (0 <= l < nT)%Z -> E (RK k) (RL l) = sg_ e * E k l) ->
  (forall m n, valid_mode (M + 1) Q m n -> c (mode_pos Q m n) =
    w_mn m n * hh M m * g (Z.abs n) * red_avg s (fun k l => E k l * trig_ e (IZR m * ang nT l - IZR n * ang nZeta k))) ->
  forall k l, (0 <= k < nZeta)%Z -> (0 <= l < nT)%Z ->
  combined_series (trig_ e) (M + 1) Q c (ang nT l) (ang nZeta k) = E k l.
Proof.
  intros G HE HC k l Hk Hl. destruct MQ as (M1 & MT & Q0 & QZ). assert (Z1 := so_nZeta s OK).
  set (X := fun m n k' l' => E k' l' * cos (IZR m * (ang nT l - ang nT l') - IZR n * (ang nZeta k - ang nZeta k'))).
  assert (T : forall m n, valid_mode (M + 1) Q m n ->
    c (mode_pos Q m n) * trig_ e (IZR m * ang nT l - IZR n * ang nZeta k) = norm_ s / 2 * full s (fun k' l' => w_mn m n * hh M m * g (Z.abs n) * X m n k' l')).
  { intros m n V. rewrite HC by exact V. rewrite full_scale, (Rmult_assoc (w_mn m n * hh M m * g (Z.abs n))), (trig_term e E m n (ang nT l) (ang nZeta k) HE).
    unfold X. ring. }
  assert (S : combined_series (trig_ e) (M + 1) Q c (ang nT l) (ang nZeta k) =
    norm_ s / 2 * full s (fun k' l' => zsum 0 (Q + 1) (fun n => w_mn 0 n * hh M 0 * g (Z.abs n) * X 0%Z n k' l') +
      zsum 1 (M + 1) (fun m => zsum (- Q) (Q + 1) (fun n => w_mn m n * hh M m * g (Z.abs n) * X m n k' l')))).
  { unfold combined_series.
    set (A := fun k' l' => zsum 0 (Q + 1) (fun n => w_mn 0 n * hh M 0 * g (Z.abs n) * X 0%Z n k' l')).
    set (B := fun k' l' => zsum 1 (M + 1) (fun m => zsum (- Q) (Q + 1) (fun n => w_mn m n * hh M m * g (Z.abs n) * X m n k' l'))).
    rewrite (full_ext s _ (fun k' l' => 1 * A k' l' + 1 * B k' l')) by (intros; unfold A, B; ring).
    rewrite full_lin, !Rmult_1_l, Rmult_plus_distr_l. apply (f_equal2 Rplus).
    - unfold A. rewrite full_zsum, <- zsum_scale. apply zsum_ext. intros n Hn.
      rewrite <- T by (unfold valid_mode; lia). f_equal. f_equal. ring.
    - unfold B. rewrite full_zsum, <- zsum_scale. apply zsum_ext. intros m Hm. rewrite full_zsum, <- zsum_scale.
      apply zsum_ext. intros n Hn. apply T. unfold valid_mode. lia. }
  rewrite S. clear S T.
  assert (K : forall k' l', (0 <= k' < nZeta)%Z -> (0 <= l' < nT)%Z ->
    zsum 0 (Q + 1) (fun n => w_mn 0 n * hh M 0 * g (Z.abs n) * X 0%Z n k' l') +
    zsum 1 (M + 1) (fun m => zsum (- Q) (Q + 1) (fun n => w_mn m n * hh M m * g (Z.abs n) * X m n k' l')) =
    (IZR nZeta * IZR nT) * (if (k' =? k)%Z && (l' =? l)%Z then E k' l' else 0)).
  { intros k' l' Hk' Hl'. unfold X. rewrite !ang_sub. set (a := ang nT (l - l')). set (b := ang nZeta (k - k')).
    assert (H0 : hh M 0 = 1) by (unfold hh; destruct (Z.eqb_spec 0 M); [lia|rewrite andb_false_r; reflexivity]).
    rewrite (zsum_ext 0 (Q + 1) _ (fun n => E k' l' * ((if (n =? 0)%Z then 1 else 2) * g n * cos (IZR n * b)))).
    2:{ intros n Hn. rewrite H0, Z.abs_eq by lia. unfold w_mn. rewrite Z.eqb_refl. cbn [andb].
        replace (0 * a - IZR n * b) with (- (IZR n * b)) by ring. rewrite cos_neg. ring. }
    rewrite zsum_scale, Dk_side by lia.
    rewrite (zsum_ext 1 (M + 1) _ (fun m => E k' l' * Dk g Q b * ((if (m =? 0)%Z then 1 else 2) * hh M m * cos (IZR m * a)))).
    2:{ intros m Hm. rewrite (zsum_ext _ _ _ (fun n => E k' l' * (2 * hh M m) * (g (Z.abs n) * cos (IZR m * a - IZR n * b)))).
        - rewrite zsum_scale, Dk_two by lia. destruct (Z.eqb_spec m 0); [lia|]. ring.
        - intros n _. unfold w_mn. destruct (Z.eqb_spec m 0); [lia|]. cbn [andb]. ring. }
    rewrite zsum_scale.
    assert (DM : Dk (hh M) M a = 1 + zsum 1 (M + 1) (fun m => (if (m =? 0)%Z then 1 else 2) * hh M m * cos (IZR m * a))).
    { rewrite <- (Dk_side (hh M) M a) by lia. rewrite zsum_cons by lia. cbn [Z.eqb]. rewrite H0, Rmult_0_l, cos_0.
      change (0 + 1)%Z with 1%Z. ring. }
    transitivity (E k' l' * (Dk g Q b * Dk (hh M) M a)); [rewrite DM; ring|].
    unfold a, b. rewrite G by lia. rewrite MT, (good_even M) by lia.
    destruct (Z.eqb_spec (k - k') 0); destruct (Z.eqb_spec (l - l') 0); destruct (Z.eqb_spec k' k); destruct (Z.eqb_spec l' l);
      try lia; cbn [andb]; ring. }
  rewrite (full_ext s _ _ K), full_scale, (full_pick E) by lia.
  unfold norm_, intNorm. rewrite (so_nT s OK), !mult_IZR, minus_IZR. field.
  pose proof (so_nTR s OK). split; [rewrite <- minus_IZR|]; apply not_0_IZR; lia.
Qed.
End N.
