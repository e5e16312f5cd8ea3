(** Facts on the sizes and the values of the basis tables. *)
From Coq Require Import ZArith List Bool Reals Lia Lra.
From Verif Require Import Base BaseLemmas SumLemmas SizesModel FourierModel FourierSpec FourierProofs TrigSums PartModel DftModel DftSpec.
Import ListNotations.
Open Scope Z_scope.

Record sz_ok (s : sizes) : Prop := {
  so_nfp : 1 <= sz_nfp s;
  so_mpol : 1 <= sz_mpol s;
  so_ntor : 0 <= sz_ntor s;
  so_nZeta : 1 <= sz_nZeta s;
  so_nT : sz_nThetaEven s = 2 * (sz_nThetaReduced s - 1);
  so_nTR : 2 <= sz_nThetaReduced s;
  so_nTE : sz_nThetaEff s = if sz_lasym s then sz_nThetaEven s else sz_nThetaReduced s;
  so_nZnT : sz_nZnT s = sz_nZeta s * sz_nThetaEff s;
  so_pol : 2 * sz_mpol s < sz_nThetaEven s;
  so_tor : 0 < sz_ntor s -> 2 * sz_ntor s < sz_nZeta s;
  so_mnyq : sz_mpol s <= sz_mnyq2 s + 1;
  so_nnyq : sz_ntor s <= sz_nnyq2 s;
  so_mnsize : sz_mnsize s = sz_mpol s * (sz_ntor s + 1);
  so_3d : sz_lthreed s = (sz_ntor s >? 0);
  so_wInt : sz_wInt s = wint (sz_lasym s) (sz_nZeta s) (sz_nThetaReduced s) (sz_nThetaEven s) (sz_nThetaEff s) }.

Lemma some_inj {A} (a b : A) : Some a = Some b -> b = a.
Proof. congruence. Qed.
Lemma make_sizes_ok lasym nfp mpol ntor ntheta nzeta mg ng s :
  make_sizes lasym nfp mpol ntor ntheta nzeta mg ng = Some s -> sz_ok s.
Proof.
  unfold make_sizes. destruct ((nfp <? 1) || (mpol <? 1) || (ntor <? 0)) eqn:C; [discriminate|].
  apply orb_false_elim in C. destruct C as [C C3]. apply orb_false_elim in C. destruct C as [C1 C2].
  apply Z.ltb_ge in C1, C2, C3.
  intros E. apply some_inj in E. subst s.
  set (nth := if ntheta <? 2 * mpol + 6 then 2 * mpol + 6 else ntheta).
  assert (2 * mpol + 6 <= nth) by (unfold nth; destruct (Z.ltb_spec ntheta (2 * mpol + 6)); lia).
  assert (Q := Z.quot_rem nth 2 ltac:(lia)). assert (Q2 := Z.rem_bound_pos nth 2 ltac:(lia) ltac:(lia)).
  set (h := Z.quot nth 2) in *.
  set (z0 := if (ntor =? 0) && (nzeta <? 1) then 1 else nzeta).
  set (nz := if ntor >? 0 then if z0 <? 2 * ntor + 4 then 2 * ntor + 4 else z0 else z0).
  assert (Hz : 1 <= nz /\ (0 < ntor -> 2 * ntor < nz)).
  { unfold nz, z0. rewrite Z.gtb_ltb. destruct (Z.ltb_spec 0 ntor); destruct (Z.eqb_spec ntor 0); cbn [andb];
    try lia; [|destruct (Z.ltb_spec nzeta 1); lia].
    destruct (Z.ltb_spec nzeta (2 * ntor + 4)); lia. }
  destruct Hz as [Hz1 Hz2].
  assert (E2 : Z.quot (2 * h) 2 = h) by (rewrite Z.mul_comm; apply Z.quot_mul; lia).
  constructor; cbn [sz_lasym sz_nfp sz_mpol sz_ntor sz_nZeta sz_nThetaEven sz_nThetaReduced sz_nThetaEff
    sz_nZnT sz_wInt sz_mnsize sz_mnyq2 sz_nnyq2 sz_lthreed]; rewrite ?E2; try reflexivity; try lia.
Qed.

(** A fold whose steps assign one entry of one array. *)
Lemma local_assign {A S T} (pr : S -> Z -> T) (step : S -> A -> S) (idx : A -> Z) (val : A -> T) L :
  (forall s a j, In a L -> pr (step s a) j = if j =? idx a then val a else pr s j) ->
  NoDup L -> (forall a b, In a L -> In b L -> idx a = idx b -> a = b) ->
  forall s a, In a L -> pr (fold_left step L s) (idx a) = val a.
Proof.
  induction L as [|b L IH] using rev_ind; intros Hs ND Hi s a Ia; [contradiction|].
  rewrite fold_left_app. cbn [fold_left]. rewrite Hs by (apply in_or_app; right; left; reflexivity).
  destruct (Z.eqb_spec (idx a) (idx b)) as [E|E].
  - rewrite (Hi a b); [reflexivity|assumption|apply in_or_app; right; left; reflexivity|assumption].
  - apply in_app_or in Ia. destruct Ia as [Ia|[->|[]]]; [|congruence].
    apply IH; try assumption.
    + intros. apply Hs. apply in_or_app; left; assumption.
    + apply NoDup_remove_1 in ND. rewrite app_nil_r in ND. exact ND.
    + intros. apply Hi; try assumption; apply in_or_app; left; assumption.
Qed.
Lemma fold_same {A S T} (pr : S -> T) (step : S -> A -> S) L :
  (forall s a, pr (step s a) = pr s) -> forall s, pr (fold_left step L s) = pr s.
Proof. intros H. induction L as [|a L IH]; intros s; [reflexivity|]. cbn [fold_left]. rewrite IH. apply H. Qed.
Lemma for_up_same {S T} (pr : S -> T) (body : Z -> S -> S) lo hi s :
  (forall j s, pr (body j s) = pr s) -> pr (for_up lo hi body s) = pr s.
Proof. intros H. unfold for_up. apply fold_same. intros. apply H. Qed.

Lemma wint_at lasym nZ nTR nT nTE l : 0 <= l < nTE ->
  wint lasym nZ nTR nT nTE l = if negb lasym && ((l =? 0) || (l =? nTR - 1))
    then (dnorm3 lasym nZ nTR nT / 2)%R else dnorm3 lasym nZ nTR nT.
Proof.
  intros Hl. unfold wint, for_up.
  apply (local_assign (fun w : Z -> R => w) _ (fun i => i) (fun l => if negb lasym && ((l =? 0) || (l =? nTR - 1))
    then (dnorm3 lasym nZ nTR nT / 2)%R else dnorm3 lasym nZ nTR nT) (zrange 0 nTE)) with (a := l).
  - intros w i j _. cbv zeta. destruct (negb lasym && ((i =? 0) || (i =? nTR - 1))); unfold upd.
    + rewrite Z.eqb_refl. destruct (Z.eqb_spec j i); reflexivity.
    + reflexivity.
  - apply zrange_NoDup.
  - intros; assumption.
  - apply zrange_In; lia.
Qed.

Section Tab.
Variable s : sizes.
Hypothesis OK : sz_ok s.
Variable b0 : basis_tables.
Definition tab : basis_tables :=
  computeFourierBasis FastPoloidal (sz_nfp s) (sz_nZeta s) (sz_nThetaEven s) (sz_nThetaReduced s)
    (sz_mnyq2 s) (sz_nnyq2 s) b0.
Local Notation nTR := (sz_nThetaReduced s).
Local Notation nT := (sz_nThetaEven s).
Local Open Scope R_scope.
Definition norm_ : R := intNorm (sz_nZeta s) nTR.
Definition half_end (l : Z) (x : R) : R := if (l =? 0)%Z || (l =? nTR - 1)%Z then x / 2 else x.

Lemma pol_tab (pr : basis_tables -> Z -> R) (val : Z -> Z -> R) :
  (forall k n b, pr (toroidal_entry FastPoloidal (sz_nfp s) (sz_nZeta s) (sz_nnyq2 s) k n b) = pr b) ->
  (forall m l b j, pr (poloidal_entry FastPoloidal (sz_nZeta s) nT nTR (sz_mnyq2 s) m l b) j =
     if (j =? m * nTR + l)%Z then val m l else pr b j) ->
  forall m l, (0 <= m < sz_mpol s)%Z -> (0 <= l < nTR)%Z -> pr tab (m * nTR + l)%Z = val m l.
Proof.
  intros Ht Hp m l Hm Hl. unfold tab, computeFourierBasis.
  rewrite (for_up_same pr).
  2:{ intros j b. apply (for_up_same pr). intros. apply Ht. }
  rewrite (for_up_pairs (fun m l b => poloidal_entry FastPoloidal (sz_nZeta s) nT nTR (sz_mnyq2 s) m l b)).
  set (L := pairs 0 (sz_mnyq2 s + 1) 0 nTR).
  assert (In (m, l) L) by (apply pairs_In; pose proof (so_mnyq s OK); lia).
  apply (local_assign pr _ (fun q => fst q * nTR + snd q)%Z (fun q => val (fst q) (snd q)) L
    ) with (a := (m, l)); [| |  |assumption].
  - intros b [m' l'] j _. apply Hp.
  - apply pairs_NoDup.
  - intros [m1 l1] [m2 l2] I1 I2 E. apply pairs_In in I1, I2. cbn [fst snd] in E.
    apply flat_inj in E; try lia. destruct E; subst; reflexivity.
Qed.
Lemma tor_tab (pr : basis_tables -> Z -> R) (val : Z -> Z -> R) :
  (forall k n b j, pr (toroidal_entry FastPoloidal (sz_nfp s) (sz_nZeta s) (sz_nnyq2 s) k n b) j =
     if (j =? k * (sz_nnyq2 s + 1) + n)%Z then val k n else pr b j) ->
  forall k n, (0 <= k < sz_nZeta s)%Z -> (0 <= n <= sz_ntor s)%Z -> pr tab (k * (sz_nnyq2 s + 1) + n)%Z = val k n.
Proof.
  intros Ht k n Hk Hn. unfold tab, computeFourierBasis.
  rewrite (for_up_pairs (fun k n b => toroidal_entry FastPoloidal (sz_nfp s) (sz_nZeta s) (sz_nnyq2 s) k n b)).
  set (L := pairs 0 (sz_nZeta s) 0 (sz_nnyq2 s + 1)).
  assert (In (k, n) L) by (apply pairs_In; pose proof (so_nnyq s OK); lia).
  apply (local_assign pr _ (fun q => fst q * (sz_nnyq2 s + 1) + snd q)%Z (fun q => val (fst q) (snd q)) L
    ) with (a := (k, n)); [| |  |assumption].
  - intros b [m' l'] j _. apply Ht.
  - apply pairs_NoDup.
  - intros [m1 l1] [m2 l2] I1 I2 E. apply pairs_In in I1, I2. cbn [fst snd] in E.
    apply flat_inj in E; try lia. destruct E; subst; reflexivity.
Qed.

Lemma mscale_s2 m : mscale m = s2 m. Proof. reflexivity. Qed.
Lemma nscale_s2 m : nscale m = s2 m. Proof. reflexivity. Qed.
Lemma theta_ang l : theta_of nT l = ang nT l. Proof. reflexivity. Qed.
Lemma zeta_ang k : zeta_of (sz_nZeta s) k = ang (sz_nZeta s) k. Proof. reflexivity. Qed.

Ltac ptab := apply pol_tab; [reflexivity|]; intros m l b j;
  unfold poloidal_entry, PoloidalBasisIndex; cbv zeta;
  cbn [bt_cosmu bt_sinmu bt_cosmui bt_sinmui bt_cosmum bt_sinmum bt_cosmumi bt_sinmumi];
  unfold half_end; unfold upd; rewrite ?Z.eqb_refl;
  try (destruct ((l =? 0)%Z || (l =? nTR - 1)%Z)); rewrite ?Z.eqb_refl; destruct (Z.eqb_spec j (m * nTR + l)); try reflexivity.

Lemma t_cosmu : forall m l, (0 <= m < sz_mpol s)%Z -> (0 <= l < nTR)%Z ->
  bt_cosmu tab (m * nTR + l)%Z = cos (IZR m * ang nT l) * s2 m.
Proof. apply (pol_tab bt_cosmu (fun m l => cos (IZR m * ang nT l) * s2 m)). reflexivity. intros. reflexivity. Qed.
Lemma t_sinmu : forall m l, (0 <= m < sz_mpol s)%Z -> (0 <= l < nTR)%Z ->
  bt_sinmu tab (m * nTR + l)%Z = sin (IZR m * ang nT l) * s2 m.
Proof. apply (pol_tab bt_sinmu (fun m l => sin (IZR m * ang nT l) * s2 m)). reflexivity. intros. reflexivity. Qed.
Lemma t_cosmum : forall m l, (0 <= m < sz_mpol s)%Z -> (0 <= l < nTR)%Z ->
  bt_cosmum tab (m * nTR + l)%Z = IZR m * (cos (IZR m * ang nT l) * s2 m).
Proof. apply (pol_tab bt_cosmum (fun m l => IZR m * (cos (IZR m * ang nT l) * s2 m))). reflexivity.
  intros. cbn [bt_cosmum poloidal_entry]. unfold poloidal_entry. cbn [bt_cosmum PoloidalBasisIndex]. unfold upd.
  rewrite Z.eqb_refl. reflexivity. Qed.
Lemma t_sinmum : forall m l, (0 <= m < sz_mpol s)%Z -> (0 <= l < nTR)%Z ->
  bt_sinmum tab (m * nTR + l)%Z = IZR (- m) * (sin (IZR m * ang nT l) * s2 m).
Proof. apply (pol_tab bt_sinmum (fun m l => IZR (- m) * (sin (IZR m * ang nT l) * s2 m))). reflexivity.
  intros. unfold poloidal_entry. cbn [bt_sinmum PoloidalBasisIndex]. unfold upd.
  rewrite Z.eqb_refl. reflexivity. Qed.
Lemma t_cosmui : forall m l, (0 <= m < sz_mpol s)%Z -> (0 <= l < nTR)%Z ->
  bt_cosmui tab (m * nTR + l)%Z = half_end l (cos (IZR m * ang nT l) * s2 m * norm_).
Proof. apply (pol_tab bt_cosmui (fun m l => half_end l (cos (IZR m * ang nT l) * s2 m * norm_))). reflexivity.
  intros. unfold poloidal_entry, half_end. cbn [bt_cosmui PoloidalBasisIndex]. unfold upd.
  rewrite Z.eqb_refl. destruct ((l =? 0)%Z || (l =? nTR - 1)%Z); destruct (Z.eqb_spec j (m * nTR + l)); rewrite ?Z.eqb_refl; reflexivity. Qed.
Lemma t_sinmui : forall m l, (0 <= m < sz_mpol s)%Z -> (0 <= l < nTR)%Z ->
  bt_sinmui tab (m * nTR + l)%Z = sin (IZR m * ang nT l) * s2 m * norm_.
Proof. apply (pol_tab bt_sinmui (fun m l => sin (IZR m * ang nT l) * s2 m * norm_)). reflexivity.
  intros. unfold poloidal_entry. cbn [bt_sinmui PoloidalBasisIndex]. unfold upd.
  rewrite Z.eqb_refl. reflexivity. Qed.
Lemma t_cosmumi : forall m l, (0 <= m < sz_mpol s)%Z -> (0 <= l < nTR)%Z ->
  bt_cosmumi tab (m * nTR + l)%Z = IZR m * half_end l (cos (IZR m * ang nT l) * s2 m * norm_).
Proof. apply (pol_tab bt_cosmumi (fun m l => IZR m * half_end l (cos (IZR m * ang nT l) * s2 m * norm_))). reflexivity.
  intros. unfold poloidal_entry, half_end. cbn [bt_cosmumi PoloidalBasisIndex]. unfold upd.
  rewrite Z.eqb_refl. destruct ((l =? 0)%Z || (l =? nTR - 1)%Z); destruct (Z.eqb_spec j (m * nTR + l)); rewrite ?Z.eqb_refl; reflexivity. Qed.
Lemma t_sinmumi : forall m l, (0 <= m < sz_mpol s)%Z -> (0 <= l < nTR)%Z ->
  bt_sinmumi tab (m * nTR + l)%Z = IZR (- m) * (sin (IZR m * ang nT l) * s2 m * norm_).
Proof. apply (pol_tab bt_sinmumi (fun m l => IZR (- m) * (sin (IZR m * ang nT l) * s2 m * norm_))). reflexivity.
  intros. unfold poloidal_entry. cbn [bt_sinmumi PoloidalBasisIndex]. unfold upd.
  rewrite Z.eqb_refl. reflexivity. Qed.
Local Notation nz := (sz_nZeta s).
Lemma t_cosnv : forall k n, (0 <= k < nz)%Z -> (0 <= n <= sz_ntor s)%Z ->
  bt_cosnv tab (k * (sz_nnyq2 s + 1) + n)%Z = cos (IZR n * ang nz k) * s2 n.
Proof. apply (tor_tab bt_cosnv (fun k n => cos (IZR n * ang nz k) * s2 n)). intros. reflexivity. Qed.
Lemma t_sinnv : forall k n, (0 <= k < nz)%Z -> (0 <= n <= sz_ntor s)%Z ->
  bt_sinnv tab (k * (sz_nnyq2 s + 1) + n)%Z = sin (IZR n * ang nz k) * s2 n.
Proof. apply (tor_tab bt_sinnv (fun k n => sin (IZR n * ang nz k) * s2 n)). intros. reflexivity. Qed.
Lemma t_cosnvn : forall k n, (0 <= k < nz)%Z -> (0 <= n <= sz_ntor s)%Z ->
  bt_cosnvn tab (k * (sz_nnyq2 s + 1) + n)%Z = IZR (n * sz_nfp s) * (cos (IZR n * ang nz k) * s2 n).
Proof. apply (tor_tab bt_cosnvn (fun k n => IZR (n * sz_nfp s) * (cos (IZR n * ang nz k) * s2 n))). 
  intros. unfold toroidal_entry. cbn [bt_cosnvn ToroidalBasisIndex]. unfold upd. rewrite Z.eqb_refl. reflexivity. Qed.
Lemma t_sinnvn : forall k n, (0 <= k < nz)%Z -> (0 <= n <= sz_ntor s)%Z ->
  bt_sinnvn tab (k * (sz_nnyq2 s + 1) + n)%Z = IZR (- n * sz_nfp s) * (sin (IZR n * ang nz k) * s2 n).
Proof. apply (tor_tab bt_sinnvn (fun k n => IZR (- n * sz_nfp s) * (sin (IZR n * ang nz k) * s2 n))). 
  intros. unfold toroidal_entry. cbn [bt_sinnvn ToroidalBasisIndex]. unfold upd. rewrite Z.eqb_refl. reflexivity. Qed.
End Tab.
