(** Property theorems C105 and C106: the spectra of derived quantities. *)
From Coq Require Import ZArith List Bool Reals Lia Lra.
From Verif Require Import Base SumLemmas SizesModel FourierModel FourierSpec TrigSums DftModel DftSpec DftTables DftProofs
  FiltSpec NyqModel NyqSpec NyqProofs NyqFinal NyqCases.
Import ListNotations.
Open Scope R_scope.
Local Notation tables s b0 :=
  (computeFourierBasis FastPoloidal (sz_nfp s) (sz_nZeta s) (sz_nThetaEven s) (sz_nThetaReduced s) (sz_mnyq2 s) (sz_nnyq2 s) b0).
Local Notation xm_ s := (fst (nyq_modes s)).
Local Notation xn_ s := (snd (nyq_modes s)).

(** C105, as claimed: the Fourier series of the output takes the value of the field
    at every grid point, for the Jacobian, |B| and the angular field components
    (cosine series, in asymmetric runs plus sine series) ...  [_partial]: proved if
    the number of toroidal points is even or one, or if the field has no component
    of the highest toroidal mode number; false otherwise, see below.  [b0]:
    arbitrary old contents of the tables. *)
Theorem C105_angular_partial lasym nfp mpol ntor ntheta nzeta mg ng s b0 ns f F j k l :
  make_sizes lasym nfp mpol ntor ntheta nzeta mg ng = Some s ->
  holds_field s 1 f j F -> nyquist_free s F ->
  (0 <= j < ns - 1)%Z -> (0 <= k < sz_nZeta s)%Z -> (0 <= l < sz_nThetaEven s)%Z ->
  series_at s cos (half_mnc s (tables s b0) (xm_ s) (xn_ s) ns f) (j + 1) k l +
  (if sz_lasym s then series_at s sin (half_mns s (tables s b0) (xm_ s) (xn_ s) ns f) (j + 1) k l else 0) = F k l.
Proof.
  intros HS HF FR Hj Hk Hl.
  assert (OK := make_sizes_ok _ _ _ _ _ _ _ _ _ HS). assert (NY := make_sizes_nyq_ok _ _ _ _ _ _ _ _ _ HS).
  assert (A := series_part s OK NY b0 true f j F (ns - 1) 1 k l (or_introl HF) FR Hj Hk Hl).
  assert (X : series_at s cos (half_mnc s (tables s b0) (xm_ s) (xn_ s) ns f) (j + 1) k l = Epart s true F k l) by exact A.
  rewrite X. case_eq (sz_lasym s); intros LA.
  - assert (Y : series_at s sin (half_mns s (tables s b0) (xm_ s) (xn_ s) ns f) (j + 1) k l = Epart s false F k l)
      by exact (series_part s OK NY b0 false f j F (ns - 1) 1 k l (or_intror (conj LA HF)) FR Hj Hk Hl).
    rewrite Y. unfold Epart, sg_. field.
  - unfold Epart, sg_. rewrite (proj2 HF LA k l Hk Hl). field.
Qed.
Print Assumptions C105_angular_partial.

(** ... and for the radial component (sine series, in asymmetric runs plus cosine
    series), on the half grid (columns from 1) and on the full grid. *)
Theorem C105_radial_partial lasym nfp mpol ntor ntheta nzeta mg ng s b0 ns f F j k l :
  make_sizes lasym nfp mpol ntor ntheta nzeta mg ng = Some s ->
  holds_field s (-1) f j F -> nyquist_free s F ->
  (0 <= k < sz_nZeta s)%Z -> (0 <= l < sz_nThetaEven s)%Z ->
  ((0 <= j < ns - 1)%Z ->
   series_at s sin (bsubsmns s (tables s b0) (xm_ s) (xn_ s) ns f) (j + 1) k l +
   (if sz_lasym s then series_at s cos (bsubsmnc s (tables s b0) (xm_ s) (xn_ s) ns f) (j + 1) k l else 0) = F k l) /\
  ((0 <= j < ns)%Z ->
   series_at s sin (bsubsmns_full s (tables s b0) (xm_ s) (xn_ s) ns f) j k l +
   (if sz_lasym s then series_at s cos (bsubsmnc_full s (tables s b0) (xm_ s) (xn_ s) ns f) j k l else 0) = F k l).
Proof.
  intros HS HF FR Hk Hl.
  assert (OK := make_sizes_ok _ _ _ _ _ _ _ _ _ HS). assert (NY := make_sizes_nyq_ok _ _ _ _ _ _ _ _ _ HS).
  assert (G : sz_lasym s = true -> holds_field s 1 f j F) by (intros LA; split; [exact (proj1 HF)|congruence]).
  assert (K : forall trig w w', (1 <= j + 1)%Z -> (forall mn, w mn (j + 1)%Z = w' mn (j + 1)%Z) -> series_at s trig w (j + 1) k l = series_at s trig w' (j + 1) k l).
  { intros trig w w' _ E. unfold series_at, combined_series. f_equal.
    - apply zsum_ext. intros n _. rewrite E. reflexivity.
    - apply zsum_ext. intros m _. apply zsum_ext. intros n _. rewrite E. reflexivity. }
  split; intros Hj.
  - assert (A := series_part s OK NY b0 false f j F (ns - 1) 1 k l (or_introl HF) FR Hj Hk Hl).
    rewrite (K sin _ (spectrum s (tables s b0) (ns - 1) 1 (sin_coef s (tables s b0) (xm_ s) (xn_ s)) (part s false f))) by (try lia; intros; apply (beyond_keep s); lia).
    change (series_at s sin (spectrum s (tables s b0) (ns - 1) 1 (sin_coef s (tables s b0) (xm_ s) (xn_ s)) (part s false f)) (j + 1) k l = Epart s false F k l) in A.
    rewrite A. case_eq (sz_lasym s); intros LA.
    + assert (B := series_part s OK NY b0 true f j F (ns - 1) 1 k l (or_intror (conj LA (G LA))) FR Hj Hk Hl).
      rewrite (K cos _ (spectrum s (tables s b0) (ns - 1) 1 (cos_coef s (tables s b0) (xm_ s) (xn_ s)) (part s true f))) by (try lia; intros; apply (beyond_keep s); lia).
      change (series_at s cos (spectrum s (tables s b0) (ns - 1) 1 (cos_coef s (tables s b0) (xm_ s) (xn_ s)) (part s true f)) (j + 1) k l = Epart s true F k l) in B.
      rewrite B. unfold Epart, sg_. field.
    + unfold Epart, sg_. rewrite (proj2 HF LA k l Hk Hl). field.
  - assert (A := series_part s OK NY b0 false f j F ns 0 k l (or_introl HF) FR Hj Hk Hl). rewrite Z.add_0_r in A.
    change (series_at s sin (bsubsmns_full s (tables s b0) (xm_ s) (xn_ s) ns f) j k l = Epart s false F k l) in A.
    rewrite A. case_eq (sz_lasym s); intros LA.
    + assert (B := series_part s OK NY b0 true f j F ns 0 k l (or_intror (conj LA (G LA))) FR Hj Hk Hl). rewrite Z.add_0_r in B.
      change (series_at s cos (bsubsmnc_full s (tables s b0) (xm_ s) (xn_ s) ns f) j k l = Epart s true F k l) in B.
      rewrite B. unfold Epart, sg_. field.
    + unfold Epart, sg_. rewrite (proj2 HF LA k l Hk Hl). field.
Qed.
Print Assumptions C105_radial_partial.

(** With an odd number of toroidal points (here 7) the highest toroidal harmonic is
    resolved by the grid, but its coefficient is halved: the field cos(3 zeta) has
    half its amplitude in the output. *)
Theorem C105_odd_refuted :
  exists s f F, make_sizes false 5 2 1 0 7 0 0 = Some s /\ holds_field s 1 f 0 F /\
    (forall b0, series_at s cos (half_mnc s (tables s b0) (xm_ s) (xn_ s) 3 f) 1 0 0 = 1 / 2) /\ F 0%Z 0%Z = 1.
Proof.
  destruct (make_sizes false 5 2 1 0 7 0 0) as [s|] eqn:HS; [|discriminate HS].
  assert (OK := make_sizes_ok _ _ _ _ _ _ _ _ _ HS). assert (NY := make_sizes_nyq_ok _ _ _ _ _ _ _ _ _ HS).
  assert (LA : sz_lasym s = false) by (injection HS as <-; reflexivity).
  assert (NZ : sz_nZeta s = 7%Z) by (injection HS as <-; reflexivity).
  assert (NQ : sz_nnyq s = 3%Z) by (injection HS as <-; reflexivity).
  exists s, (nyq_field s), (nyq_F s).
  assert (F0 : nyq_F s 0 0 = 1).
  { unfold nyq_F, ang. rewrite Rmult_0_r. unfold Rdiv. rewrite Rmult_0_l, Rmult_0_r. apply cos_0. }
  split; [reflexivity|]. split; [apply (nyq_holds s OK); rewrite ?NQ, ?NZ; (reflexivity || lia)|]. split; [|exact F0].
  intros b0.
  assert (E := nyq_series s OK NY b0 LA).
  assert (E' : series_at s cos (spectrum s (tables s b0) (3 - 1) 1 (cos_coef s (tables s b0) (xm_ s) (xn_ s)) (part s true (nyq_field s))) (0 + 1) 0 0 = 1 / 2 * nyq_F s 0 0) by (apply E; rewrite ?NQ, ?NZ; lia).
  rewrite F0 in E'. rewrite Rmult_1_r in E'. exact E'.
Qed.
Print Assumptions C105_odd_refuted.

(** A case meeting the hypotheses: an asymmetric run with 10 toroidal points, any
    field. *)
Theorem C105_case b0 f ns j k l : (0 <= j < ns - 1)%Z -> (0 <= k < 10)%Z -> (0 <= l < 16)%Z ->
  forall s, make_sizes true 3 4 2 16 10 0 0 = Some s ->
  series_at s cos (half_mnc s (tables s b0) (xm_ s) (xn_ s) ns f) (j + 1) k l +
  series_at s sin (half_mns s (tables s b0) (xm_ s) (xn_ s) ns f) (j + 1) k l = f ((j * 10 + k) * 16 + l)%Z.
Proof.
  intros Hj Hk Hl s HS.
  assert (LA : sz_lasym s = true) by (injection HS as <-; reflexivity).
  assert (NZ : sz_nZeta s = 10%Z) by (injection HS as <-; reflexivity).
  assert (NT : sz_nThetaEven s = 16%Z) by (injection HS as <-; reflexivity).
  assert (NE : sz_nThetaEff s = 16%Z) by (injection HS as <-; reflexivity).
  assert (X := C105_angular_partial _ _ _ _ _ _ _ _ s b0 ns f (fun k l => f ((j * 10 + k) * 16 + l)%Z) j k l HS).
  rewrite LA in X. apply X; [|left; exists 5%Z; rewrite NZ; reflexivity|exact Hj|rewrite NZ; lia|rewrite NT; lia].
  split; [|congruence]. intros k' l' _ _. unfold at_pt. rewrite NZ, NE. reflexivity.
Qed.
Print Assumptions C105_case.

(** C106: the (m, n) = (0, 0) coefficient of a quantity is its average over the
    flux surface, on every surface, for every run. *)
Theorem C106_average lasym nfp mpol ntor ntheta nzeta mg ng s b0 ns f j :
  make_sizes lasym nfp mpol ntor ntheta nzeta mg ng = Some s -> (0 <= j < ns - 1)%Z ->
  half_mnc s (tables s b0) (xm_ s) (xn_ s) ns f (mode_pos (sz_nnyq s) 0 0) (j + 1)%Z = grid_avg s (surface s f j).
Proof.
  intros HS Hj.
  exact (average_coef s (make_sizes_ok _ _ _ _ _ _ _ _ _ HS) (make_sizes_nyq_ok _ _ _ _ _ _ _ _ _ HS) b0 (ns - 1) 1 f j Hj).
Qed.
Print Assumptions C106_average.
