(** Property theorems C21, C23, C24. *)
From Coq Require Import ZArith List Bool Reals Lra Lia.
From Verif Require Import Base BaseLemmas SumLemmas SizesModel FourierModel FourierSpec FourierProofs FourierTables.
Open Scope Z_scope.

(** C21: combined -> product -> combined returns the coefficients, and the
    running index of the loops ends at mnmax (the CHECK at the end passes).
    [la] covers both storage layouts; [cc0], [ss0], [f0] are the previous
    contents of the output buffers. *)
Theorem C21_cos_round_trip (la : layout) (ntor mpol : Z) (f cc0 ss0 f0 : Z -> R) :
  0 <= ntor -> 1 <= mpol ->
  let r := cos_to_cc_ss la ntor mpol f cc0 ss0 in
  let b := cc_ss_to_cos la ntor mpol (fst (snd r)) (snd (snd r)) f0 in
  fst r = n_modes mpol ntor /\ fst b = n_modes mpol ntor /\
  forall m n, valid_mode mpol ntor m n -> snd b (mode_pos ntor m n) = f (mode_pos ntor m n).
Proof.
  intros Hn Hm r b. destruct (cos_round_trip la ntor mpol Hn Hm f cc0 ss0 f0) as (B1 & B2).
  destruct (cos_to_cc_ss_spec la ntor mpol Hn Hm f cc0 ss0) as (A1 & _).
  split; [exact A1|]. split; [exact B1|]. intros m n (V1 & V2 & V3). apply B2. apply modes_In; lia.
Qed.
Print Assumptions C21_cos_round_trip.
(** The coefficient of sin(0), which does not contribute, comes back as zero. *)
Theorem C21_sin_round_trip (la : layout) (ntor mpol : Z) (f sc0 cs0 f0 : Z -> R) :
  0 <= ntor -> 1 <= mpol ->
  let r := sin_to_sc_cs la ntor mpol f sc0 cs0 in
  let b := sc_cs_to_sin la ntor mpol (fst (snd r)) (snd (snd r)) f0 in
  fst r = n_modes mpol ntor /\ fst b = n_modes mpol ntor /\
  (forall m n, valid_mode mpol ntor m n -> (m, n) <> (0, 0) -> snd b (mode_pos ntor m n) = f (mode_pos ntor m n)) /\
  snd b (mode_pos ntor 0 0) = 0%R.
Proof.
  intros Hn Hm r b. destruct (sin_round_trip la ntor mpol Hn Hm f sc0 cs0 f0) as (B1 & B2 & B3).
  destruct (sin_to_sc_cs_spec la ntor mpol Hn Hm f sc0 cs0) as (A1 & _).
  split; [exact A1|]. split; [exact B1|]. split; [|exact B3].
  intros m n (V1 & V2 & V3) Ne. apply B2. apply modes_In; [lia|].
  destruct (Z.eq_dec m 0); [left|right; lia]. split; [lia|].
  destruct (Z.eq_dec n 0); [subst; contradiction Ne; reflexivity|lia].
Qed.
Print Assumptions C21_sin_round_trip.
(** Both directions preserve the function at every angle. *)
Theorem C21_series (la : layout) (ntor mpol : Z) (f g h1 h2 o1 o2 : Z -> R) (theta zeta : R) :
  0 <= ntor -> 1 <= mpol ->
  let at_ := fun m n => ProductIndex la m n mpol ntor in
  let c := snd (cos_to_cc_ss la ntor mpol f o1 o2) in
  let s := snd (sin_to_sc_cs la ntor mpol f o1 o2) in
  (product_series cos cos mpol ntor at_ (fst c) theta zeta + product_series sin sin mpol ntor at_ (snd c) theta zeta
    = combined_series cos mpol ntor f theta zeta)%R /\
  (product_series sin cos mpol ntor at_ (fst s) theta zeta + product_series cos sin mpol ntor at_ (snd s) theta zeta
    = combined_series sin mpol ntor f theta zeta)%R /\
  (combined_series cos mpol ntor (snd (cc_ss_to_cos la ntor mpol h1 h2 g)) theta zeta
    = product_series cos cos mpol ntor at_ h1 theta zeta + product_series sin sin mpol ntor at_ h2 theta zeta)%R /\
  (combined_series sin mpol ntor (snd (sc_cs_to_sin la ntor mpol h1 h2 g)) theta zeta
    = product_series sin cos mpol ntor at_ h1 theta zeta + product_series cos sin mpol ntor at_ h2 theta zeta)%R.
Proof.
  intros Hn Hm at_ c s. split; [apply cos_series_eq; auto|]. split; [apply sin_series_eq; auto|].
  split; [apply back_cos_series; auto|apply back_sin_series; auto].
Qed.
Print Assumptions C21_series.

(** A concrete case: mpol = 2, ntor = 1, the mode cos(theta - zeta) is at
    position 4 and becomes the product coefficients cc(1,1) = ss(1,1) = 1/2. *)
Example C21_case : mode_pos 1 1 1 = 4 /\ valid_mode 2 1 1 1 /\
  combined_series cos 2 1 (fun i => if i =? 4 then 1 else 0)%R 0 0 = 1%R.
Proof.
  split; [reflexivity|]. split; [unfold valid_mode; lia|]. unfold combined_series, zsum.
  change (zrange 0 (1 + 1)) with (0 :: 1 :: nil)%list. change (zrange 1 2) with (1 :: nil)%list.
  change (zrange (- (1)) (1 + 1)) with (-1 :: 0 :: 1 :: nil)%list. cbn -[cos IZR Rmult Rplus Ropp Rminus].
  rewrite !Rmult_0_r, Rminus_0_r, Ropp_0, cos_0. ring.
Qed.

(** C23: the tables list every mode exactly once; [xn] holds n * nfp. *)
Theorem C23_mode_tables (ntor mpol nfp : Z) : 0 <= ntor -> 1 <= mpol ->
  let '(count, (xm, xn)) := computeConversionIndices ntor mpol nfp in
  count = n_modes mpol ntor /\
  (forall m n, valid_mode mpol ntor m n -> exists i, 0 <= i < count /\ xm i = m /\ xn i = n * nfp /\ mnIdx ntor m n = Some i) /\
  (forall i, 0 <= i < count -> exists n, valid_mode mpol ntor (xm i) n /\ xn i = n * nfp /\ mnIdx ntor (xm i) n = Some i) /\
  (forall i j, 0 <= i < count -> 0 <= j < count -> nfp <> 0 -> xm i = xm j -> xn i = xn j -> i = j).
Proof.
  intros Hn Hm. pose proof (tables_spec ntor mpol nfp Hn Hm) as T.
  destruct (computeConversionIndices ntor mpol nfp) as (count & (xm & xn)). cbn [fst snd] in T. destruct T as (-> & T).
  split; [reflexivity|].
  assert (A : forall i, 0 <= i < n_modes mpol ntor -> exists n, valid_mode mpol ntor (xm i) n /\ xn i = n * nfp /\ mode_pos ntor (xm i) n = i).
  { intros i Hi. destruct (mode_pos_surj mpol ntor i Hm Hn Hi) as (m & n & V & P). destruct (T m n V) as (E1 & E2). rewrite P in E1, E2.
    exists n. rewrite E1. auto. }
  split; [|split].
  - intros m n V. exists (mode_pos ntor m n). destruct (T m n V). split; [apply mode_pos_range; auto|].
    split; [auto|]. split; [auto|]. apply (mnIdx_pos ntor mpol); auto.
  - intros i Hi. destruct (A i Hi) as (n & V & E & P). exists n. split; [auto|]. split; [auto|]. rewrite (mnIdx_pos ntor mpol) by auto. congruence.
  - intros i j Hi Hj Hf E1 E2. destruct (A i Hi) as (n & V & E & P). destruct (A j Hj) as (n' & V' & E' & P').
    assert (n = n') by nia. subst. congruence.
Qed.
Print Assumptions C23_mode_tables.

(** The Nyquist tables use m = 0..mnyq and |n| <= nnyq. *)
Theorem C23_nyquist lasym nfp mpol ntor ntheta nzeta mg ng s :
  make_sizes lasym nfp mpol ntor ntheta nzeta mg ng = Some s ->
  let '(count, (xm, xn)) := computeConversionIndices (sz_nnyq s) (sz_mnyq s + 1) nfp in
  count = sz_mnmax_nyq s /\ fst (computeConversionIndices ntor mpol nfp) = sz_mnmax s /\
  (forall m n, valid_mode (sz_mnyq s + 1) (sz_nnyq s) m n -> exists i, 0 <= i < count /\ xm i = m /\ xn i = n * nfp) /\
  (forall i j, 0 <= i < count -> 0 <= j < count -> xm i = xm j -> xn i = xn j -> i = j) /\
  (forall i, 0 <= i < count -> exists n, valid_mode (sz_mnyq s + 1) (sz_nnyq s) (xm i) n /\ xn i = n * nfp).
Proof.
  unfold make_sizes. destruct (nfp <? 1) eqn:F1; [discriminate|]. destruct (mpol <? 1) eqn:F2; [discriminate|].
  destruct (ntor <? 0) eqn:F3; [discriminate|]. cbn [orb]. apply Z.ltb_ge in F1, F2, F3.
  intros E. apply (f_equal (fun o => match o with Some x => x | None => s end)) in E. cbv iota beta in E. subst s. cbn [sz_nnyq sz_mnyq sz_mnmax_nyq sz_mnmax].
  match goal with |- context [computeConversionIndices (Z.quot ?a 2) (Z.quot ?b 2 + 1) nfp] => set (n2 := a); set (m2 := b) end.
  assert (N2 : 0 <= n2) by (unfold n2; lia). assert (M2 : 0 <= m2) by (unfold m2; lia).
  pose proof (quot2_bounds n2 N2). pose proof (quot2_bounds m2 M2).
  assert (EV : n2 = 2 * Z.quot n2 2).
  { assert (exists k, n2 = 2 * k) as (k & K); [|rewrite K, even_quot; reflexivity].
    unfold n2. match goal with |- exists k, Z.max 0 (Z.max (2 * ?a) (2 * ?b)) = _ => exists (Z.max 0 (Z.max a b)) end. lia. }
  pose proof (C23_mode_tables (Z.quot n2 2) (Z.quot m2 2 + 1) nfp ltac:(lia) ltac:(lia)) as T.
  destruct (computeConversionIndices (Z.quot n2 2) (Z.quot m2 2 + 1) nfp) as (count & (xm & xn)).
  destruct T as (-> & T1 & T2 & T3).
  split; [unfold n_modes; nia|]. split; [|split; [|split]].
  - destruct (tables_spec ntor mpol nfp ltac:(lia) ltac:(lia)) as (C & _). exact C.
  - intros m n V. destruct (T1 m n V) as (i & ? & ? & ? & _). exists i; auto.
  - intros. apply T3; auto; lia.
  - intros i Hi. destruct (T2 i Hi) as (n & ? & ? & _). exists n; auto.
Qed.
Print Assumptions C23_nyquist.
Example C23_case : fst (computeConversionIndices 1 2 5) = 5 /\ snd (snd (computeConversionIndices 1 2 5)) 2 = -5
  /\ mnIdx 1 1 (-1) = Some 2.
Proof. vm_compute. auto. Qed.

(** C24: every accepted resolution gives a usable grid.  IsConsistent
    (vmec_indata.cc) requires nfp >= 1, mpol >= 2, ntor >= 0, ntheta >= 0,
    nzeta >= 0.  [mg], [ng] are the geometry resolutions, unconstrained. *)
Theorem C24_sizes (lasym : bool) (nfp mpol ntor ntheta nzeta mg ng : Z) :
  1 <= nfp -> 2 <= mpol -> 0 <= ntor -> 0 <= ntheta -> 0 <= nzeta ->
  exists s, make_sizes lasym nfp mpol ntor ntheta nzeta mg ng = Some s /\
    2 * mpol + 6 <= sz_nThetaEven s /\ (exists k, sz_nThetaEven s = 2 * k) /\
    ntheta - 1 <= sz_nThetaEven s <= Z.max ntheta (2 * mpol + 6) /\
    1 <= sz_nZeta s /\ nzeta <= sz_nZeta s /\ (0 < ntor -> 2 * ntor + 4 <= sz_nZeta s) /\
    (forall m, 0 <= m < mpol -> 2 * m < sz_nThetaEven s) /\ (forall n, 0 <= n <= ntor -> 2 * n < sz_nZeta s) /\
    1 <= sz_nThetaReduced s <= sz_nThetaEff s /\ sz_nThetaEff s <= sz_nThetaEven s /\ 1 <= sz_nZnT s /\ 1 <= sz_mnsize s /\ 1 <= sz_mnmax s /\
    1 <= sz_mpolGeometry s <= mpol /\ 0 <= sz_ntorGeometry s <= ntor /\
    mpol - 1 <= sz_mnyq s /\ ntor <= sz_nnyq s /\ sz_mnmax s <= sz_mnmax_nyq s /\
    (IZR (sz_nZeta s) * zsum 0 (sz_nThetaEff s) (sz_wInt s) = 1)%R.
Proof.
  intros Hf Hm Hn Ht Hz. unfold make_sizes.
  destruct (Z.ltb_spec nfp 1); [lia|]. destruct (Z.ltb_spec mpol 1); [lia|]. destruct (Z.ltb_spec ntor 0); [lia|]. cbn [orb].
  eexists. split; [reflexivity|].
  cbn [sz_nThetaEven sz_nZeta sz_nThetaReduced sz_nThetaEff sz_nZnT sz_mnsize sz_mnmax sz_mpolGeometry sz_ntorGeometry sz_mnyq sz_nnyq sz_wInt sz_mnmax_nyq].
  set (nt := if ntheta <? 2 * mpol + 6 then 2 * mpol + 6 else ntheta).
  assert (NT : nt = Z.max ntheta (2 * mpol + 6)) by (unfold nt; destruct (Z.ltb_spec ntheta (2 * mpol + 6)); lia).
  match goal with |- context [if ntor >? 0 then ?x else ?y] => match x with context [2 * ntor + 4] => set (nz := if ntor >? 0 then x else y) end end.
  assert (NZ : 1 <= nz /\ nzeta <= nz /\ (0 < ntor -> 2 * ntor + 4 <= nz)).
  { unfold nz. clear nz. rewrite !Z.gtb_ltb. destruct (Z.ltb_spec 0 ntor) as [L|L].
    - destruct (Z.eqb_spec ntor 0) as [E|E]; [lia|]. cbn [andb]. cbv iota. destruct (Z.ltb_spec nzeta (2 * ntor + 4)); repeat split; intros; lia.
    - destruct (Z.eqb_spec ntor 0) as [E|E]; [|lia]. cbn [andb]. destruct (Z.ltb_spec nzeta 1); lia. }
  clearbody nz nt. destruct NZ as (Z1 & Z2 & Z3).
  rewrite even_quot. pose proof (quot2_bounds nt ltac:(lia)) as QB.
  set (h := Z.quot nt 2) in *.
  pose proof (quot2_bounds nz ltac:(lia)) as QZ. set (hz := Z.quot nz 2) in *.
  assert (QM : Z.max 0 (Z.max (2 * h) (2 * (mpol - 1))) = 2 * h) by lia.
  rewrite QM, even_quot.
  assert (QN : Z.max 0 (Z.max (2 * hz) (2 * ntor)) = 2 * hz) by lia. rewrite QN, even_quot.
  assert (EFF : h + 1 <= (if lasym then 2 * h else h + 1) <= 2 * h) by (destruct lasym; lia).
  assert (MGB : 1 <= (if (mg <? 1) || (mg >? mpol) then mpol else mg) <= mpol).
  { rewrite Z.gtb_ltb. destruct (Z.ltb_spec mg 1), (Z.ltb_spec mpol mg); cbn [orb]; lia. }
  assert (NGB : 0 <= (if (ng <? 0) || (ng >? ntor) then ntor else ng) <= ntor).
  { rewrite Z.gtb_ltb. destruct (Z.ltb_spec ng 0), (Z.ltb_spec ntor ng); cbn [orb]; lia. }
  assert (W := wint_sum lasym nz (2 * h) ltac:(lia) ltac:(lia) ltac:(rewrite even_quot; reflexivity)). cbv zeta in W. rewrite even_quot in W.
  set (eff := if lasym then 2 * h else h + 1) in *. clearbody eff.
  split; [lia|]. split; [exists h; lia|]. split; [lia|]. split; [lia|]. split; [lia|]. split; [lia|]. split; [intros; lia|]. split; [intros; lia|].
  split; [lia|]. split; [lia|]. split; [nia|]. split; [nia|]. split; [nia|]. split; [exact MGB|]. split; [exact NGB|].
  split; [lia|]. split; [lia|]. split; [nia|]. exact W.
Qed.
Print Assumptions C24_sizes.
Example C24_case : option_map (fun s => (sz_nThetaEven s, sz_nThetaReduced s, sz_nZeta s, sz_mnmax s, sz_mnmax_nyq s))
  (make_sizes false 5 6 4 0 0 6 4) = Some (18, 10, 12, 50, 124).
Proof. vm_compute. reflexivity. Qed.
