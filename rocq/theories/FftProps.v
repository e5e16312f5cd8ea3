(** Property theorems C124: the FFT path. *)
From Coq Require Import ZArith List Bool Reals Lia Lra.
From Verif Require Import Base BaseLemmas SumLemmas SizesModel FourierModel FourierProofs
  PartModel DftModel DftSpec DftTables DftProofs DftProps FftModel FftSpec FftProofs.
Open Scope R_scope.

(** The two routines found for a run transform 12 * mpol signals of nZeta points. *)
Definition plans_ok (s : sizes) (pl : plans) : Prop :=
  match pl with
  | Some (c2r, r2c) => c2r_ok (sz_nZeta s) (12 * sz_mpol s) c2r /\ r2c_ok (sz_nZeta s) (12 * sz_mpol s) r2c
  | None => True
  end.
Definition tables (s : sizes) (b0 : basis_tables) : basis_tables :=
  computeFourierBasis FastPoloidal (sz_nfp s) (sz_nZeta s) (sz_nThetaEven s) (sz_nThetaReduced s) (sz_mnyq2 s) (sz_nnyq2 s) b0.

(** C124, geometry: whatever the buffers held before and whichever shapes have a
    routine, the real-space geometry of every run is the one of the build without
    FFT. *)
Theorem C124_geometry lasym nfp mpol ntor ntheta nzeta mg ng T th ns lfreeb s p (b0 : basis_tables) (pl : plans)
    (xmpq sqrtSF : Z -> R) (x : coefs) (g0 ga0 : geom) (X0 Y0 : Z -> R) :
  setting lasym nfp mpol ntor ntheta nzeta mg ng T th ns lfreeb s p -> plans_ok s pl ->
  geometryFromFourierFft pl s (tables s b0) p xmpq sqrtSF x g0 ga0 X0 Y0 =
  geometryFromFourier s (tables s b0) p xmpq sqrtSF x g0 ga0.
Proof.
  intros HS HP. destruct (setting_ok _ _ _ _ _ _ _ _ _ _ _ _ _ _ HS) as (OK & _).
  unfold geometryFromFourierFft, geometryFromFourier. destruct (sz_lthreed s) eqn:E3; [|reflexivity].
  destruct pl as [[c2r r2c]|]; [|reflexivity]. destruct HP as [HC HR].
  assert (N3 : (0 < sz_ntor s)%Z) by (rewrite (so_3d s OK) in E3; apply Z.gtb_lt; exact E3).
  change (tables s b0) with (tab s b0). rewrite (forward_eq s OK N3 b0 p c2r HC xmpq sqrtSF x X0 Y0). reflexivity.
Qed.
Print Assumptions C124_geometry.

(** C124, forces: the same for the Fourier coefficients of the forces. *)
Theorem C124_forces lasym nfp mpol ntor ntheta nzeta mg ng T th ns lfreeb s p (b0 : basis_tables) (pl : plans)
    (xmpq : Z -> R) (vacuum_on : bool) (d da : forces) (inb0 outb0 : Z -> R) :
  setting lasym nfp mpol ntor ntheta nzeta mg ng T th ns lfreeb s p -> plans_ok s pl ->
  forcesToFourierFft pl s (tables s b0) p xmpq ns lfreeb vacuum_on d da inb0 outb0 =
  forcesToFourier s (tables s b0) p xmpq ns lfreeb vacuum_on d da.
Proof.
  intros HS HP. destruct (setting_ok _ _ _ _ _ _ _ _ _ _ _ _ _ _ HS) as (OK & _).
  unfold forcesToFourierFft, forcesToFourier. destruct (if sz_lasym s then symforce s p d da else (d, da)) as [d' da'].
  destruct (sz_lthreed s) eqn:E3; [|reflexivity].
  destruct pl as [[c2r r2c]|]; [|reflexivity]. destruct HP as [HC HR].
  assert (N3 : (0 < sz_ntor s)%Z) by (rewrite (so_3d s OK) in E3; apply Z.gtb_lt; exact E3).
  change (tables s b0) with (tab s b0). cbv zeta. rewrite (backward_eq s OK N3 b0 p r2c HR xmpq ns lfreeb vacuum_on d' inb0 outb0). reflexivity.
Qed.
Print Assumptions C124_forces.

(** A pair of routines that meets the description, for every shape. *)
Definition exact_c2r (N : Z) : kernel := fun _ inp w =>
  let i := (w / N)%Z in signal N (fun j => inp (2 * (i * half_len N + j))%Z) (fun j => inp (2 * (i * half_len N + j) + 1)%Z) (w mod N)%Z.
Definition exact_r2c (N : Z) : kernel := fun _ inp w =>
  let c := (w / 2)%Z in let i := (c / half_len N)%Z in let j := (c mod half_len N)%Z in
  let sc := if (j =? 0)%Z then 1 else sqrt 2 in
  if (w mod 2 =? 0)%Z then sc * zsum 0 N (fun k => inp (i * N + k)%Z * cos (turn N j k))
  else - (sc * zsum 0 N (fun k => inp (i * N + k)%Z * sin (turn N j k))).
Lemma exact_ok N count : (1 <= N)%Z -> c2r_ok N count (exact_c2r N) /\ r2c_ok N count (exact_r2c N).
Proof.
  intros HN. split.
  - intros out inp i k Hi Hk. unfold exact_c2r. cbv zeta.
    replace ((i * N + k) / N)%Z with i by (rewrite Z.div_add_l, Z.div_small by lia; lia).
    replace ((i * N + k) mod N)%Z with k by (rewrite Z.add_comm, Z.mod_add, Z.mod_small by lia; lia). reflexivity.
  - intros out inp i j Hi Hj sc. assert (H0 : (0 < half_len N)%Z) by lia. unfold exact_r2c. cbv zeta.
    set (c := (i * half_len N + j)%Z).
    assert (C1 : (c / half_len N)%Z = i) by (unfold c; rewrite Z.div_add_l, Z.div_small by lia; lia).
    assert (C2 : (c mod half_len N)%Z = j) by (unfold c; rewrite Z.add_comm, Z.mod_add, Z.mod_small by lia; lia).
    replace ((2 * c) / 2)%Z with c by (rewrite Z.mul_comm, Z.div_mul by lia; lia).
    replace ((2 * c + 1) / 2)%Z with c by (rewrite Z.mul_comm, Z.div_add_l by lia; change (1 / 2)%Z with 0%Z; lia).
    replace ((2 * c) mod 2)%Z with 0%Z by (rewrite Z.mul_comm, Z.mod_mul by lia; lia).
    replace ((2 * c + 1) mod 2)%Z with 1%Z by (rewrite Z.add_comm, Z.mul_comm, Z.mod_add by lia; reflexivity).
    rewrite C1, C2. split; reflexivity.
Qed.

(** A concrete case: mpol = 6, ntor = 6 (nZeta = 16, 72 signals), the smallest shape
    with vendored routines. *)
Example C124_case : exists s p, setting false 5 6 6 0 0 6 6 2 0 11 true s p /\ (0 < sz_ntor s)%Z /\ sz_nZeta s = 16%Z /\
  (12 * sz_mpol s = 72)%Z /\ plans_ok s (Some (exact_c2r 16, exact_r2c 16)).
Proof.
  eexists. eexists. split; [|split; [|split; [|split]]].
  - split; [lia|]. split; [reflexivity|]. split; [lia|]. split; [lia|]. split; [lia|]. reflexivity.
  - cbn. lia.
  - reflexivity.
  - reflexivity.
  - apply exact_ok. lia.
Qed.
