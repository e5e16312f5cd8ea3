(** Property theorems C127: with the vendored FFT routines, which are accurate to
    [eps] only, the geometry and the forces stay within [eps] times their natural size
    of those of the plain transforms. *)
From Coq Require Import ZArith List Bool Reals Lia Lra.
From Verif Require Import Base SizesModel PartModel FourierModel DftModel DftSpec DftProps SumLemmas
  FftModel FftProps FftLang FftCodSpec FftCodProps FftNearSpec FftNearFinal.
Import ListNotations.
Open Scope R_scope.

(** C127, routines: each routine that the library holds, called with any contents of
    its scratch arrays and buffers, is a kernel with relative error 5e-16. *)
Theorem C127_routines inv N cnt r st : (0 <= N)%Z -> find_routine inv N cnt = Some r -> ready (fst r) st ->
  near (5 / 10 ^ 16) inv N cnt (call_kernel r (cnt * read_len inv N) (cnt * write_len inv N) st).
Proof. exact (call_near inv N cnt r st). Qed.
Print Assumptions C127_routines.

(** C127, geometry: R, Z, their derivatives and those of lambda (arrays of even and
    of odd m). *)
Theorem C127_geometry lasym nfp mpol ntor ntheta nzeta mg ng T th ns lfreeb s p (b0 : basis_tables) (e : R)
    (xmpq sqrtSF : Z -> R) (c2r : kernel) (x : coefs) (X0 Y0 : Z -> R) (q : gq) (even_m : bool) (j k l : Z) :
  setting lasym nfp mpol ntor ntheta nzeta mg ng T th ns lfreeb s p -> (0 < sz_ntor s)%Z -> 0 <= e ->
  near e true (sz_nZeta s) (12 * sz_mpol s) c2r ->
  (nsMinF1 p <= j < nsMaxF1 p)%Z -> (0 <= k < sz_nZeta s)%Z -> (0 <= l < sz_nThetaReduced s)%Z ->
  let g := snd (FourierToReal3DFft s (tables s b0) p xmpq sqrtSF c2r x X0 Y0) in
  let g' := FourierToReal3D s p xmpq sqrtSF (sym_v s (tables s b0) p x) in
  Rabs (g_q g q even_m (at_pt s (j - nsMinF1 p) k l) - g_q g' q even_m (at_pt s (j - nsMinF1 p) k l))
  <= e * zsum 0 (sz_mpol s) (fun m => if Bool.eqb even_m (Z.even m) then size_of s x q (j - nsMinF1 p) m else 0).
Proof. exact (fun HS N3 E0 HC Hj Hk Hl => geometry_all HS N3 b0 e E0 xmpq sqrtSF c2r x X0 Y0 q even_m j k l HC Hj Hk Hl). Qed.
Print Assumptions C127_geometry.

(** C127, constraint: the two arrays of the spectral condensation constraint. *)
Theorem C127_constraint lasym nfp mpol ntor ntheta nzeta mg ng T th ns lfreeb s p (b0 : basis_tables) (e : R)
    (xmpq sqrtSF : Z -> R) (c2r : kernel) (x : coefs) (X0 Y0 : Z -> R) (j k l : Z) :
  setting lasym nfp mpol ntor ntheta nzeta mg ng T th ns lfreeb s p -> (0 < sz_ntor s)%Z -> 0 <= e ->
  near e true (sz_nZeta s) (12 * sz_mpol s) c2r ->
  (nsMinF1 p <= j < nsMaxF1 p)%Z -> (nsMinF p <= j < nsMaxFIncludingLcfs p)%Z -> (0 <= k < sz_nZeta s)%Z -> (0 <= l < sz_nThetaReduced s)%Z ->
  let g := snd (FourierToReal3DFft s (tables s b0) p xmpq sqrtSF c2r x X0 Y0) in
  let g' := FourierToReal3D s p xmpq sqrtSF (sym_v s (tables s b0) p x) in
  let f m := if Z.even m then xmpq m else xmpq m * sqrtSF (j - nsMinF1 p)%Z in
  let bound q := e * zsum 0 (sz_mpol s) (fun m => Rabs (f m) * size_of s x q (j - nsMinF1 p) m) in
  Rabs (g_rCon g (at_pt s (j - nsMinF p) k l) - g_rCon g' (at_pt s (j - nsMinF p) k l)) <= bound G_r1 /\
  Rabs (g_zCon g (at_pt s (j - nsMinF p) k l) - g_zCon g' (at_pt s (j - nsMinF p) k l)) <= bound G_z1.
Proof. exact (fun HS N3 E0 HC Hj Hjc Hk Hl => con_all HS N3 b0 e E0 xmpq sqrtSF c2r x X0 Y0 j k l HC Hj Hjc Hk Hl). Qed.
Print Assumptions C127_constraint.

(** C127, forces: every Fourier coefficient of the symmetric part. *)
Theorem C127_forces lasym nfp mpol ntor ntheta nzeta mg ng T th ns lfreeb s p (b0 : basis_tables) (e : R)
    (xmpq : Z -> R) (vacuum_on : bool) (r2c : kernel) (d : forces) (inb0 outb0 : Z -> R) (c : comp) (b : bk) (j m n : Z) :
  setting lasym nfp mpol ntor ntheta nzeta mg ng T th ns lfreeb s p -> (0 < sz_ntor s)%Z -> 0 <= e ->
  near e false (sz_nZeta s) (12 * sz_mpol s) r2c ->
  (0 <= m < sz_mpol s)%Z -> (0 <= n <= sz_ntor s)%Z ->
  Rabs (snd (ForcesToFourier3DFft s (tables s b0) p xmpq r2c ns lfreeb vacuum_on d inb0 outb0) c b (at_mn s (j - nsMinF p) m n)
      - ForcesToFourier3D s (tables s b0) p xmpq ns lfreeb vacuum_on d sym_kind (fun _ _ _ => 0) c b (at_mn s (j - nsMinF p) m n))
  <= e * force_size s xmpq d (j - nsMinF p) m n c.
Proof. exact (fun HS N3 E0 HC Hm Hn => forces_all HS N3 b0 e E0 xmpq vacuum_on r2c d inb0 outb0 c b j m n HC Hm Hn). Qed.
Print Assumptions C127_forces.

(** C127, vendored: a run without asymmetric terms whose shape is in the library,
    with the library's own routines: both transforms of the run itself. *)
Theorem C127_vendored nfp mpol ntor ntheta nzeta mg ng T th ns lfreeb s p (b0 : basis_tables) rc rr stc strr
    (xmpq sqrtSF : Z -> R) (x : coefs) (d da : forces) (vacuum_on : bool) (g0 ga0 : geom) (X0 Y0 inb0 outb0 : Z -> R) :
  setting false nfp mpol ntor ntheta nzeta mg ng T th ns lfreeb s p -> (0 < sz_ntor s)%Z ->
  find_routine true (sz_nZeta s) (12 * sz_mpol s) = Some rc -> ready (fst rc) stc ->
  find_routine false (sz_nZeta s) (12 * sz_mpol s) = Some rr -> ready (fst rr) strr ->
  let cnt := (12 * sz_mpol s)%Z in let N := sz_nZeta s in
  let pl := Some (call_kernel rc (cnt * read_len true N) (cnt * write_len true N) stc,
                  call_kernel rr (cnt * read_len false N) (cnt * write_len false N) strr) in
  (forall q even_m j k l, (nsMinF1 p <= j < nsMaxF1 p)%Z -> (0 <= k < N)%Z -> (0 <= l < sz_nThetaReduced s)%Z ->
    Rabs (g_q (geometryFromFourierFft pl s (tables s b0) p xmpq sqrtSF x g0 ga0 X0 Y0) q even_m (at_pt s (j - nsMinF1 p) k l)
          - g_q (geometryFromFourier s (tables s b0) p xmpq sqrtSF x g0 ga0) q even_m (at_pt s (j - nsMinF1 p) k l))
    <= 5 / 10 ^ 16 * zsum 0 (sz_mpol s) (fun m => if Bool.eqb even_m (Z.even m) then size_of s x q (j - nsMinF1 p) m else 0)) /\
  (forall c b j m n, (0 <= m < sz_mpol s)%Z -> (0 <= n <= sz_ntor s)%Z ->
    Rabs (forcesToFourierFft pl s (tables s b0) p xmpq ns lfreeb vacuum_on d da inb0 outb0 c b (at_mn s (j - nsMinF p) m n)
          - forcesToFourier s (tables s b0) p xmpq ns lfreeb vacuum_on d da c b (at_mn s (j - nsMinF p) m n))
    <= 5 / 10 ^ 16 * force_size s xmpq d (j - nsMinF p) m n c).
Proof. exact (vendored nfp mpol ntor ntheta nzeta mg ng T th ns lfreeb s p b0 rc rr stc strr xmpq sqrtSF x d da vacuum_on g0 ga0 X0 Y0 inb0 outb0). Qed.
Print Assumptions C127_vendored.

(** A concrete case: mpol = 6, ntor = 6 (nZeta = 16): both routines are found and
    started, and a unit coefficient (m, n) = (0, 0) of R has size sqrt 2. *)
Theorem C127_case : exists s p rc rr stc strr, setting false 5 6 6 0 0 6 6 2 0 11 true s p /\ (0 < sz_ntor s)%Z /\
  find_routine true (sz_nZeta s) (12 * sz_mpol s) = Some rc /\ ready (fst rc) stc /\
  find_routine false (sz_nZeta s) (12 * sz_mpol s) = Some rr /\ ready (fst rr) strr /\
  size_of s (fun c b i => match c, b with cR, b_cc => if (i =? 0)%Z then 1 else 0 | _, _ => 0 end) G_r1 0 0 = sqrt 2.
Proof. exact case_ok. Qed.
