(** C86, C87, C88: the linear system of the vacuum problem. *)
From Coq Require Import ZArith List Bool Reals Permutation.
From Verif Require Import Base SumLemmas PartModel SizesModel FourierModel VacTables DftForces SingSumSpec LapModel LapSpec LapEnd LapCases.
Import ListNotations.
Open Scope R_scope.

(** C86: in stellarator-symmetric runs every entry of the matrix is the Galerkin
    integral of the kernel over the whole boundary grid plus 1/2 on the diagonal,
    for every number of threads, every order of their critical sections and
    every previous content of the shared array; rows of the redundant modes keep
    the diagonal only. *)
Theorem C86_matrix :
  forall nfp mpol ntor ntheta nzeta mg ng s,
  make_sizes false nfp mpol ntor ntheta nzeta mg ng = Some s ->
  forall b0 mf nf T, (0 <= mf <= mpol + 1)%Z -> (0 <= nf <= ntor)%Z -> (1 <= T)%Z ->
  forall greenp gstore ssin scos grp0 gst0 K Ss order share m n m' n',
  let lo t := fst (tangential_range (sz_nZnT s) T t) in
  let hi t := snd (tangential_range (sz_nZnT s) T t) in
  let part t := thread_part s (vtab s b0) mf nf (lo t) (hi t) (greenp t) (gstore t) (ssin t) (scos t) (grp0 t) (gst0 t) in
  let dim := ((mf + 1) * (2 * nf + 1))%Z in
  holds_kernel lo hi T (sz_nThetaEven s * sz_nZeta s) greenp K -> holds_modes lo hi T mf nf ssin Ss ->
  Permutation order (zrange 0 T) -> (0 <= m <= mf)%Z -> (- nf <= n <= nf)%Z -> (0 <= m' <= mf)%Z -> (- nf <= n' <= nf)%Z ->
  build_matrix s mf nf (map part order) share (mode_at mf nf m n + mode_at mf nf m' n' * dim)%Z =
  (if redundant m n then 0 else
     galerkin sin sin (sz_nThetaEven s) (sz_nZeta s) nfp (sz_wInt s) (sz_nZnT s) K Ss m n m' n')
  + (if ((m =? m') && (n =? n'))%Z%bool then 1 / 2 else 0).
Proof.
  exact (fun nfp mpol ntor ntheta nzeta mg ng s MK b0 mf nf T H1 H2 H3 greenp gstore ssin scos grp0 gst0 K Ss order share m n m' n' =>
    symmetric_matrix false nfp mpol ntor ntheta nzeta mg ng s MK b0 mf nf T H1 H2 H3 greenp gstore ssin scos grp0 gst0 K Ss Ss order share m n m' n' eq_refl).
Qed.
Print Assumptions C86_matrix.

(** The right-hand side is the Fourier component of the source on the whole grid
    plus the singular part, for every team; sine and cosine halves. *)
Theorem C86_source :
  forall lasym nfp mpol ntor ntheta nzeta mg ng s,
  make_sizes lasym nfp mpol ntor ntheta nzeta mg ng = Some s ->
  forall b0 mf nf T, (0 <= mf <= mpol + 1)%Z -> (0 <= nf <= ntor)%Z ->
  forall greenp gstore ssin scos grp0 gst0 order share bsin bcos m n,
  let lo t := fst (tangential_range (sz_nZnT s) T t) in
  let hi t := snd (tangential_range (sz_nZnT s) T t) in
  let part t := thread_part s (vtab s b0) mf nf (lo t) (hi t) (greenp t) (gstore t) (ssin t) (scos t) (grp0 t) (gst0 t) in
  let dim := ((mf + 1) * (2 * nf + 1))%Z in
  Permutation order (zrange 0 T) -> (0 <= m <= mf)%Z -> (- nf <= n <= nf)%Z ->
  let rhs := build_rhs s mf nf (map (fun t => (part t, (bsin t, bcos t))) order) share in
  let source trig m n := field_mode trig (sz_nThetaEven s) (sz_nZeta s) (fun kl => zsum 0 T (fun t => gstore t kl)) m n in
  rhs (mode_at mf nf m n) = (if redundant m n then 0 else
    source sin m n + zsum 0 T (fun t => bsin t (mode_at mf nf m n)) / IZR nfp) /\
  (lasym = true -> rhs (dim + mode_at mf nf m n)%Z = (if redundant m n then 0 else
    source cos m n + zsum 0 T (fun t => bcos t (mode_at mf nf m n)) / IZR nfp)).
Proof. exact source_vector. Qed.
Print Assumptions C86_source.

(** Two threads on a grid of 8 poloidal points, critical sections in the order
    1, 0; the kernel is one point pair. *)
Example C86_case : exists s, make_sizes false 1 1 0 0 0 0 0 = Some s /\
  let lo t := fst (tangential_range (sz_nZnT s) 2 t) in
  let hi t := snd (tangential_range (sz_nZnT s) 2 t) in
  let g := cut lo (sz_nThetaEven s * sz_nZeta s) (point 2 2) in
  holds_kernel lo hi 2 (sz_nThetaEven s * sz_nZeta s) g (point 2 2) /\ holds_modes lo hi 2 1 0 (fun _ _ => 0) (fun _ _ _ => 0) /\
  Permutation [1%Z; 0%Z] (zrange 0 2) /\ lo 1%Z = 3%Z /\
  forall b0 share,
  build_matrix s 1 0 (map (fun t => thread_part s (vtab s b0) 1 0 (lo t) (hi t) (g t) (fun _ => 0) (fun _ => 0) (fun _ => 0)
     ((fun _ => 0), (fun _ => 0)) ((fun _ => 0), (fun _ => 0))) [1%Z; 0%Z]) share (mode_at 1 0 1 0 + mode_at 1 0 1 0 * 2)%Z = 1 / 2 + 1 / 32.
Proof. exact matrix_case. Qed.

(** C88: whatever vector solves the assembled system solves the discrete
    integral equation; the redundant modes of the potential vanish. *)
Theorem C88_solution :
  forall nfp mpol ntor ntheta nzeta mg ng s,
  make_sizes false nfp mpol ntor ntheta nzeta mg ng = Some s ->
  forall b0 mf nf T, (0 <= mf <= mpol + 1)%Z -> (0 <= nf <= ntor)%Z -> (1 <= T)%Z ->
  forall greenp gstore ssin scos grp0 gst0 K Ss order order' share share' bsin bcos x,
  let lo t := fst (tangential_range (sz_nZnT s) T t) in
  let hi t := snd (tangential_range (sz_nZnT s) T t) in
  let part t := thread_part s (vtab s b0) mf nf (lo t) (hi t) (greenp t) (gstore t) (ssin t) (scos t) (grp0 t) (gst0 t) in
  let dim := ((mf + 1) * (2 * nf + 1))%Z in
  holds_kernel lo hi T (sz_nThetaEven s * sz_nZeta s) greenp K -> holds_modes lo hi T mf nf ssin Ss ->
  Permutation order (zrange 0 T) -> Permutation order' (zrange 0 T) ->
  let A := build_matrix s mf nf (map part order) share in
  let b := build_rhs s mf nf (map (fun t => (part t, (bsin t, bcos t))) order') share' in
  (forall r, (0 <= r < dim)%Z -> zsum 0 dim (fun c => A (r + c * dim)%Z * x c) = b r) ->
  solves mf nf (galerkin sin sin (sz_nThetaEven s) (sz_nZeta s) nfp (sz_wInt s) (sz_nZnT s) K Ss)
    (fun m n => field_mode sin (sz_nThetaEven s) (sz_nZeta s) (fun kl => zsum 0 T (fun t => gstore t kl)) m n
                + zsum 0 T (fun t => bsin t (mode_at mf nf m n)) / IZR nfp)
    (fun m n => x (mode_at mf nf m n)).
Proof.
  exact (fun nfp mpol ntor ntheta nzeta mg ng s MK b0 mf nf T H1 H2 H3 greenp gstore ssin scos grp0 gst0 K Ss order order' share share' bsin bcos x =>
    symmetric_solution false nfp mpol ntor ntheta nzeta mg ng s MK b0 mf nf T H1 H2 H3 greenp gstore ssin scos grp0 gst0 K Ss Ss order order' share share' bsin bcos x eq_refl).
Qed.
Print Assumptions C88_solution.
(** Without kernel the system is diagonal and the potential is twice the source. *)
Example C88_case : forall b0, exists s x, make_sizes false 1 1 0 0 0 0 0 = Some s /\ x 1%Z = 2 /\
  let part := thread_part s (vtab s b0) 1 0 0 (sz_nZnT s) (fun _ => 0) (fun _ => 0) (fun _ => 0) (fun _ => 0)
     ((fun _ => 0), (fun _ => 0)) ((fun _ => 0), (fun _ => 0)) in
  let A := build_matrix s 1 0 [part] (fun _ => 0) in
  let b := build_rhs s 1 0 [(part, ((fun i => IZR i), (fun _ => 0)))] (fun _ => 0) in
  forall r, (0 <= r < 2)%Z -> zsum 0 2 (fun c => A (r + c * 2)%Z * x c) = b r.
Proof. exact solution_case. Qed.

(** C87: without stellarator symmetry the cosine rows are right, for sine and
    cosine columns ... *)
Theorem C87_cosine_rows_partial :
  forall nfp mpol ntor ntheta nzeta mg ng s,
  make_sizes true nfp mpol ntor ntheta nzeta mg ng = Some s ->
  forall b0 mf nf T, (0 <= mf <= mpol + 1)%Z -> (0 <= nf <= ntor)%Z -> (1 <= T)%Z ->
  forall greenp gstore ssin scos grp0 gst0 K Ss Sc order share (hc : bool) m n m' n',
  let lo t := fst (tangential_range (sz_nZnT s) T t) in
  let hi t := snd (tangential_range (sz_nZnT s) T t) in
  let part t := thread_part s (vtab s b0) mf nf (lo t) (hi t) (greenp t) (gstore t) (ssin t) (scos t) (grp0 t) (gst0 t) in
  let dim := ((mf + 1) * (2 * nf + 1))%Z in
  holds_kernel lo hi T (sz_nThetaEven s * sz_nZeta s) greenp K -> holds_modes lo hi T mf nf ssin Ss -> holds_modes lo hi T mf nf scos Sc ->
  Permutation order (zrange 0 T) -> (0 <= m <= mf)%Z -> (- nf <= n <= nf)%Z -> (0 <= m' <= mf)%Z -> (- nf <= n' <= nf)%Z ->
  build_matrix s mf nf (map part order) share ((mode_at mf nf m n + dim) + (mode_at mf nf m' n' + (if hc then dim else 0)) * (2 * dim))%Z =
  (if redundant m n then 0 else
     galerkin cos (if hc then cos else sin) (sz_nThetaEven s) (sz_nZeta s) nfp (sz_wInt s) (sz_nZnT s) K Sc m n m' n')
  + (if (hc && (m =? m') && (n =? n'))%Z%bool then (if ((m =? 0) && (n =? 0))%Z%bool then 1 else 1 / 2) else 0).
Proof.
  exact (fun nfp mpol ntor ntheta nzeta mg ng s MK b0 mf nf T H1 H2 H3 greenp gstore ssin scos grp0 gst0 K Ss Sc order share hc m n m' n' =>
    cosine_rows true nfp mpol ntor ntheta nzeta mg ng s MK b0 mf nf T H1 H2 H3 greenp gstore ssin scos grp0 gst0 K Ss Sc order share hc m n m' n' eq_refl).
Qed.
Print Assumptions C87_cosine_rows_partial.

(** ... but the sine rows integrate over the half 0 <= theta <= pi only, with
    the weights of a symmetric run ... *)
Theorem C87_sine_rows_partial :
  forall nfp mpol ntor ntheta nzeta mg ng s,
  make_sizes true nfp mpol ntor ntheta nzeta mg ng = Some s ->
  forall b0 mf nf T, (0 <= mf <= mpol + 1)%Z -> (0 <= nf <= ntor)%Z -> (1 <= T)%Z ->
  forall greenp gstore ssin scos grp0 gst0 K Ss Sc order share (hc : bool) m n m' n',
  let lo t := fst (tangential_range (sz_nZnT s) T t) in
  let hi t := snd (tangential_range (sz_nZnT s) T t) in
  let part t := thread_part s (vtab s b0) mf nf (lo t) (hi t) (greenp t) (gstore t) (ssin t) (scos t) (grp0 t) (gst0 t) in
  let dim := ((mf + 1) * (2 * nf + 1))%Z in
  holds_kernel lo hi T (sz_nThetaEven s * sz_nZeta s) greenp K -> holds_modes lo hi T mf nf ssin Ss -> holds_modes lo hi T mf nf scos Sc ->
  Permutation order (zrange 0 T) -> (0 <= m <= mf)%Z -> (- nf <= n <= nf)%Z -> (0 <= m' <= mf)%Z -> (- nf <= n' <= nf)%Z ->
  build_matrix s mf nf (map part order) share (mode_at mf nf m n + (mode_at mf nf m' n' + (if hc then dim else 0)) * (2 * dim))%Z =
  (if redundant m n then 0 else
     galerkin sin (if hc then cos else sin) (sz_nThetaEven s) (sz_nZeta s) nfp (wred s) (sz_nThetaReduced s * sz_nZeta s) K Ss m n m' n')
  + (if (negb hc && (m =? m') && (n =? n'))%Z%bool then 1 / 2 else 0).
Proof.
  exact (fun nfp mpol ntor ntheta nzeta mg ng s MK b0 mf nf T H1 H2 H3 greenp gstore ssin scos grp0 gst0 K Ss Sc order share hc m n m' n' =>
    sine_rows true nfp mpol ntor ntheta nzeta mg ng s MK b0 mf nf T H1 H2 H3 greenp gstore ssin scos grp0 gst0 K Ss Sc order share hc m n m' n' eq_refl).
Qed.
Print Assumptions C87_sine_rows_partial.

(** ... which is the whole integral when the data are stellarator-symmetric ... *)
Theorem C87_sine_rows_symmetric_partial :
  forall nfp mpol ntor ntheta nzeta mg ng s,
  make_sizes true nfp mpol ntor ntheta nzeta mg ng = Some s ->
  forall K Ss m n m' n',
  let nT := sz_nThetaEven s in
  let nz := sz_nZeta s in
  (forall kl klp, (0 <= kl < nT * nz)%Z -> (0 <= klp < nT * nz)%Z -> K (partner nT nz kl) (partner nT nz klp) = K kl klp) ->
  (forall klp, (0 <= klp < nT * nz)%Z -> Ss m n (partner nT nz klp) = - Ss m n klp) ->
  galerkin sin sin nT nz nfp (wred s) (sz_nThetaReduced s * nz) K Ss m n m' n' =
  galerkin sin sin nT nz nfp (sz_wInt s) (sz_nZnT s) K Ss m n m' n'.
Proof.
  exact (fun nfp mpol ntor ntheta nzeta mg ng s MK K Ss m n m' n' => half_symmetric true nfp mpol ntor ntheta nzeta mg ng s MK K Ss m n m' n' eq_refl).
Qed.
Print Assumptions C87_sine_rows_symmetric_partial.

(** ... and wrong otherwise: a kernel seen from the other half is lost. *)
Theorem C87_sine_rows_refuted : exists s, make_sizes true 1 1 0 0 0 0 0 = Some s /\
  let lo t := fst (tangential_range (sz_nZnT s) 1 t) in
  let hi t := snd (tangential_range (sz_nZnT s) 1 t) in
  exists g K, holds_kernel lo hi 1 (sz_nThetaEven s * sz_nZeta s) g K /\ holds_modes lo hi 1 1 0 (fun _ _ => 0) (fun _ _ _ => 0) /\
  forall b0 share,
  build_matrix s 1 0 (map (fun t => thread_part s (vtab s b0) 1 0 (lo t) (hi t) (g t) (fun _ => 0) (fun _ => 0) (fun _ => 0)
     ((fun _ => 0), (fun _ => 0)) ((fun _ => 0), (fun _ => 0))) (zrange 0 1)) share (mode_at 1 0 1 0 + mode_at 1 0 1 0 * 4)%Z <>
  galerkin sin sin (sz_nThetaEven s) (sz_nZeta s) 1 (sz_wInt s) (sz_nZnT s) K (fun _ _ _ => 0) 1 0 1 0 + 1 / 2.
Proof. exact sine_rows_wrong. Qed.
Print Assumptions C87_sine_rows_refuted.

(** A symmetric kernel on the grid of 8 points. *)
Example C87_case :
  let K kl klp := if (kl =? klp)%Z then 1 else 0 in
  forall kl klp, (0 <= kl < 8 * 1)%Z -> (0 <= klp < 8 * 1)%Z -> K (partner 8 1 kl) (partner 8 1 klp) = K kl klp.
Proof. exact partner_case. Qed.
