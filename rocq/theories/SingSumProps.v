(** C83: the singular part of the vacuum problem, projected on the Fourier basis. *)
From Coq Require Import ZArith Reals Bool Lia Lra.
From Verif Require Import Base SumLemmas SizesModel FourierModel DftTables VacTables PartModel
  SingSumModel SingSumSpec SingSumFinal.
Open Scope R_scope.

(** The source terms of all threads together are the Fourier integrals over the
    whole grid, whatever the number of threads and whatever the arrays held. *)
Theorem C83_source_terms :
  forall lasym nfp mpol ntor ntheta nzeta mg ng s b0 mf nf fullUpdate cmns gTp gTm gSp gSm gb st T n m,
  make_sizes lasym nfp mpol ntor ntheta nzeta mg ng = Some s ->
  (0 <= mf <= mpol + 1)%Z -> (0 <= nf <= ntor)%Z -> (1 <= T)%Z ->
  (- nf <= n <= nf)%Z -> (0 <= m <= mf)%Z ->
  let lo t := fst (tangential_range (sz_nZnT s) T t) in
  let hi t := snd (tangential_range (sz_nZnT s) T t) in
  let part (X : Z -> Z -> R) t := fun l i => X l (lo t + i)%Z in
  let res t := perform_update mf nf (sz_nZeta s) (sz_nThetaReduced s) (sz_nThetaEven s) (sz_mnyq2 s) (lo t) (hi t) lasym fullUpdate
     (vtab s b0) (sz_wInt s) cmns (part gTp t) (part gTm t) (part gSp t) (part gSm t) (fun i => gb (lo t + i)%Z) (st t) in
  let C l n m := cmns ((l * (nf + 1) + n) * (mf + 1) + m)%Z in
  zsum 0 T (fun t => s_bs (res t) ((nf + n) * (mf + 1) + m)%Z) =
    mode_source sin (sz_nThetaEven s) (sz_nZeta s) (mf + nf) C (sz_wInt s) gb gTp gTm 0 (sz_nZnT s) m n /\
  (lasym = true -> zsum 0 T (fun t => s_bc (res t) ((nf + n) * (mf + 1) + m)%Z) =
    mode_source cos (sz_nThetaEven s) (sz_nZeta s) (mf + nf) C (sz_wInt s) gb gTp gTm 0 (sz_nZnT s) m n).
Proof. exact source_threads_sizes. Qed.
Print Assumptions C83_source_terms.

(** The kernel of every mode at every grid point of a thread, on a full update. *)
Theorem C83_kernel_terms :
  forall lasym nfp mpol ntor ntheta nzeta mg ng s b0 mf nf ztMin ztMax cmns Tlp Tlm Slp Slm bDotN st n m kl,
  make_sizes lasym nfp mpol ntor ntheta nzeta mg ng = Some s ->
  (0 <= mf <= mpol + 1)%Z -> (0 <= nf <= ntor)%Z -> (0 <= ztMin <= ztMax)%Z -> (ztMax <= sz_nZnT s)%Z ->
  (- nf <= n <= nf)%Z -> (0 <= m <= mf)%Z -> (ztMin <= kl < ztMax)%Z ->
  let res := perform_update mf nf (sz_nZeta s) (sz_nThetaReduced s) (sz_nThetaEven s) (sz_mnyq2 s) ztMin ztMax lasym true
     (vtab s b0) (sz_wInt s) cmns Tlp Tlm Slp Slm bDotN st in
  let C l n m := cmns ((l * (nf + 1) + n) * (mf + 1) + m)%Z in
  let glob (X : Z -> Z -> R) l kl := X l (kl - ztMin)%Z in
  let j := (((nf + n) * (mf + 1) + m) * (ztMax - ztMin) + (kl - ztMin))%Z in
  s_gs res j = mode_kernel sin (sz_nThetaEven s) (sz_nZeta s) (mf + nf) C (glob Slp) (glob Slm) kl m n /\
  (lasym = true ->
   s_gc res j = mode_kernel cos (sz_nThetaEven s) (sz_nZeta s) (mf + nf) C (glob Slp) (glob Slm) kl m n).
Proof. exact kernel_terms_sizes. Qed.
Print Assumptions C83_kernel_terms.

(** A partial update keeps the kernels of the last full one; without the
    asymmetric terms the cosine arrays are not touched. *)
Theorem C83_kept :
  forall lasym nfp mpol ntor ntheta nzeta mg ng s b0 mf nf ztMin ztMax fullUpdate cmns Tlp Tlm Slp Slm bDotN st j,
  make_sizes lasym nfp mpol ntor ntheta nzeta mg ng = Some s -> (0 <= ztMin <= ztMax)%Z ->
  let res := perform_update mf nf (sz_nZeta s) (sz_nThetaReduced s) (sz_nThetaEven s) (sz_mnyq2 s) ztMin ztMax lasym fullUpdate
     (vtab s b0) (sz_wInt s) cmns Tlp Tlm Slp Slm bDotN st in
  (fullUpdate = false -> s_gs res j = s_gs st j /\ s_gc res j = s_gc st j) /\
  (lasym = false -> s_bc res j = s_bc st j /\ s_gc res j = s_gc st j).
Proof. exact unchanged_sizes. Qed.
Print Assumptions C83_kept.

(** An asymmetric three-dimensional case shared by three threads, with a range
    that ends inside a poloidal row. *)
Example C83_case : exists s, make_sizes true 5 4 3 0 0 0 0 = Some s /\ sz_nZnT s = 140%Z /\ sz_nZeta s = 10%Z /\
  tangential_range (sz_nZnT s) 3 1 = (47, 94)%Z.
Proof. exact sizes_case. Qed.
