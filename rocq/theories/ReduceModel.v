(** Volume sums and force residuals: the per-thread partial sums and the
    accumulation of the partial sums by the thread team.
    The partial sums are written over an arbitrary carrier [A] with addition
    [add] and zero [zero], so that they can be read over the reals and over IEEE
    doubles. Thread-local arrays are functions of the global radial index; a
    read outside the thread's range is excluded by the theorems' hypotheses,
    which fix the contents only inside the range. *)
From Coq Require Import ZArith List Bool.
From Verif Require Import Base PartModel OmpModel.
Import ListNotations.
Open Scope Z_scope.

Section Sums.
  Context {A : Type} (add : A -> A -> A) (zero : A).

  (** Loop over the half-grid points of one thread, adding [g jH] on the points
      the thread accounts for. ideal_mhd_model.cc:1714-1725 (computeInitialVolume),
      1744-1755 (updateVolume), 1906-1921 (thermal energy). *)
  Definition local_half_sum (r : rpart) (ns : Z) (g : Z -> A) : A :=
    for_up (nsMinH r) (nsMaxH r)
      (fun jH acc => if counts_half r ns jH then add acc (g jH) else acc) zero.

  (** Same with an inner loop over the surface grid, one accumulator for both
      loops. ideal_mhd_model.cc:1938-1950 (magnetic energy), 2071-2091 (force
      norms; there the guard is evaluated inside the inner loop, with the same
      effect because it does not depend on [kl]). *)
  Definition local_half_surf_sum (r : rpart) (ns nZnT : Z) (g : Z -> Z -> A) : A :=
    for_up (nsMinH r) (nsMaxH r)
      (fun jH acc => if counts_half r ns jH
                     then for_up 0 nZnT (fun kl a => add a (g jH kl)) acc
                     else acc) zero.

  (** Sum over the owned full-grid surfaces including the boundary:
      FourierCoeffs::rzNorm as called in ideal_mhd_model.cc:2097-2098 and the
      lambda part of FourierForces::residuals, fourier_forces.cc:104-160.
      [g jF i] enumerates the squared coefficients of surface [jF] in the order
      of the inner loops ([ncoef] of them). *)
  Definition local_full_sum (r : rpart) (ncoef : Z) (g : Z -> Z -> A) : A :=
    for_up (nsMinF r) (nsMaxFIncludingLcfs r)
      (fun jF acc => for_up 0 ncoef (fun i a => add a (g jF i)) acc) zero.

  (** R and Z part of FourierForces::residuals, fourier_forces.cc:104-160. *)
  Definition local_rz_residual (r : rpart) (ns : Z) (includeEdge : bool) (ncoef : Z)
      (g : Z -> Z -> A) : A :=
    let jMaxRZ0 := Z.min (nsMaxF r) (ns - 1) in
    let jMaxRZ := if includeEdge && (nsMaxF1 r =? ns) then ns else jMaxRZ0 in
    let jMaxIncludeBoundary := if nsMaxF1 r =? ns then ns else nsMaxF r in
    for_up (nsMinF r) jMaxIncludeBoundary
      (fun jF acc => if jF <? jMaxRZ
                     then for_up 0 ncoef (fun i a => add a (g jF i)) acc
                     else acc) zero.

  (** The team's accumulation of the partial sums [part t]: reset by [single],
      added under [critical], post-processed by [single] ([fin]).
      evalFResInvar / evalFResPrecd (ideal_mhd_model.cc:488-561) have barrier
      counts (1,1,1); pressureAndEnergies (1962-1990) and computeForceNorms
      (2099-2133) have (2,1,2); computeInitialVolume and updateVolume
      (1729-1772) have (2,1,0) and no post-processing, modelled by an identity
      [fin]. *)
  Definition accumulate (part : Z -> A) (fin : A -> A) (a b c : nat) : list (instr A) :=
    reduce_prog (fun _ => zero) (fun t s => add s (part t)) fin a b c.
End Sums.
