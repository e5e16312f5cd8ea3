(** What the linear system of the vacuum problem should be: the Galerkin system
    of the integral equation on the whole grid. Grid points and phases are those
    of SingSumSpec. *)
From Coq Require Import ZArith Reals Bool.
From Verif Require Import SumLemmas SingSumSpec.
Open Scope R_scope.

(** Fourier component of a function on the whole boundary grid. *)
Definition field_mode (trig : R -> R) (nTheta nZeta : Z) (f : Z -> R) (m n : Z) : R :=
  zsum 0 (nTheta * nZeta) (fun kl => f kl * trig (mode_phase nTheta nZeta m n kl)) / (IZR nTheta * IZR nZeta).

(** Field component (m, n) of the kernel at the source point klp: regular part
    [K field source] on the grid, singular part [Sg m n source] in mode space,
    given for one field period. *)
Definition system_kernel (trig : R -> R) (nTheta nZeta nfp : Z) (K : Z -> Z -> R) (Sg : Z -> Z -> Z -> R)
  (m n klp : Z) : R :=
  field_mode trig nTheta nZeta (fun kl => K kl klp) m n + Sg m n klp / IZR nfp.

(** Integration over the source points with weights [w] per poloidal index. *)
Definition galerkin (trig trig' : R -> R) (nTheta nZeta nfp : Z) (w : Z -> R) (N : Z) (K : Z -> Z -> R)
  (Sg : Z -> Z -> Z -> R) (m n m' n' : Z) : R :=
  zsum 0 N (fun klp => w (klp / nZeta)%Z * system_kernel trig nTheta nZeta nfp K Sg m n klp
                       * trig' (mode_phase nTheta nZeta m' n' klp)).

(** Position of the mode (m, n) among the (mf + 1)(2 nf + 1) modes. *)
Definition mode_at (mf nf m n : Z) : Z := ((nf + n) * (mf + 1) + m)%Z.
(** The redundant modes. *)
Definition redundant (m n : Z) : bool := ((m =? 0) && (n <? 0))%Z%bool.

(** Thread t holds, for the source points of its range [lo t, hi t), the kernel
    at all P field points, and the singular parts of all modes. *)
Definition holds_kernel (lo hi : Z -> Z) (T P : Z) (a : Z -> Z -> R) (K : Z -> Z -> R) : Prop :=
  forall t klp kl, (0 <= t < T)%Z -> (lo t <= klp < hi t)%Z -> (0 <= kl < P)%Z ->
  a t ((klp - lo t) * P + kl)%Z = K kl klp.
Definition holds_modes (lo hi : Z -> Z) (T mf nf : Z) (a : Z -> Z -> R) (Sg : Z -> Z -> Z -> R) : Prop :=
  forall t m n klp, (0 <= t < T)%Z -> (0 <= m <= mf)%Z -> (- nf <= n <= nf)%Z -> (lo t <= klp < hi t)%Z ->
  a t (mode_at mf nf m n * (hi t - lo t) + (klp - lo t))%Z = Sg m n klp.

(** The stellarator-symmetric partner of a grid point. *)
Definition partner (nTheta nZeta kl : Z) : Z :=
  (((nTheta - kl / nZeta) mod nTheta) * nZeta + (nZeta - kl mod nZeta) mod nZeta)%Z.

(** The discrete integral equation: redundant modes vanish, the others satisfy
    phi / 2 + A phi = b. *)
Definition solves (mf nf : Z) (A : Z -> Z -> Z -> Z -> R) (b : Z -> Z -> R) (phi : Z -> Z -> R) : Prop :=
  forall m n, (0 <= m <= mf)%Z -> (- nf <= n <= nf)%Z ->
  if redundant m n then phi m n = 0
  else phi m n / 2 + zsum (- nf) (nf + 1) (fun n' => zsum 0 (mf + 1) (fun m' => A m n m' n' * phi m' n')) = b m n.
