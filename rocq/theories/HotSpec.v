(** Specification of geometries held by a team of threads, and of what an output
    file says about them. *)
From Coq Require Import ZArith List Bool Reals.
From Verif Require Import SumLemmas FourierSpec PartModel HotModel.
Open Scope R_scope.

(** The coefficient X c j m n of surface j: array c, poloidal mode m, toroidal
    mode n. *)
Definition field := comp -> Z -> Z -> Z -> R.

(** Basis function of array c at mode (m, n) is not identically zero. *)
Definition contributes (c : comp) (m n : Z) : bool :=
  match c with
  | Rcc | Zcc | Lcc => true
  | Rsc | Zsc | Lsc => negb (m =? 0)%Z
  | Rcs | Zcs | Lcs => negb (n =? 0)%Z
  | Rss | Zss | Lss => negb (m =? 0)%Z && negb (n =? 0)%Z
  end.

(** Arrays of lambda; arrays of the stellarator-symmetric part. *)
Definition is_lambda (c : comp) : bool := match c with Lsc | Lcs | Lcc | Lss => true | _ => false end.
Definition is_sym (c : comp) : bool := match c with Rcc | Rss | Zsc | Zcs | Lsc | Lcs => true | _ => false end.

Section Spec.
Variables (lasym lthreed : bool) (mpol ntor ns : Z).

(** The local arrays of a thread with partition r agree with X on its surfaces. *)
Definition holds_local (r : rpart) (g : geo) (X : field) : Prop :=
  forall c j m n, (nsMinF1 r <= j < nsMaxF1 r)%Z -> (0 <= m < mpol)%Z -> (0 <= n <= ntor)%Z ->
    has lasym lthreed c = true -> g c (((j - nsMinF1 r) * mpol + m) * (ntor + 1) + n)%Z = X c j m n.

(** A team of T threads, each with the partition of its number, storing X and the
    profile phip. *)
Definition team (lfreeb : bool) (X : field) (phip : Z -> R) (ths : list (rpart * (geo * (Z -> R)))) : Prop :=
  let T := Z.of_nat (length ths) in
  (1 <= T <= ns / 2)%Z /\
  forall t r g p, nth_error ths t = Some (r, (g, p)) ->
    adjustRadialPartitioning T (Z.of_nat t) ns lfreeb = Some r /\
    holds_local r g X /\
    forall j, (nsMinF1 r <= j < nsMaxF1 r)%Z -> p (j - nsMinF1 r)%Z = phip j.

(** Coefficients of the actual surfaces: the internal m = 1 coefficients are
    sums and differences. *)
Definition physical (X : field) : field := fun c j m n =>
  if (m =? 1)%Z then
    match c with
    | Rss => if lthreed then X Rss j m n + X Zcs j m n else X Rss j m n
    | Zcs => if lthreed then X Rss j m n - X Zcs j m n else X Zcs j m n
    | Rsc => if lasym then X Rsc j m n + X Zcc j m n else X Rsc j m n
    | Zcc => if lasym then X Rsc j m n - X Zcc j m n else X Zcc j m n
    | _ => X c j m n
    end
  else X c j m n.

(** sum over modes with normalised basis functions t1(m theta) t2(n zeta). *)
Definition surf_series (t1 t2 : R -> R) (X : Z -> Z -> R) (th ze : R) : R :=
  zsum 0 mpol (fun m => zsum 0 (ntor + 1) (fun n =>
    X m n * (s2 m * s2 n * (t1 (IZR m * th) * t2 (IZR n * ze))))).
Definition R_of (X : field) (j : Z) (th ze : R) : R :=
  surf_series cos cos (X Rcc j) th ze + (if lthreed then surf_series sin sin (X Rss j) th ze else 0)
  + (if lasym then surf_series sin cos (X Rsc j) th ze + (if lthreed then surf_series cos sin (X Rcs j) th ze else 0) else 0).
Definition Z_of (X : field) (j : Z) (th ze : R) : R :=
  surf_series sin cos (X Zsc j) th ze + (if lthreed then surf_series cos sin (X Zcs j) th ze else 0)
  + (if lasym then surf_series cos cos (X Zcc j) th ze + (if lthreed then surf_series sin sin (X Zss j) th ze else 0) else 0).
Definition L_of (X : field) (j : Z) (th ze : R) : R :=
  surf_series sin cos (X Lsc j) th ze + (if lthreed then surf_series cos sin (X Lcs j) th ze else 0)
  + (if lasym then surf_series cos cos (X Lcc j) th ze + (if lthreed then surf_series sin sin (X Lss j) th ze else 0) else 0).

(** The functions of the angles that column j of the output describes:
    cos/sin part (rmnc, zmns, lmns) and, if present, sin/cos part. *)
Definition R_out (w : wmat * option wmat) (j : Z) (th ze : R) : R :=
  combined_series cos mpol ntor (fun k => w1 (fst w) k j) th ze +
  match snd w with Some a => combined_series sin mpol ntor (fun k => w1 a k j) th ze | None => 0 end.
Definition Z_out (w : wmat * option wmat) (j : Z) (th ze : R) : R :=
  combined_series sin mpol ntor (fun k => w2 (fst w) k j) th ze +
  match snd w with Some a => combined_series cos mpol ntor (fun k => w2 a k j) th ze | None => 0 end.
Definition L_out (w : wmat * option wmat) (j : Z) (th ze : R) : R :=
  combined_series sin mpol ntor (fun k => w3 (fst w) k j) th ze +
  match snd w with Some a => combined_series cos mpol ntor (fun k => w3 a k j) th ze | None => 0 end.

(** What is kept of a field on the magnetic axis: no m > 0, n <> 0 terms. *)
Definition axis_part (X : field) : field := fun c j m n =>
  if negb (m =? 0)%Z && negb (n =? 0)%Z then 0 else X c j m n.
End Spec.

(** The exported lambda on the axis: its m = 0 part is extrapolated linearly from
    the next two surfaces. *)
Definition axis_lambda (X : field) : field := fun c j m n =>
  match c with
  | Lcs => if (m =? 0)%Z then 2 * X Lcs 1%Z m n - X Lcs 2%Z m n else axis_part X c j m n
  | _ => axis_part X c j m n
  end.
