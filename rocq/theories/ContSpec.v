(** What a change of resolution should do to a solution. *)
From Coq Require Import String ZArith List Bool Reals.
From Verif Require Import Base Num IndataModel IndataSpec ContModel MgSpec.
Import ListNotations.
Open Scope Z_scope.

(** The Fourier modes (m, n nfp) of a solution with the given resolution. *)
Definition is_mode (mpol ntor nfp : Z) (mn : Z * Z) : Prop :=
  0 <= fst mn < mpol /\ exists n, snd mn = n * nfp /\ - ntor <= n <= ntor /\ (fst mn = 0 -> 0 <= n).
(** Order of the modes: by m, then by n. *)
Definition before (a b : Z * Z) : Prop := fst a < fst b \/ (fst a = fst b /\ snd a < snd b).
Definition in_order (l : list (Z * Z)) : Prop := forall i j a b, (i < j)%nat -> nth_error l i = Some a -> nth_error l j = Some b -> before a b.

Section Spec.
  Context {K : num}.

  (** The radial profile of one mode. *)
  Definition profile (modes : list (Z * Z)) (v : mat K) (mn : Z * Z) (row : list K) : Prop :=
    exists i, nth_error modes i = Some mn /\ nth_error (m_body v) i = Some row.

  (** A complete solution. *)
  Record complete (w : wout K) : Prop := {
    c_nfp : 0 < w_nfp w;
    c_mpol : 0 <= w_mpol w;
    c_ntor : 0 <= w_ntor w;
    c_ns : 2 <= w_ns w;
    c_modes : forall mn, In mn (w_modes w) <-> is_mode (w_mpol w) (w_ntor w) (w_nfp w) mn;
    c_order : in_order (w_modes w);
    c_mnmax : w_mnmax w = Z.of_nat (length (w_modes w));
    c_geometry : forall name v, In (name, Some v) (w_geometry w) -> shaped v (w_mnmax w) (w_ns w);
    c_axis : forall name a, In (name, Some a) (w_axis w) -> Z.of_nat (length a) = w_ntor w + 1;
    c_arrays : forall name v, In (name, A2 v) (w_arrays w) -> shaped v (m_rows v) (m_cols v) }.

  (** Two lists of optional fields with related values. *)
  Definition fields_related {A} (P : A -> A -> Prop) (l l' : list (string * option A)) : Prop :=
    Forall2 (fun p q => fst p = fst q /\ match snd p, snd q with None, None => True | Some a, Some b => P a b | _, _ => False end) l l'.

  (** [v'] has the modes of the new resolution; a mode of both resolutions has a
      profile related to its old one, a new mode is zero on every surface. *)
  Definition remapped (P : Z -> list K -> list K -> Prop) (w w' : wout K) (v v' : mat K) : Prop :=
    shaped v' (w_mnmax w') (w_ns w') /\
    forall mn row', profile (w_modes w') v' mn row' ->
      (forall row, profile (w_modes w) v mn row -> P (fst mn) row row') /\
      (~ In mn (w_modes w) -> row' = repeat (nZ 0) (length row')).

  (** Axis arrays are cut or padded with zeros. *)
  Definition axis_remapped (ntor' : Z) (a a' : list K) : Prop :=
    Z.of_nat (length a') = ntor' + 1 /\
    forall n, 0 <= n <= ntor' -> nth (Z.to_nat n) a' (nZ 0) = nth (Z.to_nat n) a (nZ 0).

  (** Resolution and modes of the result. *)
  Definition at_resolution (w w' : wout K) (ns mpol ntor : Z) : Prop :=
    w_nfp w' = w_nfp w /\ w_ns w' = ns /\ w_mpol w' = mpol /\ w_ntor w' = ntor /\
    (forall mn, In mn (w_modes w') <-> is_mode mpol ntor (w_nfp w) mn) /\ in_order (w_modes w') /\
    w_mnmax w' = Z.of_nat (length (w_modes w')).
End Spec.

(** Exact arithmetic: one radial profile taken from [ns] to [ns'] surfaces. *)
Definition at_surface (row : list R) (j : Z) : R := nth (Z.to_nat j) row 0%R.
Record profile_kept (ns ns' : Z) (m : Z) (row row' : list R) : Prop := {
  k_length : Z.of_nat (length row') = ns';
  k_boundary : at_surface row' (ns' - 1) = at_surface row (ns - 1);
  k_coincide : forall i j, 0 <= i < ns -> 0 <= j < ns' -> pos ns' j = pos ns i -> (Z.even m = true \/ 0 < i) -> at_surface row' j = at_surface row i;
  k_axis : Z.odd m = true -> at_surface row 0 = 0%R -> at_surface row' 0 = 0%R;
  k_between : Z.even m = true -> forall lo hi, (forall i, 0 <= i < ns -> (lo <= at_surface row i <= hi)%R) ->
    forall j, 0 <= j < ns' -> (lo <= at_surface row' j <= hi)%R }.

(** *** The continuation driver. *)
Section Schedule.
  Context {K : num} {Rest Out : Type}.
  Context (run : input K Rest -> option Out -> outcome Out) (interp : Out -> input K Rest -> outcome Out).

  (** Resolution of step [i]. *)
  Definition scheduled (r : resolution) (i : nat) : Z := match r with Scalar z => z | Schedule l => nth i l 0 end.
  Definition fits (r : resolution) (n : nat) : Prop := match r with Scalar z => 0 <= z | Schedule l => length l = n /\ forall z, In z l -> 0 <= z end.

  (** An input with boundary arrays of resolution (mp, nt). *)
  Record schedulable (b : input K Rest) (mp nt : Z) : Prop := {
    s_mp : 0 <= mp; s_nt : 0 <= nt;
    s_mpol : fits (i_mpol b) (length (i_ns b));
    s_ntor : fits (i_ntor b) (length (i_ns b));
    s_boundary : forall name c, In (name, Some c) (i_boundary b) -> shaped c mp (2 * nt + 1) }.

  (** The problem solved in step [i]: its own grid, tolerance, limit and
      resolution, the boundary and axis cut or padded to it, everything else unchanged. *)
  Definition problem (b : input K Rest) (mp nt : Z) (i : nat) (s : input K Rest) : Prop :=
    let m := scheduled (i_mpol b) i in let n := scheduled (i_ntor b) i in
    (exists ns, nth_error (i_ns b) i = Some ns /\ i_ns s = [ns]) /\
    (exists ft, nth_error (i_ftol b) i = Some ft /\ i_ftol s = [ft]) /\
    (exists ni, nth_error (i_niter b) i = Some ni /\ i_niter s = [ni]) /\
    i_mpol s = Scalar m /\ i_ntor s = Scalar n /\ i_rest s = i_rest b /\
    fields_related (resized mp nt m n) (i_boundary b) (i_boundary s) /\
    fields_related (axis_remapped n) (i_axis b) (i_axis s).

  (** The starting point of step [i]: the result of the step before, brought to
      the resolution of step [i]; [start] before the first step. *)
  Definition started_from (previous : option Out) (s : input K Rest) (g : option Out) : Prop :=
    match previous with None => g = None | Some o => exists o', interp o s = Ok o' /\ g = Some o' end.

  (** A run of the steps [i], [i+1], ...: each one starts from the result of the one before;
      [result] is the result of the last one, [Some] outcome if it stopped early. *)
  Inductive chain (b : input K Rest) (mp nt : Z) : nat -> option Out -> list (input K Rest * option Out) -> option Out -> Prop :=
  | chain_nil i o : chain b mp nt i o [] o
  | chain_cons i o s g o' calls r :
      problem b mp nt i s -> started_from o s g -> run s g = Ok o' -> chain b mp nt (S i) (Some o') calls r ->
      chain b mp nt i o ((s, g) :: calls) r.
End Schedule.
