(** C49, C79: exported geometry and hot restart. *)
From Coq Require Import ZArith List Bool Reals Lra Lia.
From Verif Require Import FourierModel FourierSpec BoundaryModel PartModel HotModel HotSpec HotProofs HotExport HotRead HotRound.
Import ListNotations.
Open Scope R_scope.

(** C79: on every surface but the axis, the functions of the two angles described
    by the output coefficients are the R and Z of the converged state; the exported
    lambda is the internal one times lamscale / phip. *)
Theorem C79_surfaces :
  forall (lasym lthreed : bool) (mpol ntor ns : Z), (2 <= mpol)%Z -> (0 <= ntor)%Z -> (3 <= ns)%Z ->
  forall lfreeb X phip ths lamscale, team lasym lthreed mpol ntor ns lfreeb X phip ths ->
  let out := export lasym lthreed mpol ntor ns lamscale (gather lasym lthreed mpol ntor ths) in
  let P := physical lasym lthreed X in
  forall j th ze, (1 <= j < ns)%Z ->
    R_out mpol ntor out j th ze = R_of lasym lthreed mpol ntor P j th ze /\
    Z_out mpol ntor out j th ze = Z_of lasym lthreed mpol ntor P j th ze /\
    (phip j <> 0 -> phip j * L_out mpol ntor out j th ze = lamscale * L_of lasym lthreed mpol ntor X j th ze).
Proof.
  intros lasym lthreed mpol ntor ns Hm Hn Hs lfreeb X phip ths lam HT out P j th ze J.
  destruct (export_surfaces lasym lthreed mpol ntor ns Hm Hn Hs lfreeb X phip ths lam HT j th ze ltac:(lia)) as (A & B & C).
  unfold kept, keptL in A, B, C. destruct (Z.eqb_spec j 0); [lia|]. split; [exact A|]. split; [exact B|].
  intros PH. change (L_out mpol ntor out j th ze = L_of lasym lthreed mpol ntor X j th ze / phip j * lam) in C. rewrite C. field. exact PH.
Qed.
Print Assumptions C79_surfaces.

(** C79: on the axis, the terms with m > 0, n <> 0 are left out, and the m = 0 part
    of lambda is extrapolated. *)
Theorem C79_axis :
  forall (lasym lthreed : bool) (mpol ntor ns : Z), (2 <= mpol)%Z -> (0 <= ntor)%Z -> (3 <= ns)%Z ->
  forall lfreeb X phip ths lamscale, team lasym lthreed mpol ntor ns lfreeb X phip ths ->
  let out := export lasym lthreed mpol ntor ns lamscale (gather lasym lthreed mpol ntor ths) in
  let P := axis_part (physical lasym lthreed X) in
  forall th ze,
    R_out mpol ntor out 0 th ze = R_of lasym lthreed mpol ntor P 0 th ze /\
    Z_out mpol ntor out 0 th ze = Z_of lasym lthreed mpol ntor P 0 th ze /\
    (phip 0%Z <> 0 -> phip 0%Z * L_out mpol ntor out 0 th ze = lamscale * L_of lasym lthreed mpol ntor (axis_lambda X) 0 th ze).
Proof.
  intros lasym lthreed mpol ntor ns Hm Hn Hs lfreeb X phip ths lam HT out P th ze.
  destruct (export_surfaces lasym lthreed mpol ntor ns Hm Hn Hs lfreeb X phip ths lam HT 0%Z th ze ltac:(lia)) as (A & B & C).
  split; [exact A|]. split; [exact B|].
  intros PH. change (L_out mpol ntor out 0 th ze = L_of lasym lthreed mpol ntor (axis_lambda X) 0 th ze / phip 0%Z * lam) in C. rewrite C. field. exact PH.
Qed.
Print Assumptions C79_axis.

(** C49: stellarator-symmetric coefficients.  A restart at the same resolution, with
    any number of threads, finds on every surface between axis and boundary the
    coefficients that were exported (a coefficient whose basis function vanishes
    identically becomes 0); lambda also on the boundary, R and Z also on the
    boundary when the run is free-boundary. *)
Theorem C49_inner_partial :
  forall (lasym lthreed : bool) (mpol ntor ns : Z), (2 <= mpol)%Z -> (0 <= ntor)%Z -> (3 <= ns)%Z ->
  forall lfreeb X phip ths lamscale, team lasym lthreed mpol ntor ns lfreeb X phip ths ->
    lamscale <> 0 -> (forall j, (0 <= j < ns)%Z -> phip j <> 0) ->
  let out := fst (export lasym lthreed mpol ntor ns lamscale (gather lasym lthreed mpol ntor ths)) in
  forall lfreeb' T t r p b, (1 <= T <= ns / 2)%Z -> (0 <= t < T)%Z -> adjustRadialPartitioning T t ns lfreeb' = Some r ->
    (forall j, (nsMinF1 r <= j < nsMaxF1 r)%Z -> p (j - nsMinF1 r)%Z = phip j) ->
  let g := init_from_state lasym lthreed mpol ntor ns (nsMinF1 r) (nsMaxF1 r) (nsMinF1 r) lamscale p (w1 out) (w2 out) (w3 out)
             b (nsMaxF1 r =? ns)%Z (fun _ _ => 0) in
  forall c j m n, (nsMinF1 r <= j < nsMaxF1 r)%Z -> (1 <= j)%Z -> (0 <= m < mpol)%Z -> (0 <= n <= ntor)%Z ->
    is_sym c = true -> has lasym lthreed c = true -> (is_lambda c = true \/ b = None \/ (j < ns - 1)%Z) ->
    g c (((j - nsMinF1 r) * mpol + m) * (ntor + 1) + n)%Z = if contributes c m n then X c j m n else 0.
Proof. intros. eapply restart_inner; eauto. Qed.
Print Assumptions C49_inner_partial.

(** C49: on the axis, exactly the terms with m > 0 and n > 0 and the m = 0 part of
    lambda are dropped. *)
Theorem C49_axis_partial :
  forall (lasym lthreed : bool) (mpol ntor ns : Z), (2 <= mpol)%Z -> (0 <= ntor)%Z -> (3 <= ns)%Z ->
  forall lfreeb X phip ths lamscale, team lasym lthreed mpol ntor ns lfreeb X phip ths ->
    lamscale <> 0 -> (forall j, (0 <= j < ns)%Z -> phip j <> 0) ->
  let out := fst (export lasym lthreed mpol ntor ns lamscale (gather lasym lthreed mpol ntor ths)) in
  forall lfreeb' T t r p b, (1 <= T <= ns / 2)%Z -> (0 <= t < T)%Z -> adjustRadialPartitioning T t ns lfreeb' = Some r ->
    (forall j, (nsMinF1 r <= j < nsMaxF1 r)%Z -> p (j - nsMinF1 r)%Z = phip j) -> nsMinF1 r = 0%Z ->
  let g := init_from_state lasym lthreed mpol ntor ns (nsMinF1 r) (nsMaxF1 r) (nsMinF1 r) lamscale p (w1 out) (w2 out) (w3 out)
             b (nsMaxF1 r =? ns)%Z (fun _ _ => 0) in
  forall c m n, (0 <= m < mpol)%Z -> (0 <= n <= ntor)%Z -> is_sym c = true -> has lasym lthreed c = true ->
    g c (((0 - nsMinF1 r) * mpol + m) * (ntor + 1) + n)%Z =
      if contributes c m n && ((m =? 0) || (n =? 0))%Z && negb (is_lambda c && (m =? 0)%Z) then X c 0%Z m n else 0.
Proof. intros. eapply restart_axis; eauto. Qed.
Print Assumptions C49_axis_partial.

(** C49: in fixed-boundary mode the boundary is the one of the new input, whatever
    the old run had there. *)
Theorem C49_boundary_partial :
  forall (lasym lthreed : bool) (mpol ntor ns : Z), (2 <= mpol)%Z -> (0 <= ntor)%Z -> (3 <= ns)%Z ->
  forall lfreeb X phip ths lamscale, team lasym lthreed mpol ntor ns lfreeb X phip ths ->
    lamscale <> 0 -> (forall j, (0 <= j < ns)%Z -> phip j <> 0) ->
  let out := fst (export lasym lthreed mpol ntor ns lamscale (gather lasym lthreed mpol ntor ths)) in
  forall lfreeb' T t r p bd, (1 <= T <= ns / 2)%Z -> (0 <= t < T)%Z -> adjustRadialPartitioning T t ns lfreeb' = Some r ->
    (forall j, (nsMinF1 r <= j < nsMaxF1 r)%Z -> p (j - nsMinF1 r)%Z = phip j) -> nsMaxF1 r = ns ->
  let g := init_from_state lasym lthreed mpol ntor ns (nsMinF1 r) (nsMaxF1 r) (nsMinF1 r) lamscale p (w1 out) (w2 out) (w3 out)
             (Some bd) (nsMaxF1 r =? ns)%Z (fun _ _ => 0) in
  forall m n, (0 <= m < mpol)%Z -> (0 <= n <= ntor)%Z ->
    let new c := g c (((ns - 1 - nsMinF1 r) * mpol + m) * (ntor + 1) + n)%Z in
    let given f := f bd (m * (ntor + 1) + n)%Z / (s2 m * s2 n) in
    new Rcc = given rbcc /\ new Zsc = given zbsc /\ (lthreed = true -> new Rss = given rbss /\ new Zcs = given zbcs).
Proof.
  intros lasym lthreed mpol ntor ns Hm Hn Hs lfreeb X phip ths lam HT Hl Hph out lfreeb' T t r p bd HTT Htt Hr Hp RM g m n M N new given.
  assert (K : forall c, has lasym lthreed c = true -> match c with
    | Rcc => new Rcc = given rbcc | Zsc => new Zsc = given zbsc | Rss => new Rss = given rbss | Zcs => new Zcs = given zbcs | _ => True end).
  { intros c HC. pose proof (restart_boundary lasym lthreed mpol ntor ns Hm Hn Hs lfreeb X phip ths lam HT Hl Hph lfreeb' T t r p (Some bd) HTT Htt Hr Hp bd c m n eq_refl RM M N HC) as RB.
    destruct c; try exact I; exact RB. }
  split; [exact (K Rcc eq_refl)|]. split; [exact (K Zsc eq_refl)|]. intros LT. split; [exact (K Rss LT)|exact (K Zcs LT)].
Qed.
Print Assumptions C49_boundary_partial.

(** C49 is false without stellarator symmetry: all coefficients of the other parity
    are lost on every surface. *)
Theorem C49_asymmetric_refuted :
  exists (lthreed : bool) (mpol ntor ns : Z) lfreeb X phip ths lamscale lfreeb' T t r p b c j m n,
    team true lthreed mpol ntor ns lfreeb X phip ths /\ lamscale <> 0 /\ (forall j, phip j <> 0) /\
    adjustRadialPartitioning T t ns lfreeb' = Some r /\ (1 <= T <= ns / 2)%Z /\ (0 <= t < T)%Z /\
    (forall j, (nsMinF1 r <= j < nsMaxF1 r)%Z -> p (j - nsMinF1 r)%Z = phip j) /\
    (nsMinF1 r <= j < nsMaxF1 r)%Z /\ (1 <= j < ns - 1)%Z /\ has true lthreed c = true /\ contributes c m n = true /\
    (0 <= m < mpol)%Z /\ (0 <= n <= ntor)%Z /\
    let out := fst (export true lthreed mpol ntor ns lamscale (gather true lthreed mpol ntor ths)) in
    init_from_state true lthreed mpol ntor ns (nsMinF1 r) (nsMaxF1 r) (nsMinF1 r) lamscale p (w1 out) (w2 out) (w3 out)
      b (nsMaxF1 r =? ns)%Z (fun _ _ => 0) c (((j - nsMinF1 r) * mpol + m) * (ntor + 1) + n)%Z <> X c j m n.
Proof.
  destruct (team_exists true true 3 2 5 false (fun _ _ _ _ => 1) (fun _ => 1) 1 ltac:(lia) ltac:(lia) ltac:(cbn; lia)) as (ths & _ & HT).
  exists true, 3%Z, 2%Z, 5%Z, false, (fun _ _ _ _ => 1), (fun _ => 1), ths, 1, false, 1%Z, 0%Z.
  eexists. exists (fun _ => 1), None, Zcc, 2%Z, 1%Z, 1%Z.
  split; [exact HT|]. split; [lra|]. split; [intros; lra|]. split; [reflexivity|]. split; [cbn; lia|]. split; [lia|].
  split; [reflexivity|]. split; [cbn; lia|]. split; [lia|]. split; [reflexivity|]. split; [reflexivity|]. split; [lia|]. split; [lia|].
  intros out E.
  eassert (Z0 := restart_asym true true 3 2 5 ltac:(lia) ltac:(lia) ltac:(lia) false _ _ ths 1 HT ltac:(lra) ltac:(intros; lra) false 1 0 _ (fun _ => 1) None ltac:(cbn; lia) ltac:(lia) eq_refl ltac:(reflexivity) Zcc 2 1 1 ltac:(cbn; lia) ltac:(lia) ltac:(lia) eq_refl).
  unfold restarted in Z0. cbv beta in E.
  assert (X1 : 0 = 1); [|lra]. etransitivity; [symmetry; exact Z0|exact E].
Qed.
Print Assumptions C49_asymmetric_refuted.

(** The hypotheses can be met: any coefficients can be held by any number of
    threads, e.g. a three-dimensional state on five surfaces by two threads. *)
Example C49_C79_case : forall X : field, exists ths, length ths = 2%nat /\
  team true true 3 2 5 false X (fun j => IZR (j + 1)) ths /\ (forall j, (0 <= j < 5)%Z -> IZR (j + 1) <> 0) /\
  exists r, adjustRadialPartitioning 2 1 5 false = Some r /\ nsMaxF1 r = 5%Z /\ (nsMinF1 r <= 3)%Z.
Proof.
  intros X. destruct (team_exists true true 3 2 5 false X (fun j => IZR (j + 1)) 2 ltac:(lia) ltac:(lia) ltac:(cbn; lia)) as (ths & L & HT).
  exists ths. split; [exact L|]. split; [exact HT|]. split.
  - intros j J. apply not_0_IZR. lia.
  - eexists. split; [reflexivity|]. cbn. lia.
Qed.

(** The entry check compares the two inputs. *)
Example check_case : CheckInitialState (mkHot false 5 4 [5; 11]%Z) (mkHot false 5 4 [11; 25]%Z) = true /\
  CheckInitialState (mkHot false 5 4 [5; 11]%Z) (mkHot false 5 4 [5; 11]%Z) = false.
Proof. split; reflexivity. Qed.
