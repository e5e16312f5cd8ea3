(** C50, C72, C73, C74: change of resolution of a solution and the continuation driver. *)
From Coq Require Import String ZArith List Bool Lia Reals Lra SpecFloat.
From Verif Require Import PartModel PartProofs ReduceModel ReduceProps StepModel StepProofs StepTeam MgModel MgSpec MgProofs MgReal MgProps.
From Verif Require Import Base BaseLemmas Num IndataModel IndataSpec IndataProofs PyCoefModel PyCoefSpec ContModel ContSpec ContProofs ContReal ContDriver.
Import ListNotations.
Open Scope Z_scope.

(** C50: with unchanged resolution nothing changes, in any arithmetic. *)
Theorem C50_identity :
  forall (K : num) (nsqrt : K -> K) (w : wout K), complete w -> interpolate_solution nsqrt w (w_ns w) (w_mpol w) (w_ntor w) = Ok w.
Proof. intros K. exact same_resolution. Qed.
Print Assumptions C50_identity.

(** C50: the result has exactly the modes and arrays of the new resolution; modes
    of both resolutions keep their boundary value, their values on common
    surfaces and (odd m) the zero on the axis, and even modes stay within their
    bounds; new modes are zero; the axis is cut or padded. Exact arithmetic. *)
Theorem C50_common_modes :
  forall (w : wout num_R) ns mpol ntor, complete w -> 2 <= ns -> 0 <= mpol -> 0 <= ntor ->
  exists w', interpolate_solution (K := num_R) sqrt w ns mpol ntor = Ok w' /\ at_resolution w w' ns mpol ntor /\
    fields_related (remapped (K := num_R) (profile_kept (w_ns w) ns) w w') (w_geometry w) (w_geometry w') /\
    fields_related (axis_remapped ntor) (w_axis w) (w_axis w').
Proof. exact interpolate_exact. Qed.
Print Assumptions C50_common_modes.

(** C50: odd modes vanish on the axis after a change of grid, in any arithmetic. *)
Theorem C50_axis_odd :
  forall (K : num) (nsqrt : K -> K) m ns ns' (row : list K), 2 <= ns' -> Z.odd m = true ->
    nth 0 (geometry_row nsqrt m ns ns' row) (nZ 0) = nZ 0.
Proof. intros K nsqrt m ns ns' row H O. exact (geometry_row_axis nsqrt m ns ns' row H O). Qed.
Print Assumptions C50_axis_odd.

(** C50: the result is again a complete solution of the new resolution. *)
Theorem C50_result_complete :
  forall (w w' : wout num_R) ns mpol ntor, complete w -> 2 <= ns -> 0 <= mpol -> 0 <= ntor ->
    interpolate_solution (K := num_R) sqrt w ns mpol ntor = Ok w' -> complete w'.
Proof. exact result_complete. Qed.
Print Assumptions C50_result_complete.

(** A solution with modes (0,0), (0,2), (1,-2), (1,0), (1,2) on 3 surfaces. *)
Definition small : wout num_R := @mkWout num_R 2 3 2 1 5 [(0, 0); (0, 2); (1, -2); (1, 0); (1, 2)]
  [("rmnc"%string, Some (@mkMat num_R 5 3 [[6; 6; 6]; [0; 1; 1]; [0; 1; 2]; [0; 1; 1]; [0; 0; 1]]%R)); ("rmns"%string, None)]
  [("raxis_cc"%string, Some ([6; 0]%R : list num_R))] [("iotaf"%string, @A1 num_R [1; 2; 3]%R)].
Example small_complete : complete small.
Proof.
  constructor; cbn; try lia.
  - intros mn. exact (state_table_In 2 1 2 mn).
  - exact (state_table_order 2 1 2 eq_refl).
  - intros name v [E|[E|[]]]; inversion E. subst. repeat split. cbn. intros row H. repeat (destruct H as [<-|H]; [reflexivity|]). contradiction.
  - intros name a [E|[]]. inversion E. reflexivity.
  - intros name v [E|[]]. inversion E.
Qed.
Example C50_case : exists w', interpolate_solution (K := num_R) sqrt small 5 3 2 = Ok w' /\ zlen (w_modes w') = 13.
Proof.
  destruct (C50_common_modes small 5 3 2 small_complete ltac:(lia) ltac:(lia) ltac:(lia)) as (w' & E & _). exists w'. split; [exact E|].
  unfold interpolate_solution in E. cbv zeta in E. apply obind_ok in E. destruct E as (g & _ & E). apply obind_ok in E. destruct E as (a & _ & E). inversion E. reflexivity.
Qed.

(** C72: the Python refinement agrees with the one of the solver on the surfaces
    common to both grids, for every scheme. Missing from the full claim: the
    other surfaces, where it is false. *)
Theorem C72_common_surfaces_partial :
  forall mpol ntor lthreed lasym sch ns_old ns_new T_old T_new r_old r_new scalxc sc x_new x_old g,
    MgProps.setting mpol ntor lthreed lasym ns_old ns_new T_old T_new r_old r_new scalxc sc x_old g ->
  forall t j i q m n (row : list R), stored mpol ntor lthreed lasym T_new r_new t j q m n ->
    0 <= i < ns_old -> 0 <= j < ns_new -> pos ns_new j = pos ns_old i -> (Z.even m = true \/ 0 < i) ->
    Z.of_nat (length row) = ns_old ->
    (forall k, 0 <= k < ns_old -> at_surface row k = if Z.odd m then (g q k m n * sqrt (pos ns_old k))%R else g q k m n) ->
    let solver := new_value mpol ntor r_new scalxc (refined mpol ntor lthreed lasym sch ns_old ns_new T_old T_new r_old r_new scalxc x_new x_old) t j q m n in
    at_surface (geometry_row (K := num_R) sqrt m ns_old ns_new row) j = if Z.odd m then (solver * sqrt (pos ns_new j))%R else solver.
Proof.
  intros mpol ntor a b sch ns_old ns_new T_old T_new r_old r_new scalxc sc x_new x_old g S t j i q m n row St Hi Hj Hp Hor Hl Hg solver.
  unfold solver. rewrite (C43_coincident_surfaces _ _ _ _ _ _ _ _ _ _ _ _ _ _ _ _ S t j i q m n St Hi Hp Hor).
  destruct S. rewrite (k_coincide _ _ _ _ _ (geometry_row_kept ns_old ns_new m row ltac:(lia) ltac:(lia) Hl) i j Hi Hj Hp Hor), (Hg i Hi), Hp. reflexivity.
Qed.
Print Assumptions C72_common_surfaces_partial.

(** C72 refuted: a coefficient that is linear in s is refined exactly by the
    solver's default scheme, but not by the Python code. *)
Lemma line_value : at_surface (geometry_row (K := num_R) sqrt 0 3 5 [0; 1 / 2; 1]%R) 1 <> (1 / 4)%R.
Proof.
  intros E. rewrite (at_even 3 5 0 [0; 1 / 2; 1]%R ltac:(lia) 1 eq_refl ltac:(lia)) in E.
  destruct (np_interp_R 3 (rho 3) (map sqrt (linspace (K := num_R) 3)) [0; 1 / 2; 1]%R ltac:(lia) (sqrt_grid_zlen 3 ltac:(lia)) (fun k => sqrt_grid 3 k ltac:(lia))
     (fun a b Ha _ => rho_mono 3 a b ltac:(lia) Ha) (rho 5 1)) as (k & Hk & H1 & H2 & V); [apply in_range; lia|].
  rewrite V in E. clear V.
  assert (R5 : rho 5 1 = (1 / 2)%R) by (unfold rho, pos; cbn [Z.sub]; replace (IZR 1 / IZR (5 - 1))%R with ((1 / 2) * (1 / 2))%R by (cbn; field); apply sqrt_square; lra).
  assert (R1 : (rho 3 1 * rho 3 1 = 1 / 2)%R) by (unfold rho; rewrite sqrt_sqrt by (apply pos_ge; lia); unfold pos; cbn; field).
  assert (P1 : (0 < rho 3 1)%R) by (apply rho_pos; lia). rewrite R5 in *.
  assert (k = 0).
  { destruct (Z.eq_dec k 0) as [|Nk]; [auto|]. exfalso. assert (rho 3 1 <= rho 3 k)%R by (destruct (Z.eq_dec k 1) as [->|]; [lra|apply Rlt_le, rho_mono; lia]). nra. }
  subst k. change (0 =? 3 - 1) with false in E. cbv iota in E. rewrite rho_0 in E. rewrite (proj2 (IndataCheck.Reqb_false _ _)) in E by lra.
  assert (E' : ((1 / 2 - 0) / (rho 3 1 - 0) * (1 / 2 - 0) + 0 = 1 / 4)%R) by exact E.
  assert (Q : rho 3 1 = 1%R); [|rewrite Q in R1; lra].
  assert (E2 : ((1 / 2 - 0) / (rho 3 1 - 0) * (1 / 2 - 0) + 0 = 1 / 4 / rho 3 1)%R) by (field; lra). rewrite E2 in E'.
  apply (Rmult_eq_compat_r (rho 3 1)) in E'. unfold Rdiv in E'. rewrite Rmult_assoc, Rinv_l in E' by lra. lra.
Qed.

Theorem C72_refuted :
  exists mpol ntor lthreed lasym ns_old ns_new T_old T_new r_old r_new scalxc sc x_new x_old g t j q n (row : list R),
    MgProps.setting mpol ntor lthreed lasym ns_old ns_new T_old T_new r_old r_new scalxc sc x_old g /\
    stored mpol ntor lthreed lasym T_new r_new t j q 0 n /\ Z.of_nat (length row) = ns_old /\
    (forall k, 0 <= k < ns_old -> at_surface row k = g q k 0 n) /\
    at_surface (geometry_row (K := num_R) sqrt 0 ns_old ns_new row) j <>
      new_value mpol ntor r_new scalxc (refined mpol ntor lthreed lasym kLinear ns_old ns_new T_old T_new r_old r_new scalxc x_new x_old) t j q 0 n.
Proof.
  pose (g := fun q k m n : Z => pos 3 k).
  assert (S : MgProps.setting 1 0 false false 3 5 1 1 (fun t => rp_closed 1 t 3 false) (fun t => rp_closed 1 t 5 false) (fun _ _ => 1%R) (fun _ _ => 1%R) (fun _ _ k => pos 3 k) g).
  { constructor; try lia.
    - exists false. split; [lia|split; [lia|]]. intros t Ht. apply adjust_ok; lia.
    - exists false. split; [lia|split; [lia|]]. intros t Ht. apply adjust_ok; lia.
    - intros t j p _ _ _. reflexivity.
    - intros. lra.
    - intros t j q m n Ht Hj Hq Hm Hn. unfold g, idx_fc. f_equal. assert (t = 0) by lia. subst t. change (nsMinF1 (rp_closed 1 0 3 false)) with 0. lia. }
  assert (St : stored 1 0 false false 1 (fun t => rp_closed 1 t 5 false) 0 1 0 0 0).
  { unfold stored. repeat split; try lia; try (vm_compute; congruence); try (vm_compute; reflexivity). left. reflexivity. }
  exists 1, 0, false, false, 3, 5, 1, 1, (fun t => rp_closed 1 t 3 false), (fun t => rp_closed 1 t 5 false), (fun _ _ => 1%R), (fun _ _ => 1%R), (fun _ _ _ => 0%R), (fun _ _ k => pos 3 k), g, 0, 1, 0, 0, [0; 1 / 2; 1]%R.
  split; [exact S|]. split; [exact St|]. split; [reflexivity|]. split.
  - intros k Hk. assert (D : k = 0 \/ k = 1 \/ k = 2) by lia. unfold g, at_surface, pos. destruct D as [->|[->| ->]]; [change (0 = 0 / 2)%R|change (1 / 2 = 1 / 2)%R|change (1 = 2 / 2)%R]; lra.
  - rewrite (C62_polynomials_exact _ _ _ _ kLinear _ _ _ _ _ _ _ _ _ _ _ S 0 1 0 0 0 0 1 0 0 (fun s => s) St eq_refl); [|repeat split|intros i Hi; unfold g, cubic; ring].
    intros E. apply line_value. rewrite E. unfold cubic, pos. cbn. field.
Qed.
Print Assumptions C72_refuted.

(** C73: arrays are left alone unless their last dimension happens to be the old
    number of surfaces. Missing from the full claim: exactly that case. *)
Theorem C73_other_arrays_partial :
  forall (K : num) (nsqrt : K -> K) (w w' : wout K) ns mpol ntor, interpolate_solution nsqrt w ns mpol ntor = Ok w' ->
  forall name a, In (name, a) (w_arrays w) -> last_dim a <> w_ns w -> In (name, a) (w_arrays w').
Proof.
  intros K nsqrt w w' ns mpol ntor E name a I N. rewrite (arrays_result K nsqrt w w' ns mpol ntor E). apply in_map_iff. exists (name, a). split; [|exact I].
  cbn. destruct (size a =? 0); [reflexivity|]. rewrite (proj2 (Z.eqb_neq _ _) N). reflexivity.
Qed.
Print Assumptions C73_other_arrays_partial.

(** C73 refuted: the pressure coefficients of a solution with as many surfaces as
    coefficients are resampled. *)
Definition coefs : wout num_R := @mkWout num_R 1 3 1 0 1 [(0, 0)] [] [] [("am"%string, @A1 num_R [1; 0; 0]%R)].
Theorem C73_refuted :
  exists w w' : wout num_R, complete w /\ interpolate_solution (K := num_R) sqrt w 5 1 0 = Ok w' /\
    In ("am"%string, @A1 num_R [1; 0; 0]%R) (w_arrays w) /\ (forall a, In ("am"%string, a) (w_arrays w') -> last_dim a = 5).
Proof.
  exists coefs. eexists. split; [|split; [reflexivity|split; [left; reflexivity|]]].
  - constructor; cbn; try lia; try tauto.
    + intros mn. exact (state_table_In 1 0 1 mn).
    + exact (state_table_order 1 0 1 eq_refl).
    + intros name v [E|[]]. inversion E.
  - cbn [w_arrays coefs map fst snd]. intros a [E|[]]. injection E as <-. reflexivity.
Qed.
Print Assumptions C73_refuted.

(** C74: a continuation that returns has made one run per entry of ns_array, each
    of the scheduled problem and each started from the result of the run before,
    and returns the result of the last one. [run] and [interp] are arbitrary. *)
Theorem C74_schedule :
  forall (K : num) (Rest Out : Type) (run : input K Rest -> option Out -> outcome Out) (interp : Out -> input K Rest -> outcome Out)
    (b : input K Rest) mp nt start calls o, schedulable b mp nt ->
    run_fourier_continuation run interp b start = (calls, Ok o) ->
    length calls = length (i_ns b) /\ chain run interp b mp nt 0 start calls (Some o).
Proof. intros K Rest Out run interp b mp nt start calls o S. exact (driver_ok run interp b mp nt S start calls o). Qed.
Print Assumptions C74_schedule.

(** C74: it does return when no run and no interpolation fails. *)
Theorem C74_returns :
  forall (K : num) (Rest Out : Type) (run : input K Rest -> option Out -> outcome Out) (interp : Out -> input K Rest -> outcome Out)
    (b : input K Rest) mp nt start, schedulable b mp nt ->
    (forall s g, exists o, run s g = Ok o) -> (forall o s, exists o', interp o s = Ok o') ->
    length (i_ftol b) = length (i_ns b) -> length (i_niter b) = length (i_ns b) -> i_ns b <> [] ->
    exists calls o, run_fourier_continuation run interp b start = (calls, Ok o).
Proof.
  intros K Rest Out run interp b mp nt start S Hr Hi L1 L2 Hn. apply (driver_total run interp b mp nt S start Hr Hi L1 L2). destruct (i_ns b); [congruence|cbn; lia].
Qed.
Print Assumptions C74_returns.

(** C74: a failing run stops the continuation; everything before it was as scheduled. *)
Theorem C74_stops_at_failure :
  forall (K : num) (Rest Out : Type) (run : input K Rest -> option Out -> outcome Out) (interp : Out -> input K Rest -> outcome Out)
    (b : input K Rest) mp nt start calls r, schedulable b mp nt ->
    run_fourier_continuation run interp b start = (calls, r) ->
    exists good last o', calls = good ++ last /\ chain run interp b mp nt 0 start good o' /\
      (last = [] \/ exists s g, last = [(s, g)] /\ problem b mp nt (length good) s /\ started_from interp o' s g /\ (forall x, run s g <> Ok x)).
Proof. intros K Rest Out run interp b mp nt start calls r S. exact (driver_prefix run interp b mp nt S start calls r). Qed.
Print Assumptions C74_stops_at_failure.

(** C74: a step at the resolution of the input is the input's own problem. *)
Theorem C74_last_step :
  forall (K : num) (Rest : Type) (b s : input K Rest) mp nt i, schedulable b mp nt -> problem b mp nt i s ->
    scheduled (i_mpol b) i = mp -> scheduled (i_ntor b) i = nt ->
    (forall name a, In (name, Some a) (i_axis b) -> Z.of_nat (length a) = nt + 1) ->
    i_boundary s = i_boundary b /\ i_axis s = i_axis b /\ i_rest s = i_rest b.
Proof. intros K Rest. exact last_step. Qed.
Print Assumptions C74_last_step.

(** C74: mpol and ntor schedules of the wrong length are refused before any run. *)
Theorem C74_wrong_length :
  forall (K : num) (Rest Out : Type) (run : input K Rest -> option Out -> outcome Out) (interp : Out -> input K Rest -> outcome Out)
    (b : input K Rest) start l, (i_mpol b = Schedule l \/ i_ntor b = Schedule l) -> length l <> length (i_ns b) ->
    run_fourier_continuation run interp b start = ([], Throws).
Proof. intros K Rest Out. exact wrong_length. Qed.
Print Assumptions C74_wrong_length.

(** C74: the starting point of each step has the resolution of that step. *)
Definition interp_R {Rest} (o : wout num_R) (s : input num_R Rest) : outcome (wout num_R) :=
  interpolate_solution (K := num_R) sqrt o (last (i_ns s) 0) (final (i_mpol s)) (final (i_ntor s)).
Theorem C74_guess_fits :
  forall (Rest : Type) (b s : input num_R Rest) mp nt i o g, schedulable b mp nt -> problem b mp nt i s -> (i < length (i_ns b))%nat ->
    (forall ns, In ns (i_ns b) -> 2 <= ns) -> complete o -> started_from interp_R (Some o) s (Some g) ->
    complete g /\ i_ns s = [w_ns g] /\ i_mpol s = Scalar (w_mpol g) /\ i_ntor s = Scalar (w_ntor g).
Proof.
  intros Rest b s mp nt i o g S P Hi Hns C (o' & E & Eg). injection Eg as <-. destruct P as ((ns & N1 & N2) & _ & _ & M1 & M2 & _).
  destruct (values_nth _ _ i (s_mpol _ _ _ S) Hi) as (_ & P1). destruct (values_nth _ _ i (s_ntor _ _ _ S) Hi) as (_ & P2).
  unfold interp_R in E. rewrite N2, M1, M2 in E. cbn [last final] in E. assert (Hn : 2 <= ns) by (apply Hns; eapply nth_error_In; exact N1).
  split; [exact (C50_result_complete o g ns _ _ C Hn P1 P2 E)|]. rewrite N2, M1, M2.
  unfold interpolate_solution in E. cbv zeta in E. apply obind_ok in E. destruct E as (g' & _ & E). apply obind_ok in E. destruct E as (a & _ & E). inversion E. auto.
Qed.
Print Assumptions C74_guess_fits.

(** C74 refuted: a tolerance array that is too short is noticed only after the
    first equilibrium has been computed. *)
Theorem C74_refuted :
  forall K : num, exists (b : input K unit), schedulable b 2 0 /\ length (i_ftol b) <> length (i_ns b) /\
    forall (run : input K unit -> option unit -> outcome unit) interp, (forall s g, run s g = Ok tt) -> (forall o s, exists o', interp o s = Ok o') ->
      exists c, run_fourier_continuation run interp b None = ([c], Throws).
Proof.
  intros K. exists (mkInput (Schedule [1; 2]) (Scalar 0) [3; 5] [nfrac 1 1000] [10; 10] [] [] tt). split; [|split].
  - constructor; cbn; try lia; try tauto. split; [reflexivity|]. intros z [<-|[<-|[]]]; lia.
  - cbn. lia.
  - intros run interp Hr _. eexists. unfold run_fourier_continuation. cbv -[nfrac]. rewrite Hr. reflexivity.
Qed.
Print Assumptions C74_refuted.

Example C74_case : forall K : num, exists b : input K unit, schedulable b 2 0 /\ exists s1 s2,
  run_fourier_continuation (Out := Z) (fun s g => Ok (final (i_mpol s))) (fun o s => Ok (o * 10)) b None = ([(s1, None); (s2, Some 10)], Ok 2).
Proof.
  intros K. exists (mkInput (Schedule [1; 2]) (Scalar 0) [3; 5] [nfrac 1 1000; nfrac 1 1000] [10; 10] [("rbc"%string, Some (mkMat 2 1 [[nZ 1]; [nZ 2]]))] [] tt). split.
  - constructor; cbn; try lia; try tauto.
    + split; [reflexivity|]. intros z [<-|[<-|[]]]; lia.
    + intros name c [E|[]]. inversion E; subst. repeat split. cbn. intros row [<-|[<-|[]]]; reflexivity.
  - eexists _, _. vm_compute. reflexivity.
Qed.
