(** The SIMSOPT wrapper: current results, file names. *)
From Coq Require Import ZArith List Bool String Ascii Lia.
From Verif Require Import SimsModel SimsSpec.
Import ListNotations.
Open Scope Z_scope.

Section P.
Context {K O Q W : Type}.
Variable k0 : K.
Local Notation indata := (@indata K O).
Local Notation surface := (@surface K).
Local Notation op := (@op K O Q).
Local Notation vmec := (@vmec K O Q W).
Variable solve : indata -> option Q -> option Q.
Variable wout_of : Q -> W.
Variable resize : indata -> Z -> Z -> list (list K) * list (list K) * list (list K) * list (list K) * (list K * list K * list K * list K).
Local Notation run := (run k0 solve wout_of).
Local Notation step := (step k0 solve wout_of resize).
Local Notation steps := (steps k0 solve wout_of resize).
Local Notation want := (want k0).

Lemma fill_repeat (l : list K) : fill k0 l = repeat k0 (List.length l).
Proof. induction l; cbn; [reflexivity|]. f_equal. exact IHl. Qed.
Lemma mode_resize (b : surface) (sel : surface -> Z -> Z -> K) mpol ntor m n :
  (forall s, sel (change_resolution k0 s mpol ntor) = chg k0 (sel s) s mpol ntor) ->
  let b' := resize_surface k0 b mpol ntor in
  0 <= m <= mpol -> - ntor <= n <= ntor -> get (sel b') b' m n = mode_of k0 b (sel b) m n.
Proof.
  intros Hs b' Hm Hn. unfold b', resize_surface. destruct ((s_mpol b =? mpol) && (s_ntor b =? ntor)) eqn:E.
  - apply andb_true_iff in E. destruct E as [E1 E2]. apply Z.eqb_eq in E1, E2. unfold get, mode_of, has_mode. rewrite E1, E2.
    destruct (Z.leb_spec 0 m); [|lia]. destruct (Z.leb_spec m mpol); [|lia]. destruct (Z.leb_spec (Z.abs n) ntor); [|lia]. reflexivity.
  - unfold get. rewrite Hs. cbn [s_ntor change_resolution]. unfold chg, mode_of, has_mode. replace (n + ntor - ntor) with n by lia.
    destruct (Z.leb_spec 0 m); [|lia]. cbn [andb].
    destruct (Z.leb_spec m (s_mpol b)); [|reflexivity]. cbn [andb].
    destruct (Z.leb_spec (- s_ntor b) n), (Z.leb_spec n (s_ntor b)), (Z.leb_spec (Z.abs n) (s_ntor b)); try lia; reflexivity.
Qed.
Lemma mode_resized (b : surface) (sel : surface -> Z -> Z -> K) mpol ntor m n :
  (forall s, sel (change_resolution k0 s (mpol - 1) ntor) = chg k0 (sel s) s (mpol - 1) ntor) ->
  let b' := resize_surface k0 b (mpol - 1) ntor in
  mode_of k0 b' (sel b') m n = cut k0 mpol ntor (mode_of k0 b (sel b)) m n.
Proof.
  intros Hs b'. assert (R : s_mpol b' = mpol - 1 /\ s_ntor b' = ntor).
  { unfold b', resize_surface. destruct ((s_mpol b =? mpol - 1) && (s_ntor b =? ntor)) eqn:E; [|split; reflexivity].
    apply andb_true_iff in E. destruct E as [E1 E2]. apply Z.eqb_eq in E1, E2. auto. }
  destruct R as [R1 R2]. unfold cut. unfold mode_of at 1. rewrite R1, R2. destruct (has_mode (mpol - 1) ntor m n) eqn:E; [|reflexivity].
  unfold has_mode in E. apply andb_true_iff in E. destruct E as [E E3]. apply andb_true_iff in E. destruct E as [E1 E2]. apply Z.leb_le in E1, E2, E3.
  pose proof (mode_resize b sel (mpol - 1) ntor m n Hs ltac:(lia) ltac:(lia)) as M. cbv zeta in M. fold b' in M. unfold get in M. rewrite R2 in M. exact M.
Qed.
Lemma transfer_grid (b : surface) (sel : surface -> Z -> Z -> K) mpol ntor c :
  (forall s, sel (change_resolution k0 s (mpol - 1) ntor) = chg k0 (sel s) s (mpol - 1) ntor) ->
  (forall m n, mode_of k0 b (sel b) m n = c m n) ->
  let b' := resize_surface k0 b (mpol - 1) ntor in
  transfer mpol ntor (sel b') b' = grid mpol ntor c.
Proof.
  intros Hs HC b'. unfold transfer, grid, zrange. rewrite map_map. apply map_ext_in. intros m Hm. apply in_seq in Hm.
  rewrite map_map. apply map_ext_in. intros i Hi. apply in_seq in Hi.
  rewrite <- HC. apply (mode_resize b sel (mpol - 1) ntor _ _ Hs); lia.
Qed.

(** relation between the object and the situation *)
Record good (vi : indata) (u : @situation K) (file : string) (keep : bool) (v : vmec) : Prop := {
  g_run : v_runnable v = true; g_file : v_file v = file; g_keep : v_keep v = keep;
  g_mpol : i_mpol (v_indata v) = u_mpol u; g_ntor : i_ntor (v_indata v) = u_ntor u; g_lasym : i_lasym (v_indata v) = i_lasym vi;
  g_dofs : i_dofs (v_indata v) = u_dofs u; g_ns : i_ns (v_indata v) = i_ns vi; g_ftol : i_ftol (v_indata v) = i_ftol vi;
  g_niter : i_niter (v_indata v) = i_niter vi; g_other : i_other (v_indata v) = i_other vi;
  g_axis : axis_ok (v_indata v);
  g_abs : i_lasym vi = false -> i_rbs (v_indata v) = i_rbs vi /\ i_zbc (v_indata v) = i_zbc vi /\ i_raxis_s (v_indata v) = i_raxis_s vi /\ i_zaxis_c (v_indata v) = i_zaxis_c vi;
  g_rc : forall m n, mode_of k0 (v_boundary v) (s_rc (v_boundary v)) m n = u_rc u m n;
  g_zs : forall m n, mode_of k0 (v_boundary v) (s_zs (v_boundary v)) m n = u_zs u m n;
  g_rs : forall m n, mode_of k0 (v_boundary v) (s_rs (v_boundary v)) m n = u_rs u m n;
  g_zc : forall m n, mode_of k0 (v_boundary v) (s_zc (v_boundary v)) m n = u_zc u m n }.
Definition fresh (vi : indata) (u : @situation K) (v : vmec) : Prop :=
  v_need v = false -> exists q, solve (want vi u) None = Some q /\ v_wout v = Some (wout_of q).

Lemma set_indata_good vi u file keep v : good vi u file keep v ->
  exists v', set_indata k0 v = Some v' /\ v_indata v' = want vi u /\ good vi u file keep v' /\
    v_need v' = v_need v /\ v_wout v' = v_wout v /\ v_calls v' = v_calls v /\ v_boundary v' = v_boundary v /\ v_keep v' = v_keep v /\ v_file v' = v_file v.
Proof.
  intros G. unfold set_indata. rewrite (g_run _ _ _ _ _ G). cbn [negb surface_resolution].
  match goal with |- exists v', Some ?x = Some v' /\ _ => exists x end. split; [reflexivity|].
  assert (WT : forall sel c, (forall s a b, sel (change_resolution k0 s a b) = chg k0 (sel s) s a b) -> (forall m n, mode_of k0 (v_boundary v) (sel (v_boundary v)) m n = c m n) ->
    transfer (i_mpol (v_indata v)) (i_ntor (v_indata v)) (sel (resize_surface k0 (v_boundary v) (i_mpol (v_indata v) - 1) (i_ntor (v_indata v))))
      (resize_surface k0 (v_boundary v) (i_mpol (v_indata v) - 1) (i_ntor (v_indata v))) = grid (u_mpol u) (u_ntor u) c).
  { intros sel c Hs Hc. rewrite <- (g_mpol _ _ _ _ _ G), <- (g_ntor _ _ _ _ _ G). apply transfer_grid; auto. }
  rewrite (WT s_rc (u_rc u) (fun _ _ _ => eq_refl) (g_rc _ _ _ _ _ G)), (WT s_zs (u_zs u) (fun _ _ _ => eq_refl) (g_zs _ _ _ _ _ G)),
    (WT s_rs (u_rs u) (fun _ _ _ => eq_refl) (g_rs _ _ _ _ _ G)), (WT s_zc (u_zc u) (fun _ _ _ => eq_refl) (g_zc _ _ _ _ _ G)).
  cbn [v_indata v_need v_wout v_calls v_boundary v_keep v_file]. rewrite !fill_repeat.
  destruct (g_axis _ _ _ _ _ G) as (A1 & A2 & A3). rewrite A1, A2.
  assert (EQ : forall x, x = want vi u -> x = want vi u) by auto.
  match goal with |- ?x = _ /\ _ => assert (E : x = want vi u) end.
  { unfold SimsSpec.want. rewrite (g_mpol _ _ _ _ _ G), (g_ntor _ _ _ _ _ G), (g_lasym _ _ _ _ _ G), (g_dofs _ _ _ _ _ G), (g_ns _ _ _ _ _ G), (g_ftol _ _ _ _ _ G), (g_niter _ _ _ _ _ G), (g_other _ _ _ _ _ G).
    destruct (i_lasym vi) eqn:EL.
    - rewrite (g_lasym _ _ _ _ _ G), EL in A3. destruct (A3 eq_refl) as [-> ->]. rewrite (g_ntor _ _ _ _ _ G). reflexivity.
    - destruct (g_abs _ _ _ _ _ G EL) as (-> & -> & -> & ->). reflexivity. }
  split; [exact E|]. split; [|repeat split].
  rewrite E. destruct G. constructor; cbn; auto.
  - unfold axis_ok. cbn. rewrite !repeat_length. split; [reflexivity|]. split; [reflexivity|]. intros ->. rewrite !repeat_length. auto.
  - intros ->. auto.
Qed.

Lemma run_good vi u file keep v : good vi u file keep v -> fresh vi u v ->
  good vi u file keep (fst (run None v)) /\ fresh vi u (fst (run None v)) /\
  (keep = false \/ make_wout_filename file <> None ->
   match solve (want vi u) None with
   | Some q => snd (run None v) = Done /\ v_wout (fst (run None v)) = Some (wout_of q)
   | None => snd (run None v) <> Done
   end).
Proof.
  intros G F. unfold SimsModel.run. destruct (v_need v) eqn:EN; cbn [negb].
  2:{ cbn [fst snd]. split; [exact G|]. split; [exact F|]. intros _. destruct (F EN) as (q & -> & Hw). auto. }
  rewrite (g_run _ _ _ _ _ G). cbn [negb].
  set (v1 := mkV true true (v_iter v + 1) (v_keep v) (v_file v) (v_indata v) (v_boundary v) (v_wout v) (v_calls v) (v_saved v)).
  assert (G1 : good vi u file keep v1) by (destruct G; constructor; cbn; auto).
  destruct (set_indata_good vi u file keep v1 G1) as (v2 & -> & E2 & G2 & N2 & W2 & C2 & B2 & K2 & F2).
  destruct (solve (v_indata v2) None) as [q|] eqn:ES'; pose proof ES' as ES; rewrite E2 in ES; rewrite ES.
  - destruct (v_keep v2) eqn:EK.
    + destruct (make_wout_filename (v_file v2)) as [f|] eqn:EF; cbn [fst snd].
      * split; [destruct G2; constructor; cbn; auto; congruence|]. split; [intros _; exists q; auto|]. intros _. auto.
      * split; [destruct G2; constructor; cbn; auto; congruence|].
        split; [intros H; cbn in H; rewrite N2 in H; discriminate|]. intros [H|H]; exfalso.
        -- rewrite (g_keep _ _ _ _ _ G2) in EK. congruence.
        -- rewrite (g_file _ _ _ _ _ G2) in EF. congruence.
    + cbn [fst snd]. split; [destruct G2; constructor; cbn; auto; congruence|]. split; [intros _; exists q; auto|]. intros _. auto.
  - cbn [fst snd]. split; [destruct G2; constructor; cbn; auto; congruence|].
    split; [intros H; cbn in H; rewrite N2 in H; discriminate|]. intros _. discriminate.
Qed.

Lemma step_good vi u file keep v o : resize_ok resize -> plain o -> good vi u file keep v -> fresh vi u v ->
  good vi (react k0 o u) file keep (step o v) /\ fresh vi (react k0 o u) (step o v).
Proof.
  intros RO PL G F. destruct o; cbn [SimsModel.step react plain] in *.
  - unfold set_dofs. rewrite (g_run _ _ _ _ _ G). split; [|intros H; discriminate]. destruct G. constructor; cbn; auto.
  - split; [|intros H; discriminate]. destruct G. constructor; cbn; auto.
  - split; [|intros H; discriminate]. destruct G. constructor; cbn; auto.
  - unfold set_mpol_ntor. specialize (RO (v_indata v) mpol ntor). destruct (resize (v_indata v) mpol ntor) as [[[[rbc zbs] rbs] zbc] [[[rac zas] ras] zac]].
    cbn [surface_resolution]. destruct RO as (R1 & R2 & R3). split; [|intros H; discriminate].
    destruct G as [? ? ? ? ? GL ? ? ? ? ? ? GA ? ? ? ?].
    constructor; cbn [bell with_boundary with_indata v_runnable v_file v_keep v_indata v_boundary i_mpol i_ntor i_lasym i_dofs i_ns i_ftol i_niter i_other u_mpol u_ntor u_dofs i_rbs i_zbc i_raxis_s i_zaxis_c u_rc u_zs u_rs u_zc]; auto.
    + unfold axis_ok. cbn. split; [exact R1|]. split; [exact R2|]. intros E. rewrite E in R3. exact R3.
    + intros E. rewrite GL, E in R3. destruct R3 as (-> & -> & -> & ->). auto.
    + intros m n. etransitivity; [apply (mode_resized (v_boundary v) s_rc mpol ntor m n); reflexivity|]. unfold cut. destruct (has_mode _ _ _ _); auto.
    + intros m n. etransitivity; [apply (mode_resized (v_boundary v) s_zs mpol ntor m n); reflexivity|]. unfold cut. destruct (has_mode _ _ _ _); auto.
    + intros m n. etransitivity; [apply (mode_resized (v_boundary v) s_rs mpol ntor m n); reflexivity|]. unfold cut. destruct (has_mode _ _ _ _); auto.
    + intros m n. etransitivity; [apply (mode_resized (v_boundary v) s_zc mpol ntor m n); reflexivity|]. unfold cut. destruct (has_mode _ _ _ _); auto.
  - destruct restart; [contradiction|]. destruct (run_good vi u file keep v G F) as (H1 & H2 & _). auto.
  - destruct (run_good vi u file keep v G F) as (H1 & H2 & _). auto.
  - unfold get_input. destruct (set_indata_good vi u file keep v G) as (v2 & -> & E2 & G2 & N2 & W2 & _). cbn [fst]. split; [exact G2|].
    intros H. rewrite W2. apply F. congruence.
  - contradiction.
Qed.
Lemma steps_good vi file keep ops : resize_ok resize -> Forall plain ops -> forall u v, good vi u file keep v -> fresh vi u v ->
  good vi (fold_left (fun u o => react k0 o u) ops u) file keep (steps ops v) /\ fresh vi (fold_left (fun u o => react k0 o u) ops u) (steps ops v).
Proof.
  intros RO PL. induction PL as [|o ops Ho _ IH]; intros u v G F; [auto|]. cbn [fold_left]. unfold SimsModel.steps. cbn [fold_left].
  destruct (step_good vi u file keep v o RO Ho G F) as [G' F']. apply IH; auto.
Qed.
Lemma init_good vi file keep : axis_ok vi -> good vi (at_start k0 vi) file keep (init k0 file keep vi : vmec).
Proof.
  intros AX. unfold init. cbn [surface_resolution].
  assert (M : forall on l m n, mode_of k0 (mkSurf (i_mpol vi - 1) (i_ntor vi) (fun _ _ => k0) (fun _ _ => k0) (fun _ _ => k0) (fun _ _ => k0))
     (fun m n => if on && (0 <=? m) && (m <? i_mpol vi) && (0 <=? n) && (n <? 2 * i_ntor vi + 1) then entry k0 l m n else k0) m n =
     if on then (if has_mode (i_mpol vi - 1) (i_ntor vi) m n then nth (Z.to_nat (n + i_ntor vi)) (nth (Z.to_nat m) l []) k0 else k0) else k0).
  { intros on l m n. unfold mode_of. cbn [s_mpol s_ntor]. destruct (has_mode (i_mpol vi - 1) (i_ntor vi) m n) eqn:E; [|destruct on; reflexivity].
    unfold has_mode in E. apply andb_true_iff in E. destruct E as [E E3]. apply andb_true_iff in E. destruct E as [E1 E2]. apply Z.leb_le in E1, E2, E3.
    destruct on; [|reflexivity]. cbn [andb].
    destruct (Z.leb_spec 0 m); [|lia]. destruct (Z.ltb_spec m (i_mpol vi)); [|lia]. destruct (Z.leb_spec 0 (n + i_ntor vi)); [|lia].
    destruct (Z.ltb_spec (n + i_ntor vi) (2 * i_ntor vi + 1)); [|lia]. reflexivity. }
  constructor; cbn [v_runnable v_file v_keep v_indata v_boundary at_start u_mpol u_ntor u_dofs u_rc u_zs u_rs u_zc s_rc s_zs s_rs s_zc]; auto.
  - intros m n. apply (M true).
  - intros m n. apply (M true).
  - intros m n. etransitivity; [apply (M (i_lasym vi))|]. destruct (i_lasym vi); reflexivity.
  - intros m n. etransitivity; [apply (M (i_lasym vi))|]. destruct (i_lasym vi); reflexivity.
Qed.

Lemma current {X} (f : W -> X) vi file keep ops : axis_ok vi -> resize_ok resize -> Forall plain ops -> keep = false \/ make_wout_filename file <> None ->
  snd (access k0 solve wout_of f (steps ops (init k0 file keep vi))) =
  option_map (fun q => f (wout_of q)) (solve (want vi (situation_after k0 vi ops)) None).
Proof.
  intros AX RO PL NM. destruct (steps_good vi file keep ops RO PL (at_start k0 vi) (init k0 file keep vi) (init_good vi file keep AX)) as [G F]; [intros H; discriminate|].
  destruct (run_good vi _ file keep _ G F) as (_ & _ & R). specialize (R NM). unfold access. unfold situation_after.
  destruct (run None _) as [v' o]. cbn [fst snd] in *. destruct (solve _ None).
  - destruct R as [-> ->]. reflexivity.
  - destruct o; [congruence|reflexivity|reflexivity].
Qed.
Lemma input_written vi file keep ops : axis_ok vi -> resize_ok resize -> Forall plain ops ->
  snd (get_input k0 (steps ops (init k0 file keep vi))) = Some (want vi (situation_after k0 vi ops)).
Proof.
  intros AX RO PL. destruct (steps_good vi file keep ops RO PL (at_start k0 vi) (init k0 file keep vi) (init_good vi file keep AX)) as [G F]; [intros H; discriminate|].
  unfold get_input. destruct (set_indata_good _ _ _ _ _ G) as (v2 & -> & E2 & _). cbn. f_equal. exact E2.
Qed.
(** which inputs the solver is called with *)
Lemma hot_restart vi file keep ops r : axis_ok vi -> resize_ok resize -> Forall plain ops ->
  let v := steps ops (init k0 file keep vi) in let w := want vi (situation_after k0 vi ops) in
  v_need v = true ->
  v_calls (fst (run (Some r) v)) = (restart_indata w, Some r) :: v_calls v /\
  v_indata (fst (run (Some r) v)) = w /\
  (solve (restart_indata w) (Some r) = None -> snd (run (Some r) v) = ObjectiveFailure) /\
  (forall q, solve (restart_indata w) (Some r) = Some q -> v_wout (fst (run (Some r) v)) = Some (wout_of q)).
Proof.
  intros AX RO PL v w EN. destruct (steps_good vi file keep ops RO PL (at_start k0 vi) (init k0 file keep vi) (init_good vi file keep AX)) as [G F]; [intros H; discriminate|].
  change (good vi (situation_after k0 vi ops) file keep v) in G. unfold SimsModel.run. rewrite EN, (g_run _ _ _ _ _ G). cbn [negb].
  set (v1 := mkV true true (v_iter v + 1) (v_keep v) (v_file v) (v_indata v) (v_boundary v) (v_wout v) (v_calls v) (v_saved v)).
  assert (G1 : good vi (situation_after k0 vi ops) file keep v1) by (destruct G; constructor; cbn; auto).
  destruct (set_indata_good _ _ _ _ _ G1) as (v2 & -> & E2 & G2 & N2 & W2 & C2 & _). rewrite E2. fold w. rewrite C2.
  destruct (solve (restart_indata w) (Some r)) as [q|]; [|cbn; auto].
  - destruct (v_keep v2); [destruct (make_wout_filename (v_file v2))|]; cbn; repeat split; try discriminate; congruence.
  - cbn. repeat split. discriminate.
Qed.
Lemma last1_last {X} (l : list X) : last_only l (last1 l).
Proof. intros l0 x ->. unfold last1. rewrite app_length. cbn. replace (List.length l0 + 1 - 1)%nat with (List.length l0 + 0)%nat by lia. rewrite skipn_app, skipn_all2 by lia. replace (List.length l0 + 0 - List.length l0)%nat with 0%nat by lia. reflexivity. Qed.
Lemma no_rerun ops v : Forall reading ops -> v_need v = false -> v_calls (steps ops v) = v_calls v /\ v_wout (steps ops v) = v_wout v /\ v_need (steps ops v) = false.
Proof.
  intros R. revert v. induction R as [|o ops Ho _ IH]; intros v N; [auto|]. change (steps (o :: ops) v) with (steps ops (step o v)).
  assert (S : v_calls (step o v) = v_calls v /\ v_wout (step o v) = v_wout v /\ v_need (step o v) = false).
  { destruct o; cbn [reading SimsModel.step] in *; try contradiction.
    - unfold SimsModel.run. rewrite N. auto.
    - unfold SimsModel.run. rewrite N. auto.
    - unfold get_input, set_indata. destruct (v_runnable v); cbn [negb fst surface_resolution]; auto. }
  destruct S as (S1 & S2 & S3). destruct (IH (step o v) S3) as (I1 & I2 & I3). rewrite I1, I2. auto.
Qed.
(** an object made from a result file *)
Lemma wout_object {X} (f : W -> X) file keep vi b w ops : Forall (fun o => plain o \/ exists r, o = OpRun (Some r)) ops ->
  let v := steps ops (init_wout file keep vi b w) in
  v_calls v = [] /\ v_wout v = Some w /\
  snd (access k0 solve wout_of f v) = if existsb (fun o => match o with OpDofs _ | OpSurface _ | OpReplace _ | OpMpolNtor _ _ => true | _ => false end) ops then None else Some (f w).
Proof.
  intros PL v.
  assert (I : forall v, v_runnable v = false -> v_wout v = Some w -> v_calls v = [] ->
    let v' := steps ops v in v_runnable v' = false /\ v_wout v' = Some w /\ v_calls v' = [] /\
    v_need v' = (v_need v || existsb (fun o => match o with OpDofs _ | OpSurface _ | OpReplace _ | OpMpolNtor _ _ => true | _ => false end) ops)%bool).
  { clear v. induction PL as [|o ops Ho _ IH]; intros v R Wv C; [cbn; rewrite orb_false_r; auto|].
    cbn zeta. cbn [existsb]. change (steps (o :: ops) v) with (steps ops (step o v)).
    assert (S : v_runnable (step o v) = false /\ v_wout (step o v) = Some w /\ v_calls (step o v) = [] /\
       v_need (step o v) = (v_need v || match o with OpDofs _ | OpSurface _ | OpReplace _ | OpMpolNtor _ _ => true | _ => false end)%bool).
    { destruct o; cbn [SimsModel.step].
      - unfold set_dofs. rewrite R. cbn. rewrite orb_true_r. auto.
      - cbn. rewrite orb_true_r. auto.
      - cbn. rewrite orb_true_r. auto.
      - unfold set_mpol_ntor. destruct (resize _ _ _) as [[[[? ?] ?] ?] [[[? ?] ?] ?]]. cbn. rewrite orb_true_r. auto.
      - unfold SimsModel.run. rewrite R. rewrite orb_false_r. destruct (v_need v) eqn:E; cbn; auto.
      - unfold SimsModel.run. rewrite R. rewrite orb_false_r. destruct (v_need v) eqn:E; cbn; auto.
      - unfold get_input, set_indata. rewrite R. cbn. rewrite orb_false_r. auto.
      - destruct Ho as [[]|[r Hr]]; discriminate. }
    destruct S as (S1 & S2 & S3 & S4). destruct (IH _ S1 S2 S3) as (I1 & I2 & I3 & I4). rewrite I4, S4, orb_assoc. auto. }
  destruct (I (init_wout file keep vi b w) eq_refl eq_refl eq_refl) as (I1 & I2 & I3 & I4). fold v in I1, I2, I3, I4. cbn [init_wout v_need orb] in I4.
  split; [exact I3|]. split; [exact I2|]. unfold access, SimsModel.run. rewrite I4, I1. destruct (existsb _ ops); cbn [negb]; [reflexivity|]. rewrite I2. reflexivity.
Qed.
End P.
