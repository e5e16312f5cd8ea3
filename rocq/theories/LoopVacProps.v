(** C16: the vacuum coupling of a free-boundary stage. *)
From Coq Require Import ZArith List Bool Lia Reals Lra.
From Flocq Require Import Core IEEE754.BinarySingleNaN.
From Verif Require Import Base Num NumB64 LoopModel LoopSpec LoopCases LoopVac.
Import ListNotations.
Open Scope Z_scope.

(** The quotient 1 / max(0.1, r) truncates to at most 10, in exact arithmetic
    and in IEEE doubles. *)
Lemma trunc10_R : forall r : num_R,
  ntrunc (ndiv (nZ 1) (nmax (nfrac 1 10) r)) <= 10.
Proof.
  intros r. unfold nmax, nfrac; cbn. unfold Rltb.
  match goal with |- context [Rlt_dec (1 / ?w) 0] =>
    assert (HM : (1 / 10 <= w)%R) by (destruct (Rlt_dec (1 / 10) r); lra);
    revert HM; generalize w end.
  intros m HM.
  assert (HP : (0 < 1 / m <= 10)%R).
  { split.
    - apply Rdiv_lt_0_compat; lra.
    - apply (Rmult_le_reg_r m); [lra|]. unfold Rdiv. rewrite Rmult_assoc, Rinv_l by lra. lra. }
  destruct (Rlt_dec (1 / m) 0); [lra|].
  apply le_IZR.
  pose proof (base_Int_part (1 / m)) as [A _].
  apply Rle_trans with (1 / m)%R; [exact A|apply HP].
Qed.

Lemma trunc10_b64 lg : forall r : num_b64 lg,
  ntrunc (ndiv (nZ 1) (nmax (nfrac 1 10) r)) <= 10.
Proof.
  intros r. unfold nmax, nfrac.
  change (b64_trunc (b64_div (b64_ofZ 1)
    (if b64_lt (b64_div (b64_ofZ 1) (b64_ofZ 10)) r then r
     else b64_div (b64_ofZ 1) (b64_ofZ 10))) <= 10).
  set (h := b64_div (b64_ofZ 1) (b64_ofZ 10)).
  destruct (b64_lt h r) eqn:L; [|vm_compute; discriminate].
  assert (FH : is_finite h = true) by reflexivity.
  assert (TEN : b64_trunc (b64_div (b64_ofZ 1) h) = 10) by (vm_compute; reflexivity).
  assert (HH : (0 < B2R h)%R).
  { change (0 < F2R (Float radix2 7205759403792794 (-56)))%R. apply F2R_gt_0. reflexivity. }
  assert (BT : B2R (b64_div (b64_ofZ 1) h) = 10%R).
  { change (F2R (Float radix2 5629499534213120 (-49)) = 10)%R.
    unfold F2R; cbn [Fnum Fexp].
    change (bpow radix2 (-49)) with (/ IZR 562949953421312)%R. lra. }
  assert (BQ : (rnd (1 / B2R h) = 10)%R).
  { pose proof (Bdiv_correct 53 1024 b64_prec b64_emax mode_NE (b64_ofZ 1) h) as H.
    fold (b64_div (b64_ofZ 1) h) in H.
    assert (E1 : B2R (b64_ofZ 1) = 1%R).
    { change (F2R (Float radix2 4503599627370496 (-52)) = 1)%R.
      unfold F2R; cbn [Fnum Fexp].
      change (bpow radix2 (-52)) with (/ IZR 4503599627370496)%R. lra. }
    rewrite E1 in H. specialize (H ltac:(lra)).
    destruct (Rlt_bool_spec (Rabs (rnd (1 / B2R h))) (bpow radix2 1024)) as [LL|LL].
    - destruct H as (H & _). congruence.
    - exfalso. revert H. vm_compute. discriminate. }
  destruct (is_finite r) eqn:FR.
  - rewrite lt_fin in L by auto.
    destruct (Rlt_bool_spec (B2R h) (B2R r)) as [L'|]; [|discriminate L].
    pose proof (Bdiv_correct 53 1024 b64_prec b64_emax mode_NE (b64_ofZ 1) r) as H.
    fold (b64_div (b64_ofZ 1) r) in H.
    assert (E1 : B2R (b64_ofZ 1) = 1%R).
    { change (F2R (Float radix2 4503599627370496 (-52)) = 1)%R.
      unfold F2R; cbn [Fnum Fexp].
      change (bpow radix2 (-52)) with (/ IZR 4503599627370496)%R. lra. }
    rewrite E1 in H. specialize (H ltac:(lra)).
    assert (Q : (0 <= rnd (1 / B2R r) <= 10)%R).
    { split.
      - rewrite <- rnd_0. apply rnd_le. apply Rlt_le, Rdiv_lt_0_compat; lra.
      - rewrite <- BQ. apply rnd_le. unfold Rdiv. rewrite !Rmult_1_l.
        apply Rinv_le; lra. }
    destruct (Rlt_bool_spec (Rabs (rnd (1 / B2R r))) (bpow radix2 1024)) as [LL|LL].
    + destruct H as (H & HF & _). rewrite <- H in Q.
      revert Q. generalize (b64_div (b64_ofZ 1) r). clear. intros w Q.
      destruct w as [s|s| |s m e]; cbn [b64_trunc]; try lia.
      destruct s.
      * destruct (0 <=? e) eqn:E.
        -- assert (0 <= 2 ^ e) by (apply Z.pow_nonneg; lia). nia.
        -- assert (0 <= Z.pos m / 2 ^ (- e)); [|lia].
           apply Z.div_pos; [lia|]. apply Z.pow_pos_nonneg; lia.
      * cbn [B2R cond_Zopp] in Q. unfold F2R in Q; cbn [Fnum Fexp] in Q.
        destruct (0 <=? e) eqn:E.
        -- apply le_IZR. rewrite mult_IZR. apply Z.leb_le in E.
           change 2 with (radix_val radix2). rewrite IZR_Zpower by auto. apply Q.
        -- apply Z.leb_gt in E. apply le_IZR.
           apply Rle_trans with (IZR (Z.pos m) * bpow radix2 e)%R; [|apply Q].
           assert (PP : 0 < 2 ^ (- e)) by (apply Z.pow_pos_nonneg; lia).
           replace (bpow radix2 e) with (/ IZR (2 ^ (- e)))%R.
           2:{ change 2 with (radix_val radix2). rewrite IZR_Zpower by lia.
               rewrite <- bpow_opp. f_equal. lia. }
           apply (Rmult_le_reg_r (IZR (2 ^ (- e)))); [apply IZR_lt; lia|].
           rewrite Rmult_assoc, Rinv_l, Rmult_1_r by (apply not_0_IZR; lia).
           rewrite <- mult_IZR. apply IZR_le.
           rewrite Z.mul_comm. apply Z.mul_div_le. lia.
    + exfalso. rewrite Rabs_pos_eq in LL by apply Q.
      assert (10 < bpow radix2 1024)%R; [|lra].
      apply Rlt_trans with (bpow radix2 4); [cbn; lra|apply bpow_lt; lia].
  - destruct r as [|s| |]; discriminate.
Qed.

(** The order of the coupling states, the use of the vacuum field, the update
    interval, and full updates, for every history of one stage.  [good_num] only
    says that the truncated quotient is at most 10; it holds of exact
    arithmetic and of IEEE doubles (next two theorems). *)
Definition vacuum_spec {K : num} {G V : Type} (lfreeb : bool) (v0 : vacuum_state) (n0 : Z)
  (history : list (@event K G V)) : Prop :=
  always (couple_ok v0) history /\
  (lfreeb = true -> always edge_ok history) /\
  always (interval_ok n0) history /\
  always (full_ok restarted) history.

Lemma spec_of_all {K : num} {G V : Type} (c : @cfg K) v0 n0 (new : list (@event K G V)) :
  always (all_ok c v0 n0) new -> vacuum_spec (c_lfreeb c) v0 n0 new.
Proof.
  unfold vacuum_spec. induction new as [|e t IH]; cbn; [repeat split|].
  intros ((A & B & C & D) & H). destruct (IH H) as (I1 & I2 & I3 & I4). repeat split; auto.
Qed.

Lemma stage_vacuum_spec {K : num} {G V F : Type} (c : @cfg K) (M : @ext K G V F) g s :
  (forall r : K, ntrunc (ndiv (nZ 1) (nmax (nfrac 1 10) r)) <= 10) ->
  vac s <> VActive -> 1 <= nvacskip s ->
  match solve_equilibrium c M (init_stage c M g s) with
  | StageCancelled s' | StageError s' | StageOk s' =>
      exists history, trace s' = history ++ trace s /\
        vacuum_spec (c_lfreeb c) (vac s) (nvacskip s) history
  end.
Proof.
  intros HT HV HN. pose proof (stage_vac c M g s HT HV HN) as H.
  destruct (solve_equilibrium _ _ _) as [s'|s'|s'];
    destruct H as (new & A & B & _); exists new; split; auto; apply spec_of_all; auto.
Qed.

(** Exact arithmetic.  [vac s] is the coupling state before the stage: off for a
    first stage, initialized for a refined one. *)
Theorem C16_vacuum_coupling_partial :
  forall (G V F : Type) (c : @cfg num_R) (M : @ext num_R G V F) g s,
    vac s <> VActive -> 1 <= nvacskip s ->
    match solve_equilibrium c M (init_stage c M g s) with
    | StageCancelled s' | StageError s' | StageOk s' =>
        exists history, trace s' = history ++ trace s /\
          vacuum_spec (c_lfreeb c) (vac s) (nvacskip s) history
    end.
Proof. intros. apply stage_vacuum_spec; auto. apply trunc10_R. Qed.
Print Assumptions C16_vacuum_coupling_partial.

(** IEEE doubles. *)
Theorem C16_vacuum_coupling_doubles_partial :
  forall lg (G V F : Type) (c : @cfg (num_b64 lg)) (M : @ext (num_b64 lg) G V F) g s,
    vac s <> VActive -> 1 <= nvacskip s ->
    match solve_equilibrium c M (init_stage c M g s) with
    | StageCancelled s' | StageError s' | StageOk s' =>
        exists history, trace s' = history ++ trace s /\
          vacuum_spec (c_lfreeb c) (vac s) (nvacskip s) history
    end.
Proof. intros. apply stage_vacuum_spec; auto. apply trunc10_b64. Qed.
Print Assumptions C16_vacuum_coupling_doubles_partial.

(** What is missing from the full claim: "a full vacuum solve happens at the first
    iteration after every restart".  [restarted] above covers the roll-backs
    that send the iteration back to the same iteration number.  It is false of the
    roll-back of the soft start (the evaluation at which the vacuum is first
    solved): the solver rolls back, immediately takes a time step and the next
    vacuum update is a partial one. *)
Fixpoint partial_after_rollback {K : num} {G V : Type} (tr : list (@event K G V)) : bool :=
  match tr with
  | [] => false
  | EvVac false _ :: t => rolled_back t || partial_after_rollback t
  | _ :: t => partial_after_rollback t
  end.

Lemma partial_sound {K : num} {G V : Type} (tr : list (@event K G V)) :
  partial_after_rollback tr = true -> ~ always (full_ok rolled_back) tr.
Proof.
  induction tr as [|e t IH]; cbn; [discriminate|].
  intros H [A B]. destruct e as [| [] | | | | | | | | ]; try (apply IH; auto; fail).
  apply orb_true_iff in H. destruct H as [H|H]; [|apply IH; auto].
  cbn in A. specialize (A H). discriminate.
Qed.

Definition C16_small : num_f64 := nfrac 1 10000.
Definition C16_case : @ext num_f64 num_f64 unit unit :=
  lc_ext (fun s => lc_out C16_small) (fun _ => false).
Definition C16_run vs :=
  lc_final (lc_run (lc_cfg 30 (nfrac 1 1000000) false true false) C16_case vs 6).

Theorem C16_full_solve_after_restart_refuted :
  exists (c : @cfg num_f64) (M : @ext num_f64 num_f64 unit unit) g s,
    c_lfreeb c = true /\ vac s = VOff /\ trace s = [] /\ 1 <= nvacskip s /\
    match solve_equilibrium c M (init_stage c M g s) with
    | StageOk s' => ~ always (full_ok rolled_back) (trace s')
    | _ => False
    end.
Proof.
  exists (lc_cfg 30 (nfrac 1 1000000) false true false), C16_case, (nZ 1), (lc_raw VOff 6).
  split; [reflexivity|]. split; [reflexivity|]. split; [reflexivity|]. split; [cbn; lia|].
  assert (E : match lc_run (lc_cfg 30 (nfrac 1 1000000) false true false) C16_case VOff 6 with
              | StageOk s' => partial_after_rollback (trace s') | _ => false end = true)
    by (vm_compute; reflexivity).
  unfold lc_run in E.
  destruct (solve_equilibrium _ _ _); try discriminate. apply partial_sound; auto.
Qed.
Print Assumptions C16_full_solve_after_restart_refuted.

(** The hypothesis [vac s <> VActive] cannot be dropped: a stage that starts with
    active coupling (same ns as the stage before, or a second run of the same
    solver object) uses the vacuum field in the edge force of its first
    evaluation without having solved it. *)
Definition unsolved_edge {K : num} {G V : Type} (tr : list (@event K G V)) : bool :=
  existsb (fun k => match nth_error tr k with
                    | Some EvEdge => negb (solved (skipn (S k) tr)) | _ => false end)
          (seq 0 (length tr)).

Lemma always_skipn {K : num} {G V : Type} (P : event -> list event -> Prop) k :
  forall (tr : list (@event K G V)) e, always P tr -> nth_error tr k = Some e ->
  P e (skipn (S k) tr).
Proof.
  induction k as [|k IH]; intros [|a t] e H E; try discriminate.
  - cbn in E. injection E as <-. apply H.
  - cbn in E. apply (IH t e); auto. apply H.
Qed.

Theorem C16_active_start_refuted :
  exists (c : @cfg num_f64) (M : @ext num_f64 num_f64 unit unit) g s,
    c_lfreeb c = true /\ vac s = VActive /\ trace s = [] /\ 1 <= nvacskip s /\
    match solve_equilibrium c M (init_stage c M g s) with
    | StageOk s' => ~ always edge_ok (trace s')
    | _ => False
    end.
Proof.
  exists (lc_cfg 30 (nfrac 1 1000000) false true false), C16_case, (nZ 1), (lc_raw VActive 6).
  split; [reflexivity|]. split; [reflexivity|]. split; [reflexivity|]. split; [cbn; lia|].
  assert (E : match lc_run (lc_cfg 30 (nfrac 1 1000000) false true false) C16_case VActive 6 with
              | StageOk s' => unsolved_edge (trace s') | _ => false end = true)
    by (vm_compute; reflexivity).
  unfold lc_run in E.
  destruct (solve_equilibrium _ _ _) as [|u|u]; try discriminate.
  intros H. unfold unsolved_edge in E. apply existsb_exists in E.
  destruct E as (k & _ & E).
  destruct (nth_error (trace u) k) as [e|] eqn:EN; [|discriminate].
  pose proof (always_skipn edge_ok k _ _ H EN) as A.
  destruct e; try discriminate. cbn [edge_ok] in A. rewrite A in E. discriminate.
Qed.
Print Assumptions C16_active_start_refuted.

(** Instance: a first stage goes through all four states, with full and partial
    updates and a growing interval. *)
Example C16_instance :
  let s := C16_run VOff in
  (vac s,
   rev (flat_map (fun e => match e with EvCouple v => [v] | _ => [] end) (trace s)),
   length (filter (fun e => match e with EvVac true _ => true | _ => false end) (trace s)),
   length (filter (fun e => match e with EvVac false _ => true | _ => false end) (trace s)),
   length (filter (fun e => match e with EvEdge => true | _ => false end) (trace s)))
  = (VActive, [VInitializing; VInitialized; VActive], 5%nat, 24%nat, 29%nat).
Proof. vm_compute. reflexivity. Qed.

(** Instance: residuals that jump up late in the stage cause a roll-back and the next update is full. *)
Example C16_instance_restart :
  let M : @ext num_f64 num_f64 unit unit :=
    lc_ext (fun s => lc_out (if Nat.eqb (evals (trace s)) 8 then nZ 1 else C16_small))
           (fun _ => false) in
  let s := lc_final (lc_run (lc_cfg 30 (nfrac 1 1000000) false true false) M VOff 6) in
  existsb (fun k => match nth_error (trace s) k with
                    | Some (EvVac true _) => restarted (skipn (S k) (trace s))
                    | _ => false end)
          (seq 0 (length (trace s))) = true.
Proof. vm_compute. reflexivity. Qed.
