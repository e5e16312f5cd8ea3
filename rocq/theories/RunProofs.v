(** Proofs about runs. *)
From Coq Require Import ZArith List Bool Lia.
From Verif Require Import Base BaseLemmas Num LoopModel LoopMono RunModel RunSpec.
Import ListNotations.
Open Scope Z_scope.

Section P.
Context {K : num} {G V F : Type}.
Notation st := (@st K G V F).
Notation rst := (@rst K G V F).
Context (i : @rin K) (E : @renv K G V F).
Implicit Types (r : rst) (s : st).

Definition soft (l : list (@stage_log K)) : Prop :=
  Forall (fun e => hard_failed e = false) l.

Definition log_of r := stages r.

(** The newest stage explains the status of the solver. *)
Definition explained r : Prop :=
  match stages r with
  | e :: _ => l_out e = OStatus (status (sol r))
  | [] => True
  end.

Lemma init_frame ns niter ftol r :
  stages (initialize_radial i E ns niter ftol r) = stages r /\
  ns_min (initialize_radial i E ns niter ftol r) = ns_min r.
Proof.
  unfold initialize_radial. cbv zeta. destruct (ns_old r =? ns); auto.
Qed.

Lemma init_lam ns niter ftol r :
  lam (initialize_radial i E ns niter ftol r) =
    (if ns_old r =? ns then lam r else lamscale_of E ns) /\
  ns_old (initialize_radial i E ns niter ftol r) = ns.
Proof.
  unfold initialize_radial. cbv zeta.
  destruct (Z.eqb_spec (ns_old r) ns); cbn; auto.
Qed.

Lemma run_stage_spec grid ns niter ftol r : soft (stages r) ->
  match run_stage i E grid ns niter ftol r with
  | inl (GReturn _ r') => exists e, stages r' = e :: stages r /\ l_grid e = grid /\
       l_ns e = ns /\ hard_failed e = true /\
       l_lam e = (if ns_old r =? ns then lam r else lamscale_of E ns) /\
       l_ftol e = ftol
  | inl (GNext b r') => b = true /\ r_retout i = true /\
       exists e, stages r' = e :: stages r /\ l_grid e = grid /\ l_ns e = ns /\
       l_lam e = (if ns_old r =? ns then lam r else lamscale_of E ns) /\
       l_ftol e = ftol /\ l_out e = OStatus (status (sol r'))
  | inr r' => exists e, stages r' = e :: stages r /\ l_grid e = grid /\ l_ns e = ns /\
       l_lam e = (if ns_old r =? ns then lam r else lamscale_of E ns) /\
       l_ftol e = ftol /\
       hard_failed e = false /\ l_out e = OStatus (status (sol r')) /\
       ns_old r' = ns /\ ns_min r' = ns_min r
  end.
Proof.
  intros HS. unfold run_stage. cbv zeta.
  pose proof (init_frame ns niter ftol r) as (A & B).
  pose proof (init_lam ns niter ftol r) as (C & D).
  set (r0 := initialize_radial i E ns niter ftol r) in *. clearbody r0.
  destruct (solve_equilibrium _ _ _) as [s|s|s].
  - eexists; cbn; rewrite A; split; [reflexivity|]; cbn; rewrite C; auto 10.
  - eexists; cbn; rewrite A; split; [reflexivity|]; cbn; rewrite C; auto 10.
  - cbn [status].
    destruct (hard (status s)) eqn:EH.
    + destruct (r_retout i) eqn:ER.
      * split; [reflexivity|]. split; [reflexivity|].
        eexists; cbn; rewrite A; split; [reflexivity|]; cbn; rewrite C; auto 10.
      * eexists; cbn; rewrite A; split; [reflexivity|]; cbn; rewrite C.
        unfold hard_failed; cbn. repeat split; auto.
        all: try (destruct (status s); cbn in *; auto; discriminate).
    + eexists; cbn; rewrite A; split; [reflexivity|]; cbn; rewrite C, D.
      unfold hard_failed; cbn. repeat split; auto.
      all: try (destruct (status s); cbn in *; auto; discriminate).
Qed.

(** Grids run so far all belong to the user's list. *)
Definition users (l : list (@stage_log K)) : Prop :=
  Forall (fun e => 0 <= l_grid e < max_grids i /\ l_ns e = nth (Z.to_nat (l_grid e)) (r_ns i) 0 /\
                   l_ftol e = nth (Z.to_nat (l_grid e)) (r_ftol i) (nZ 0)) l.

Definition last_ok r : Prop :=
  match stages r with
  | e :: _ => l_out e = OStatus (status (sol r)) /\ hard_failed e = false
  | [] => True
  end.

Lemma grid_loop_spec grids : Forall (fun g => 0 <= g < max_grids i) grids -> forall r,
  soft (stages r) -> users (stages r) -> last_ok r ->
  match grid_loop i E grids r with
  | GReturn _ r' => only_last_fails (stages r') /\ users (stages r') /\
       exists new, stages r' = new ++ stages r
  | GNext true r' => r_retout i = true /\ only_last_fails (stages r') /\
       users (stages r') /\ exists new, stages r' = new ++ stages r
  | GNext false r' => soft (stages r') /\ users (stages r') /\ last_ok r' /\
       (exists new, stages r' = new ++ stages r) /\
       (stages r' = [] -> sol r' = sol r)
  end.
Proof.
  induction 1 as [|g t Hg HF IH]; intros r HS HU HL; cbn [grid_loop].
  { repeat split; auto. exists []; reflexivity. }
  destruct (Z.ltb_spec g 0); [lia|].
  set (r0 := mkRst (sol r) (ns_old r) (ns_min r) (niterv r) (nZ 0) (stages r)).
  cbv zeta. cbn [ns_min r0].
  destruct (_ <? _).
  - specialize (IH r0 HS HU HL). exact IH.
  - set (r1 := mkRst _ _ _ _ _ _).
    assert (E1 : stages r1 = stages r) by reflexivity.
    clearbody r1.
    match goal with |- context [run_stage i E g ?a ?b ?d r1] =>
      pose proof (run_stage_spec g a b d r1 ltac:(rewrite E1; exact HS)) as HR;
      destruct (run_stage i E g a b d r1) as [[cc r'|gu r']|r'] end.
    + destruct HR as (e & A & B1 & B2 & B3 & B4 & B5). rewrite A, E1.
      split; [exact HS|]. split; [constructor; [rewrite B1; auto|exact HU]|].
      exists [e]; reflexivity.
    + destruct HR as (-> & B0 & e & A & B1 & B2 & B3 & B4 & B5). rewrite A, E1.
      split; [exact B0|]. split; [exact HS|].
      split; [constructor; [rewrite B1; auto|exact HU]|]. exists [e]; reflexivity.
    + destruct HR as (e & A & B1 & B2 & B3 & B4 & B5 & B6 & _).
      rewrite E1 in A.
      assert (HS' : soft (stages r')) by (rewrite A; constructor; auto).
      assert (HU' : users (stages r')) by (rewrite A; constructor; [rewrite B1; auto|exact HU]).
      assert (HL' : last_ok r') by (unfold last_ok; rewrite A; auto).
      specialize (IH r' HS' HU' HL').
      destruct (grid_loop i E t r') as [cc r2|gu r2].
      * destruct IH as (I1 & I2 & new & I3). repeat split; auto.
        exists (new ++ [e]). rewrite I3, A, <- app_assoc. reflexivity.
      * destruct gu.
        -- destruct IH as (I0 & I1 & I2 & new & I3). repeat split; auto.
           exists (new ++ [e]). rewrite I3, A, <- app_assoc. reflexivity.
        -- destruct IH as (I0 & I1 & I2 & (new & I3) & I4). repeat split; auto.
           ++ exists (new ++ [e]). rewrite I3, A, <- app_assoc. reflexivity.
           ++ intros X. rewrite X, A in I3. destruct new; discriminate.
Qed.

(** The first grid is run. *)
Lemma grid_loop_runs g t r :
  0 <= g -> ns_min r <= nth (Z.to_nat g) (r_ns i) 0 -> stages r = [] ->
  Forall (fun g => 0 <= g) t ->
  match grid_loop i E (g :: t) r with
  | GReturn _ r' | GNext _ r' => stages r' <> []
  end.
Proof.
  intros Hg HN HE HF. cbn [grid_loop].
  destruct (Z.ltb_spec g 0); [lia|]. cbv zeta. cbn [ns_min].
  destruct (Z.ltb_spec (nth (Z.to_nat g) (r_ns i) 0) (ns_min r)); [lia|].
  set (r1 := mkRst _ _ _ _ _ _).
  assert (E1 : stages r1 = []) by (subst r1; cbn; exact HE).
  clearbody r1.
  match goal with |- context [run_stage i E g ?a ?b ?d r1] =>
    pose proof (run_stage_spec g a b d r1 ltac:(rewrite E1; constructor)) as HR;
    destruct (run_stage i E g a b d r1) as [[cc r'|gu r']|r'] end.
  - destruct HR as (e & A & _). rewrite A. discriminate.
  - destruct HR as (_ & _ & e & A & _). rewrite A. discriminate.
  - destruct HR as (e & A & B1 & B2 & B3 & B4 & B5 & B6 & _).
    assert (HS' : soft (stages r')) by (rewrite A, E1; repeat constructor; auto).
    clear E1.
    assert (X : forall tt, Forall (fun g => 0 <= g) tt -> forall q, stages q <> [] -> soft (stages q) ->
      match grid_loop i E tt q with GReturn _ r' | GNext _ r' => stages r' <> [] end).
    { clear. intros tt HF. induction HF as [|h u Hh HF IH]; intros q NE HS; cbn [grid_loop]; [exact NE|].
      destruct (Z.ltb_spec h 0); [lia|]. cbv zeta. cbn [ns_min].
      destruct (_ <? _); [apply IH; auto|].
      set (r2 := mkRst _ _ _ _ _ _).
      assert (E2 : stages r2 = stages q) by reflexivity. clearbody r2.
      match goal with |- context [run_stage i E h ?a ?b ?d r2] =>
        pose proof (run_stage_spec h a b d r2 ltac:(rewrite E2; exact HS)) as HR;
        destruct (run_stage i E h a b d r2) as [[cc r3|gu r3]|r3] end.
      - destruct HR as (e & A & _). rewrite A. discriminate.
      - destruct HR as (_ & _ & e & A & _). rewrite A. discriminate.
      - destruct HR as (e & A & _ & _ & _ & _ & B & _).
        apply IH; [rewrite A; discriminate|rewrite A; constructor; auto].
        rewrite E2; auto. }
    apply X; auto. rewrite A. discriminate.
Qed.

Lemma run_spec s :
  1 <= r_maxgrid i -> r_ns i <> [] -> 3 <= nth 0 (r_ns i) 0 ->
  (* the inserted ns = 3 stage never happens *)
  let res := run i E s in
  users (stages (run_state res)) /\
  only_last_fails (stages (run_state res)) /\
  stages (run_state res) <> [] /\
  match res with
  | RunOk r => r_retout i = true \/ last_converged (stages r)
  | _ => True
  end.
Proof.
  intros HM HN H3. unfold run. cbn [jacob_loop sol ns_old niterv lam stages].
  change (- 0) with 0.
  set (mg := max_grids i).
  assert (HMG : 1 <= mg).
  { subst mg. unfold max_grids. destruct (r_ns i); [congruence|]. cbn [length]. lia. }
  assert (HZ : exists t, zrange 0 mg = 0 :: t /\ Forall (fun g => 0 <= g < mg) t).
  { exists (zrange 1 mg). split; [apply (zrange_cons 0 mg); lia|].
    apply Forall_forall. intros g Hg. apply zrange_In in Hg. lia. }
  destruct HZ as (t & HZ & HF). rewrite HZ.
  set (r0 := mkRst _ 0 3 _ _ _).
  assert (E0 : stages r0 = [] /\ ns_min r0 = 3) by (subst r0; auto).
  clearbody r0. destruct E0 as (E0 & E3).
  pose proof (grid_loop_spec (0 :: t) ltac:(constructor; [fold mg; lia|exact HF]) r0) as HG.
  pose proof (grid_loop_runs 0 t r0 ltac:(lia) ltac:(rewrite E3; exact H3) E0
    ltac:(revert HF; apply Forall_impl; lia)) as HR.
  unfold soft, users, last_ok in HG. rewrite E0 in HG.
  specialize (HG ltac:(constructor) ltac:(constructor) I).
  destruct (grid_loop i E (0 :: t) r0) as [[] r'|[] r'].
  - cbn. destruct HG as (A & B & _). exact (conj B (conj A (conj HR I))).
  - cbn. destruct HG as (A & B & _). exact (conj B (conj A (conj HR I))).
  - destruct HG as (A & B & C & _). unfold finish_run.
    destruct (_ && _); cbn [run_state]; [exact (conj C (conj B (conj HR I)))|].
    exact (conj C (conj B (conj HR (or_introl A)))).
  - destruct HG as (A & B & C & _).
    destruct (stages r') as [|e l] eqn:ES; [congruence|].
    destruct C as (C & D).
    assert (NB : st_eqb (status (sol r')) ST_BAD_JACOBIAN = false).
    { unfold hard_failed in D. rewrite C in D. destruct (status (sol r')); auto; discriminate. }
    rewrite NB. cbn [negb]. unfold finish_run.
    assert (OL : only_last_fails (stages r')) by (rewrite ES; inversion A; auto).
    destruct (negb (st_eqb (status (sol r')) ST_SUCCESS)) eqn:ESU; cbn [andb].
    + destruct (r_retout i) eqn:ER; cbn [negb run_state]; rewrite ES in *; repeat split; auto.
    + cbn [run_state]. rewrite ES in *. repeat split; auto.
      right. cbn. rewrite C. destruct (status (sol r')); auto; discriminate.
Qed.

(** Lambda scale of every stage for a non-decreasing schedule. *)
Definition prev_ns (g : Z) : Z := if g =? 0 then 0 else nth (Z.to_nat (g - 1)) (r_ns i) 0.
Definition scaled (l : list (@stage_log K)) : Prop :=
  Forall (fun e => l_lam e =
    if l_ns e =? prev_ns (l_grid e) then nZ 0 else lamscale_of E (l_ns e)) l.

Lemma grid_loop_lam lo n : forall r,
  0 <= lo -> soft (stages r) -> scaled (stages r) -> ns_old r = prev_ns lo ->
  (0 < Z.of_nat n -> ns_min r <= nth (Z.to_nat lo) (r_ns i) 0) ->
  (forall a b, lo <= a <= b -> b < lo + Z.of_nat n ->
     nth (Z.to_nat a) (r_ns i) 0 <= nth (Z.to_nat b) (r_ns i) 0) ->
  match grid_loop i E (zseq lo n) r with
  | GReturn _ r' | GNext _ r' => scaled (stages r')
  end.
Proof.
  revert lo. induction n as [|n IH]; intros lo r Hlo HS HC HO HM HI;
    cbn [zseq grid_loop]; [exact HC|].
  destruct (Z.ltb_spec lo 0); [lia|]. cbv zeta. cbn [ns_min].
  destruct (Z.ltb_spec (nth (Z.to_nat lo) (r_ns i) 0) (ns_min r)); [specialize (HM ltac:(lia)); lia|].
  set (r1 := mkRst _ _ _ _ _ _).
  assert (E1 : stages r1 = stages r /\ ns_old r1 = ns_old r /\ lam r1 = nZ 0 /\
    ns_min r1 = nth (Z.to_nat lo) (r_ns i) 0) by (repeat split; reflexivity).
  clearbody r1. destruct E1 as (E1 & E2 & E3 & E4).
  match goal with |- context [run_stage i E lo ?a ?b ?d r1] =>
    pose proof (run_stage_spec lo a b d r1 ltac:(rewrite E1; exact HS)) as HR;
    destruct (run_stage i E lo a b d r1) as [[cc r'|gu r']|r'] end.
  all: rewrite E2, E3, HO, Z.eqb_sym in HR.
  - destruct HR as (e & A & B1 & B2 & B3 & B4 & B5). rewrite A, E1.
    constructor; [rewrite B4, B2, B1; reflexivity|exact HC].
  - destruct HR as (_ & _ & e & A & B1 & B2 & B3 & B4 & B5). rewrite A, E1.
    constructor; [rewrite B3, B2, B1; reflexivity|exact HC].
  - destruct HR as (e & A & B1 & B2 & B3 & B4 & B5 & B6 & B7 & B8).
    apply IH; try lia.
    + rewrite A, E1. constructor; auto.
    + rewrite A, E1. constructor; [rewrite B3, B2, B1; reflexivity|exact HC].
    + rewrite B7. unfold prev_ns. destruct (Z.eqb_spec (lo + 1) 0); [lia|].
      replace (lo + 1 - 1) with lo by lia. reflexivity.
    + intros. rewrite B8, E4. apply HI; lia.
    + intros; apply HI; lia.
Qed.

Lemma run_lam s :
  1 <= r_maxgrid i -> r_ns i <> [] -> 3 <= nth 0 (r_ns i) 0 ->
  (forall a b, 0 <= a <= b -> b < Z.of_nat (length (r_ns i)) ->
     nth (Z.to_nat a) (r_ns i) 0 <= nth (Z.to_nat b) (r_ns i) 0) ->
  scaled (stages (run_state (run i E s))).
Proof.
  intros HM HN H3 HI. unfold run. cbn [jacob_loop sol ns_old niterv lam stages].
  change (- 0) with 0.
  assert (HMG : 1 <= max_grids i <= Z.of_nat (length (r_ns i))).
  { unfold max_grids. destruct (r_ns i); [congruence|]. cbn [length]. lia. }
  set (mg := max_grids i) in *.
  assert (HF : Forall (fun g => 0 <= g < mg) (zrange 0 mg)).
  { apply Forall_forall. intros g Hg. apply zrange_In in Hg. lia. }
  assert (HR0 : exists t, zrange 0 mg = 0 :: t /\ Forall (fun g => 0 <= g) t).
  { exists (zrange 1 mg). split; [apply (zrange_cons 0 mg); lia|].
    apply Forall_forall. intros g Hg. apply zrange_In in Hg. lia. }
  set (r0 := mkRst _ 0 3 _ _ _).
  assert (E0 : stages r0 = [] /\ ns_min r0 = 3 /\ ns_old r0 = 0) by (subst r0; auto).
  clearbody r0. destruct E0 as (E0 & E3 & E4).
  pose proof (grid_loop_spec (zrange 0 mg) HF r0) as HG.
  unfold soft, users, last_ok in HG. rewrite E0 in HG.
  specialize (HG ltac:(constructor) ltac:(constructor) I).
  pose proof (grid_loop_lam 0 (Z.to_nat (mg - 0)) r0 ltac:(lia)
    ltac:(rewrite E0; constructor) ltac:(rewrite E0; constructor) E4
    ltac:(intros; rewrite E3; exact H3)) as HL.
  specialize (HL ltac:(intros; apply HI; lia)).
  fold (zrange 0 mg) in HL.
  assert (HX : match grid_loop i E (zrange 0 mg) r0 with
               | GReturn _ r' | GNext _ r' => stages r' <> [] end).
  { destruct HR0 as (t & -> & HFt).
    apply grid_loop_runs; auto; try lia. rewrite E3. exact H3. }
  destruct (grid_loop i E (zrange 0 mg) r0) as [[] r'|[] r']; try exact HL.
  - unfold finish_run. destruct (_ && _); exact HL.
  - destruct HG as (A & B & C & _).
    destruct (stages r') as [|e l] eqn:ES; [congruence|].
    destruct C as (C & D).
    assert (NB : st_eqb (status (sol r')) ST_BAD_JACOBIAN = false).
    { unfold hard_failed in D. rewrite C in D. destruct (status (sol r')); auto; discriminate. }
    rewrite NB. cbn [negb]. unfold finish_run.
    destruct (_ && _); cbn [run_state]; rewrite ES; exact HL.
Qed.

(** A solver object that was interrupted stays interrupted. *)
Lemma init_interrupted ns niter ftol r :
  interrupted (sol (initialize_radial i E ns niter ftol r)) = interrupted (sol r).
Proof.
  unfold initialize_radial, init_stage. cbv zeta.
  destruct (ns_old r =? ns); destruct (r_lfreeb i && _ && _ && _); reflexivity.
Qed.

Lemma run_interrupted s :
  1 <= r_maxgrid i -> r_ns i <> [] -> 3 <= nth 0 (r_ns i) 0 ->
  interrupted s = true ->
  exists r, run i E s = RunCancelled r /\ interrupted (sol r) = true /\
            length (stages r) = 1%nat.
Proof.
  intros HM HN H3 HI. unfold run. cbn [jacob_loop sol ns_old niterv lam stages].
  change (- 0) with 0.
  assert (HMG : 1 <= max_grids i).
  { unfold max_grids. destruct (r_ns i); [congruence|]. cbn [length]. lia. }
  rewrite (zrange_cons 0 (max_grids i)) by lia. cbn [grid_loop].
  change (0 <? 0) with false. cbv zeta. cbn [ns_min sol ns_old niterv lam stages].
  change (Z.to_nat 0) with 0%nat.
  destruct (Z.ltb_spec (nth 0 (r_ns i) 0) 3); [lia|].
  set (r1 := mkRst _ _ _ _ _ _).
  assert (H1 : interrupted (sol r1) = true)
    by (subst r1; cbn; destruct (_ && _); exact HI).
  assert (E1 : stages r1 = []) by reflexivity.
  clearbody r1. unfold run_stage. cbv zeta.
  pose proof (init_interrupted (nth 0 (r_ns i) 0) (nth 0 (r_niter i) 0) (nth 0 (r_ftol i) (nZ 0)) r1) as HX.
  pose proof (init_frame (nth 0 (r_ns i) 0) (nth 0 (r_niter i) 0) (nth 0 (r_ftol i) (nZ 0)) r1) as (HY & _).
  set (r2 := initialize_radial _ _ _ _ _ r1) in *. clearbody r2.
  match goal with |- context [solve_equilibrium ?a ?b (sol r2)] =>
    pose proof (solve_J a b (sol r2) ltac:(unfold J; congruence)) as HJ;
    destruct (solve_equilibrium a b (sol r2)) as [s2|s2|s2]; try contradiction end.
  eexists; split; [reflexivity|]. split; [exact HJ|]. cbn. rewrite HY, E1. reflexivity.
Qed.

End P.
