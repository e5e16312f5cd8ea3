From Coq Require Import ZArith List Bool Lia.
From Verif Require Import Base BaseLemmas Num TeamModel TeamProofs PartModel RegionModel.
Import ListNotations.
Open Scope Z_scope.

Section OkCheck.
  Context {val : Type} (prog : Z -> list (instr val)) (uni : Z -> bool) (fuel : nat).

  Fixpoint barsb (k : list (instr val)) : bool :=
    match k with
    | [] => true
    | Bar :: k' => ph prog uni fuel k' [] [] && barsb k'
    | _ :: k' => barsb k'
    end.

  Fixpoint lpc (k : list (instr val)) : Prop :=
    match k with
    | [] => True
    | Lp p f :: k' => (uni p = true -> forall t t' n, f t n = f t' n) /\ lpc k'
    | _ :: k' => lpc k'
    end.

  Lemma okc_intro k : barsb k = true -> lpc k -> okc prog uni fuel k.
  Proof.
    induction k as [|i k IH]; [auto|]. destruct i; cbn; intros H1 H2; try (apply IH; assumption).
    - split; [apply H2|apply IH; [exact H1|apply H2]].
    - apply andb_prop in H1. destruct H1. split; [assumption|apply IH; assumption].
  Qed.
End OkCheck.

Section Region.
  Context {K : num} (S : settings K) (w : world K) (T : Z).
  Let P := region S w T.

  Definition all_uni (p : Z) : bool := true.

  Lemma blocks_bars : forallb (fun b => barsb P all_uni 100 (snd b)) (blocks S w T) = true.
  Proof.
    unfold P. destruct S as [l3 la lf pv ro ni ns0 ns1 c ib dl ft]. 
    destruct l3, la; vm_compute; reflexivity.
  Qed.

  Lemma blocks_start : ph P all_uni 100 (P L0) [] [] = true.
  Proof.
    unfold P. destruct S as [l3 la lf pv ro ni ns0 ns1 c ib dl ft]. 
    destruct l3, la; vm_compute; reflexivity.
  Qed.

  Lemma blocks_lp : (forall t t' n, fails w t n = fails w t' n) -> Forall (fun b => lpc all_uni (snd b)) (blocks S w T).
  Proof.
    intros H. destruct S as [l3 la lf pv ro ni ns0 ns1 c ib dl ft].
    assert (X : forall t t' n, @vb K (fails w t n) = vb (fails w t' n)) by (intros; f_equal; apply H).
    destruct l3, la; repeat (apply Forall_cons; [cbn; repeat split; intros; apply X|]); apply Forall_nil.
  Qed.

  Lemma region_ok : (forall t t' n, fails w t n = fails w t' n) -> ok_prog P all_uni 100.
  Proof.
    intros H l. unfold P, region. destruct (find _ _) as [b|] eqn:E; [|exact I].
    apply find_some in E. destruct E as (I & _).
    apply okc_intro.
    - pose proof blocks_bars as B. rewrite forallb_forall in B. exact (B b I).
    - pose proof (blocks_lp H) as B. rewrite Forall_forall in B. exact (B b I).
  Qed.
End Region.

(** ** The theorems of RegionProps. *)
Definition in_step_ {K : num} (prog : Z -> list (instr (val K))) (T : Z) (c : config (val K)) : Prop :=
  (forall t t' q q', 0 <= t < T -> 0 <= t' < T -> nb (th c t) = nb (th c t') ->
     code (th c t) = Bar :: q -> code (th c t') = Bar :: q' -> q = q') /\
  (forall t t', 0 <= t < T -> 0 <= t' < T -> (nb (th c t) <= S (nb (th c t')))%nat) /\
  ((exists t c', 0 <= t < T /\ fire prog T c t = Some c') \/
   (forall t t', 0 <= t < T -> 0 <= t' < T ->
      ended (th c t) /\ nb (th c t) = nb (th c t') /\
      pv (th c t) pS = pv (th c t') pS /\ pv (th c t) pRc = pv (th c t') pRc)).

Lemma region_in_step (K : num) (S : settings K) (w : world K) (T : Z) s0 p0 c :
    1 <= T -> (forall t t' n, fails w t n = fails w t' n) ->
    runs (region S w T) T (starts (region S w T L0) s0 p0) c ->
    in_step_ (region S w T) T c.
Proof.
  intros HT Hf R.
  pose proof (region_ok S w T Hf) as OK.
  pose proof (starts_inv (region S w T) T all_uni 100 (region S w T L0) s0 p0 (OK L0) (blocks_start S w T)) as I0.
  pose proof (runs_inv (region S w T) T all_uni 100 OK _ _ I0 R) as I.
  split; [|split].
  - intros t t' q q' Ht Ht' En E E'. exact (proj1 (same_barrier _ _ _ _ c t t' q q' I Ht Ht' E E' En)).
  - intros t t' Ht Ht'. exact (count_close _ _ _ _ c t t' I Ht Ht').
  - destruct (progress _ _ _ _ c HT I) as [X|X]; [left; exact X|right].
    intros t t' Ht Ht'. destruct (X t t' Ht Ht') as (A & B & C). repeat split; auto; apply C; reflexivity.
Qed.

Lemma region_in_step_geometry (K : num) (S : settings K) (w : world K) (T : Z) nZnT nThetaEff (wInt : Z -> K) (ru zu : nat -> Z -> Z -> K) (r : Z -> rpart) s0 p0 c :
    1 <= T ->
    (forall t n, fails w t n = constraintForceMultiplier_fails nZnT nThetaEff wInt (ru n) (zu n) (r t)) ->
    (forall n jF, 1 <= jF ->
       neq (surface_norm nZnT nThetaEff wInt (ru n) jF) (nZ 0) = false /\
       neq (surface_norm nZnT nThetaEff wInt (zu n) jF) (nZ 0) = false) ->
    (forall t, 0 <= nsMinF (r t)) ->
    runs (region S w T) T (starts (region S w T L0) s0 p0) c ->
    in_step_ (region S w T) T c.
Proof.
  intros HT Hf Hg Hr R. apply (region_in_step K S w T s0 p0 c HT); [|exact R].
  assert (F : forall t n, fails w t n = false).
  { intros t n. rewrite Hf. unfold constraintForceMultiplier_fails.
    destruct (existsb _ _) eqn:E; [|reflexivity]. apply existsb_exists in E. destruct E as (j & I & X).
    apply zrange_In in I. specialize (Hr t).
    assert (Hj : 1 <= j) by (destruct (Z.eqb_spec (nsMinF (r t)) 0); lia).
    destruct (Hg n j Hj) as (A & B). rewrite A, B in X. discriminate. }
  intros. rewrite !F. reflexivity.
Qed.

(** An executable scheduler. *)
Fixpoint drive {K : num} (prog : Z -> list (instr (val K))) (n : nat) (c : config (val K)) : config (val K) :=
  match n with
  | O => c
  | S n => match fire prog 2 c 0 with
           | Some c' => drive prog n c'
           | None => match fire prog 2 c 1 with Some c' => drive prog n c' | None => c end
           end
  end.

Lemma drive_runs {K : num} (prog : Z -> list (instr (val K))) n c0 c : runs prog 2 c0 c -> runs prog 2 c0 (drive prog n c).
Proof.
  revert c. induction n as [|n IH]; intros c R; [exact R|]. cbn [drive].
  destruct (fire prog 2 c 0) as [c'|] eqn:E; [apply IH; exact (runs_step _ _ _ _ _ 0 R ltac:(lia) E)|].
  destruct (fire prog 2 c 1) as [c'|] eqn:E1; [apply IH; exact (runs_step _ _ _ _ _ 1 R ltac:(lia) E1)|exact R].
Qed.

Definition set0 : settings num_f64 :=
  {| lthreed := true; lasym := false; lfreeb := false; parvmec := false; ret_out := false; niterv := 5; nstep := 1;
     ns := 5; ck := fun _ => false; ibc := 100; delt := nZ 1; ftolv := nfrac 1 100 |}.
Definition small : list num_f64 := [nfrac 1 1000; nfrac 1 1000; nfrac 1 1000].
Definition ru0 : nat -> Z -> Z -> num_f64 := fun _ jF _ => if jF =? 3 then nZ 0 else nZ 1.
Definition zu0 : nat -> Z -> Z -> num_f64 := fun _ _ _ => nZ 1.
Definition part0 (t : Z) : rpart := match adjustRadialPartitioning 2 t 5 false with Some r => r | None => mk_rpart 0 0 0 0 0 0 0 0 0 end.
Definition world0 (bad : bool) : world num_f64 :=
  {| bad_tau := fun _ _ => false;
     fails := fun t n => if bad then constraintForceMultiplier_fails 4 4 (fun _ => nZ 1 : num_f64) (ru0 n) (zu0 n) (part0 t) else false;
     new_fsq := fun _ _ => small; new_fsq1 := fun _ _ => small; new_rbtor := fun _ _ => nZ 1; new_ctor := fun _ _ => nZ 1;
     new_bsubu := fun _ _ => nZ 1; new_bsubv := fun _ _ => nZ 1; vac_ck := fun _ _ => false; interrupt := fun _ => false |}.
Definition store0 (v : Z) : val num_f64 :=
  if v =? vRestart then VI NO_RESTART else if v =? vVac then VI kOff else
  if v =? vIter1 then VI 1 else if v =? vIter2 then VI 1 else if v =? vLiter then VI 1 else
  if (v =? vFsq) || (v =? vFsq1) || (v =? vFsqB) then VD [nZ 1; nZ 1; nZ 1] else
  if (v =? vRes0) || (v =? vRes1) then VD [nZ (-1)] else if v =? vDelt then VD [nZ 1] else VI 0.
Definition private0 (p : Z) : val num_f64 := VI 1.
Definition final (bad : bool) : config (val num_f64) :=
  drive (region set0 (world0 bad) 2) 500 (starts (region set0 (world0 bad) 2 L0) store0 private0).

Lemma final_runs bad : runs (region set0 (world0 bad) 2) 2 (starts (region set0 (world0 bad) 2 L0) store0 private0) (final bad).
Proof. unfold final. generalize 500%nat. intros n. apply drive_runs, runs_refl. Qed.

Definition at_end (x : thread (val num_f64)) : bool := match code x with Rt :: _ => true | _ => false end.
Lemma at_end_spec x : at_end x = true <-> ended x.
Proof.
  unfold at_end, ended. destruct (code x) as [|[] k]; split; intros H; try discriminate; try reflexivity;
    try (destruct H; discriminate). eauto.
Qed.
Definition stuck {A} (o : option A) : bool := match o with None => true | Some _ => false end.
Lemma stuck_spec {A} (o : option A) : stuck o = true -> o = None.
Proof. destruct o; [discriminate|reflexivity]. Qed.
Definition is_vi (z : Z) (v : val num_f64) : bool := match v with VI z' => z' =? z | VD _ => false end.
Lemma is_vi_spec z v : is_vi z v = true -> v = VI z.
Proof. destruct v; [|discriminate]. cbn. intros H. apply Z.eqb_eq in H. congruence. Qed.
Definition ival (v : val num_f64) : Z := match v with VI z => z | VD _ => -1 end.

Lemma region_deadlock :
  exists (S : settings num_f64) (w : world num_f64) (ru zu : nat -> Z -> Z -> num_f64) (r : Z -> rpart) s0 p0 c,
    (forall t, 0 <= t < 2 -> adjustRadialPartitioning 2 t 5 false = Some (r t)) /\
    (forall t n, fails w t n = constraintForceMultiplier_fails 4 4 (fun _ => nZ 1 : num_f64) (ru n) (zu n) (r t)) /\
    (forall n jF, 1 <= jF -> jF <> 3 -> neq (surface_norm 4 4 (fun _ => nZ 1 : num_f64) (ru n) jF) (nZ 0) = false) /\
    (forall n jF, neq (surface_norm 4 4 (fun _ => nZ 1 : num_f64) (zu n) jF) (nZ 0) = false) /\
    runs (region S w 2) 2 (starts (region S w 2 L0) s0 p0) c /\
    fire (region S w 2) 2 c 0 = None /\ fire (region S w 2) 2 c 1 = None /\
    ended (th c 1) /\ pv (th c 1) pS = VI 3 /\
    ~ ended (th c 0) /\ pv (th c 0) pRc <> VI 2 /\ ~ in_step_ (region S w 2) 2 c.
Proof.
  exists set0, (world0 true), ru0, zu0, part0, store0, private0, (final true).
  assert (F0 : fire (region set0 (world0 true) 2) 2 (final true) 0 = None) by (apply stuck_spec; vm_compute; reflexivity).
  assert (F1 : fire (region set0 (world0 true) 2) 2 (final true) 1 = None) by (apply stuck_spec; vm_compute; reflexivity).
  assert (N0 : ~ ended (th (final true) 0)).
  { rewrite <- at_end_spec. vm_compute. discriminate. }
  split; [intros t _; reflexivity|].
  split; [intros; reflexivity|].
  split. { intros n jF _ H3. unfold surface_norm, ru0. rewrite (proj2 (Z.eqb_neq _ _) H3). vm_compute. reflexivity. }
  split; [intros n jF; vm_compute; reflexivity|].
  split; [exact (final_runs true)|].
  split; [exact F0|]. split; [exact F1|].
  split; [apply at_end_spec; vm_compute; reflexivity|].
  split; [apply is_vi_spec; vm_compute; reflexivity|].
  split; [exact N0|].
  split.
  { intros H. apply (f_equal ival) in H. vm_compute in H. discriminate. }
  intros (_ & _ & [(t & c' & Ht & E)|X]).
  - assert (t = 0 \/ t = 1) as [-> | ->] by lia; congruence.
  - exact (N0 (proj1 (X 0 0 ltac:(lia) ltac:(lia)))).
Qed.

Lemma region_normal_run : exists (S : settings num_f64) (w : world num_f64) s0 p0 c,
  (forall t t' n, fails w t n = fails w t' n) /\
  runs (region S w 2) 2 (starts (region S w 2 L0) s0 p0) c /\
  ended (th c 0) /\ ended (th c 1) /\ (20 < nb (th c 0))%nat /\ pv (th c 0) pS = VI 1.
Proof.
  exists set0, (world0 false), store0, private0, (final false).
  split; [reflexivity|]. split; [exact (final_runs false)|].
  split; [apply at_end_spec; vm_compute; reflexivity|].
  split; [apply at_end_spec; vm_compute; reflexivity|].
  split; [apply PeanoNat.Nat.ltb_lt; vm_compute; reflexivity|apply is_vi_spec; vm_compute; reflexivity].
Qed.
