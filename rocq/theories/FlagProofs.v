(** Proofs about the status code. *)
From Coq Require Import ZArith List Bool String Lia.
From Verif Require Import Base Num LoopModel LoopSpec LoopCases RunModel RunSpec RunProofs RunCases FlagModel.
Import ListNotations.
Open Scope Z_scope.

Section P.
Context {K : num} {G V F : Type}.
Variable i : @rin K.
Variable E : @renv K G V F.
Notation rst := (@rst K G V F).

(** The newest log entry has the status of the solver *)
Definition logged (r : rst) : Prop := match stages r with [] => True | e :: _ => l_out e = OStatus (status (sol r)) end.
Definition glogged (g : @grid_result K G V F) : Prop := match g with GNext _ r => logged r | GReturn _ _ => True end.

Lemma stage_logged grid ns niter ftol r :
  match run_stage i E grid ns niter ftol r with inl g => glogged g | inr r => logged r end.
Proof.
  unfold run_stage. destruct (solve_equilibrium _ _ _) as [s|s|s]; cbn; try exact I.
  destruct (hard (status s)); [destruct (r_retout i)|]; cbn; try exact I; reflexivity.
Qed.
Lemma grid_logged l : forall r, logged r -> glogged (grid_loop i E l r).
Proof.
  induction l as [|g l IH]; intros r H; [exact H|]. cbn [grid_loop]. destruct (g <? 0).
  - match goal with |- context [run_stage i E ?a ?b ?c ?d ?e] => pose proof (stage_logged a b c d e) as S; destruct (run_stage i E a b c d e) end; auto.
  - cbn [ns_min]. destruct (_ <? ns_min r); [apply IH; exact H|].
    match goal with |- context [run_stage i E ?a ?b ?c ?d ?e] => pose proof (stage_logged a b c d e) as S; destruct (run_stage i E a b c d e) end; auto.
Qed.
Lemma jacob_logged offs : forall r r', logged r -> jacob_loop i E offs r = RunOk r' -> logged r' /\ (r_retout i = true \/ status (sol r') = ST_SUCCESS).
Proof.
  assert (Fin : forall r r', logged r -> finish_run i r = RunOk r' -> logged r' /\ (r_retout i = true \/ status (sol r') = ST_SUCCESS)).
  { intros r r' H. unfold finish_run. destruct (st_eqb (status (sol r)) ST_SUCCESS) eqn:Q; cbn [negb andb].
    - intros [= <-]. split; [exact H|]. right. destruct (status (sol r)); (reflexivity || discriminate Q).
    - destruct (r_retout i); cbn [negb]; [|discriminate]. intros [= <-]. auto. }
  induction offs as [|o offs IH]; intros r r' H; cbn [jacob_loop]; [apply Fin; exact H|].
  match goal with |- context [grid_loop i E ?l ?q] => pose proof (grid_logged l q) as S; destruct (grid_loop i E l q) as [[]|gu r1] end; try discriminate.
  cbn in S. assert (L : logged r1). { apply S. unfold logged in *. cbn [stages sol]. destruct (stages r); [exact I|]. rewrite H. destruct (r_lfreeb i && r_hot i); reflexivity. }
  destruct gu; [apply Fin; exact L|]. destruct (negb _); [apply Fin; exact L|]. intros Q. exact (IH _ _ L Q).
Qed.
Lemma run_flag s r : 1 <= r_maxgrid i -> r_ns i <> [] -> 3 <= nth 0 (r_ns i) 0 -> run i E s = RunOk r ->
  exists e rest, stages r = e :: rest /\ l_out e = OStatus (status (sol r)) /\ (r_retout i = true \/ status (sol r) = ST_SUCCESS).
Proof.
  intros A B C H. destruct (run_spec i E s A B C) as (_ & _ & N & _). rewrite H in N. cbn [run_state] in N.
  unfold run in H. apply jacob_logged in H; [|exact I]. destruct H as [L R]. unfold logged in L. destruct (stages r) as [|e rest]; [congruence|]. exists e, rest. auto.
Qed.
End P.

Lemma flag_zero v : ier_flag v = 0 <-> v = ST_SUCCESS \/ v = ST_NORMAL.
Proof. destruct v; cbn; split; intros H; auto; try discriminate; destruct H; discriminate. Qed.
Lemma flag_spec K G V F (i : @rin K) (E : @renv K G V F) s r : 1 <= r_maxgrid i /\ r_ns i <> [] /\ 3 <= nth 0 (r_ns i) 0 -> run i E s = RunOk r ->
  (last_converged (stages r) -> flag_of r = 0) /\ (r_retout i = false -> flag_of r = 0 /\ last_converged (stages r)) /\
  (flag_of r <> 0 -> r_retout i = true /\ ~ last_converged (stages r)) /\ (summary_converged r = true <-> last_converged (stages r)).
Proof.
  intros (A & B & C) H. destruct (run_flag i E s r A B C H) as (e & rest & S & L & R). unfold flag_of, last_converged, summary_converged. rewrite S, L.
  split; [intros [= Q]; rewrite Q; reflexivity|]. split.
  - intros Q. destruct R as [R|R]; [congruence|]. rewrite R. auto.
  - split.
    + intros Q. destruct R as [R|R]; [|rewrite R in Q; exfalso; apply Q; reflexivity]. split; [exact R|]. intros [= Z]. rewrite Z in Q. apply Q. reflexivity.
    + destruct (status (sol r)); cbn; split; intros Q; congruence.
Qed.
Lemma flag_kinds K G V F (i : @rin K) (E : @renv K G V F) s r e rest : 1 <= r_maxgrid i /\ r_ns i <> [] /\ 3 <= nth 0 (r_ns i) 0 -> run i E s = RunOk r ->
  stages r = e :: rest -> (flag_of r = 1 <-> l_out e = OStatus ST_BAD_JACOBIAN) /\ (flag_of r = 4 <-> l_out e = OStatus ST_JAC75) /\
  (flag_of r = 5 <-> l_out e = OStatus ST_UNRECOVERABLE).
Proof.
  intros (A & B & C) H S. destruct (run_flag i E s r A B C H) as (e' & rest' & S' & L & _). rewrite S in S'. injection S' as -> ->. unfold flag_of. rewrite L.
  destruct (status (sol r)); cbn; repeat split; intros Q; congruence.
Qed.

(** Two runs with outputs requested in any case: 300 iterations are enough, 2 are not *)
Definition fl_in (niter : Z) : @rin num_f64 :=
  @mkRin num_f64 [5] [nfrac 1 1000000] [niter] (nfrac 9 10) 10 false false true 1 1 false false.
Definition fl_run (niter : Z) := run (fl_in niter) (rc_env lc_relax (fun _ => false)) rc_fresh.
Definition fl_view (n : Z) := (returned_outputs (fl_run n), flag_of (run_state (fl_run n)), map (fun e => l_out e) (stages (run_state (fl_run n)))).
Lemma fl_long : fl_view 300 = (true, 0, [OStatus ST_SUCCESS]).
Proof. vm_compute. reflexivity. Qed.
Lemma fl_short : fl_view 2 = (true, 0, [OStatus ST_NORMAL]).
Proof. vm_compute. reflexivity. Qed.
Lemma reasons_wrong : reason (ier_flag ST_SUCCESS) = "no fatal error but convergence was not reached"%string /\
  reason (ier_flag ST_UNRECOVERABLE) = "input parsing error"%string /\ (forall v, reason (ier_flag v) <> "ftolv termination condition satisfied"%string).
Proof.
  split; [reflexivity|]. split; [reflexivity|].
  intros v. destruct v; intros H; apply String.eqb_eq in H; vm_compute in H; discriminate H.
Qed.
Lemma fl_accepted : 1 <= r_maxgrid (fl_in 300) /\ r_ns (fl_in 300) <> [] /\ 3 <= nth 0 (r_ns (fl_in 300)) 0.
Proof. cbn [fl_in r_maxgrid r_ns nth]. split; [lia|]. split; [discriminate|lia]. Qed.
