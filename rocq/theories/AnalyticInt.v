(** The integrated (current) variants evaluated with the Gauss-Legendre rule. *)
From Coq Require Import ZArith List Bool Reals Lra Lia.
From Coquelicot Require Import Coquelicot.
From Verif Require Import Base BaseLemmas SumLemmas ProfileModel ProfileSpec PolyProofs CubicProofs AkimaEval AnalyticProofs.
Import ListNotations.
Open Scope R_scope.

Lemma gl_node_range i : (0 <= i < 10)%Z -> 0 < vat gl_nodes i < 1.
Proof.
  intros H. assert (D : forall n, (n < 10)%nat -> 0 < nth n gl_nodes 0 < 1).
  { intros n Hn. do 10 (destruct n as [|n]; [cbn [gl_nodes nth]; lra|]). lia. }
  apply D. lia.
Qed.

Lemma gl_sum_eval (f : R -> outcome) (g : R -> R) x : 0 <= x <= 1 ->
  (forall y, 0 <= y <= 1 -> f y = Val (g y)) ->
  gl_sum f x = Val (zsum 0 10 (fun i => vat gl_weights i * g (x * vat gl_nodes i)) * x).
Proof.
  intros Hx Hf. unfold gl_sum.
  enough (G : forall n, (0 <= n)%Z -> (n <= 10)%Z ->
    for_up 0 n (fun i o => obind o (fun s => obind (f (x * vat gl_nodes i)) (fun y =>
             Val (s + vat gl_weights i * y)))) (Val 0)
    = Val (zsum 0 n (fun i => vat gl_weights i * g (x * vat gl_nodes i)))).
  { rewrite G by lia. reflexivity. }
  intros n Hn. pattern n. revert n Hn. apply natlike_ind.
  - intros _. rewrite for_up_empty, zsum_empty by lia. reflexivity.
  - intros n Hn IH H. unfold Z.succ. rewrite for_up_snoc, zsum_snoc by lia. rewrite IH by lia. cbn [obind].
    pose proof (gl_node_range n ltac:(lia)). rewrite Hf by nra. reflexivity.
Qed.

Lemma gl_continuous (g : R -> R) x : 0 <= x <= 1 -> (forall y, 0 <= y <= 1 -> continuity_pt g y) ->
  continuity_pt (fun x => zsum 0 10 (fun i => vat gl_weights i * g (x * vat gl_nodes i)) * x) x.
Proof.
  intros Hx Hg. apply continuity_pt_mult; [|apply cont_id].
  apply (cont_ext _ (fun x => zsum 0 10 (fun i => if (0 <=? i)%Z && (i <? 10)%Z then vat gl_weights i * g (x * vat gl_nodes i) else 0))).
  { intros y. apply rsum_ext. intros i Hi. apply zrange_In in Hi.
    rewrite (proj2 (Z.leb_le 0 i)), (proj2 (Z.ltb_lt i 10)) by lia. reflexivity. }
  apply (zsum_continuous 0 10 (fun i x => if (0 <=? i)%Z && (i <? 10)%Z then vat gl_weights i * g (x * vat gl_nodes i) else 0)).
  intros k. destruct ((0 <=? k)%Z && (k <? 10)%Z) eqn:E; [|apply cont_const].
  apply andb_prop in E. destruct E as [E1 E2]. apply Z.leb_le in E1. apply Z.ltb_lt in E2.
  apply continuity_pt_mult; [apply cont_const|].
  apply (continuity_pt_comp (fun x => x * vat gl_nodes k) g).
  - apply continuity_pt_mult; [apply cont_id|apply cont_const].
  - apply Hg. pose proof (gl_node_range k ltac:(lia)). nra.
Qed.

Lemma gl_edge (F f : R -> outcome) (g : R -> R) :
  (forall x, 0 <= x <= 1 -> F x = gl_sum f x) ->
  (forall y, 0 <= y <= 1 -> f y = Val (g y)) -> (forall y, 0 <= y <= 1 -> continuity_pt g y) ->
  edge_continuous (rel F).
Proof.
  intros HF Hf Hg.
  apply (edge_of_continuous _ (fun x => zsum 0 10 (fun i => vat gl_weights i * g (x * vat gl_nodes i)) * x) 1); [lra| |].
  - intros x Hx. rewrite HF by lra. apply gl_sum_eval; [lra|exact Hf].
  - apply gl_continuous; [lra|exact Hg].
Qed.

Lemma two_power_int_edge c : (3 <= vlen c)%Z -> 0 < vat c 1 -> 0 < vat c 2 -> edge_continuous (rel (fun x => evalTwoPower c x true)).
Proof.
  intros Hl H1 H2. eapply gl_edge.
  - intros x Hx. unfold evalTwoPower. destruct (Z.ltb_spec (vlen c) 3); [lia|]. cbn [negb]. reflexivity.
  - intros y Hy. apply two_power_eval; assumption.
  - intros y Hy. apply two_power_continuous; assumption.
Qed.
Lemma two_power_gs_int_edge c : (3 <= vlen c)%Z -> 0 < vat c 1 -> 0 < vat c 2 -> gs_ok c -> edge_continuous (rel (fun x => evalTwoPowerGs c x true)).
Proof.
  intros Hl H1 H2 Ok. eapply gl_edge.
  - intros x Hx. unfold evalTwoPowerGs. destruct (Z.ltb_spec (vlen c) 3); [lia|]. cbn [negb]. reflexivity.
  - intros y Hy. cbn beta. rewrite !coef_vat by lia. rewrite two_power_eval by assumption. cbn [obind]. rewrite gs_eval by exact Ok. cbn [obind].
    apply (eq_refl (Val ((fun y => vat c 0 * ppow (1 - ppow y (vat c 1)) (vat c 2) * gs_fun c y) y))).
  - intros y Hy. apply continuity_pt_mult; [apply two_power_continuous; assumption|apply gs_continuous].
Qed.
Lemma gauss_int_edge c : (2 <= vlen c)%Z -> vat c 1 <> 0 -> edge_continuous (rel (fun x => evalGaussTrunc c x true)).
Proof.
  intros Hl H1. set (a := vat c 1) in *. set (e := exp (- (1 / a) ^ 2)).
  apply (gl_edge _ (fun y => Val (vat c 0 * (exp (- (y / a) ^ 2) - e))) (fun y => vat c 0 * (exp (- (y / a) ^ 2) - e))).
  - intros x Hx. rewrite (gl_sum_eval _ (fun y => vat c 0 * (exp (- (y / a) ^ 2) - e)) x Hx) by reflexivity.
    unfold evalGaussTrunc. destruct (Z.ltb_spec (vlen c) 2); [lia|]. cbv zeta. fold a. unfold odiv at 1.
    destruct (Req_EM_T a 0); [contradiction|]. cbn [obind negb]. fold e. f_equal. f_equal.
    rewrite for_up_sum by lia. rewrite Rplus_0_l. apply rsum_ext. intros. ring.
  - reflexivity.
  - intros y Hy. apply continuity_pt_mult; [apply cont_const|]. apply continuity_pt_minus; [|apply cont_const].
    apply (continuity_pt_comp (fun x => - (x / a) ^ 2) exp).
    + unfold Rdiv. reg.
    + apply derivable_continuous_pt, derivable_pt_exp.
Qed.
