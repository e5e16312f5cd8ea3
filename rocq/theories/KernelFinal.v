(** Assembly of the pointwise facts into the statements of KernelProps. *)
From Coq Require Import ZArith List Lia Bool.
From Verif Require Import Base BaseLemmas Num PartModel PartSpec PartProofs PartProps.
From Verif Require Import KernelModel KernelSpec KernelProofs LamPreProofs.
Import ListNotations.
Open Scope Z_scope.

Lemma same_metric_sym {K : num} d (a b : @metp K) : same_metric d a b -> same_metric d b a.
Proof. unfold same_metric. intros (A1 & A2 & A3 & A4). repeat split; try congruence. intros; symmetry; auto. Qed.
Lemma same_metric_trans {K : num} d (a b e : @metp K) :
  same_metric d a b -> same_metric d b e -> same_metric d a e.
Proof. unfold same_metric. intros (A1 & A2 & A3 & A4) (B1 & B2 & B3 & B4).
  repeat split; try congruence. intros; rewrite A4, B4 by auto; reflexivity. Qed.
Lemma same_lf_join {K : num} d (a b e : @lfrc K) :
  same_lambda_force d a e -> same_lambda_force d b e -> same_lambda_force d a b.
Proof. unfold same_lambda_force. intros (A1 & A2 & A3) (B1 & B2 & B3).
  split; [congruence|split; [congruence|]]. intros D. specialize (A3 D). specialize (B3 D). intuition congruence. Qed.
Lemma same_mf_join {K : num} d (a b e : @mfrc K) :
  same_mhd_force d a e -> same_mhd_force d b e -> same_mhd_force d a b.
Proof. unfold same_mhd_force. intros (A1 & A2 & A3 & A4 & A5 & A6 & A7 & A8 & A9) (B1 & B2 & B3 & B4 & B5 & B6 & B7 & B8 & B9).
  do 8 (split; [congruence|]). intros D. specialize (A9 D). specialize (B9 D). intuition congruence. Qed.

Lemma forces_thread_independent :
  forall (K : num) (npow : K -> K -> K) (nneg : K -> K) (ncopysign : K -> K -> K)
         (c : kcfg) (f : fields) (T T' t t' : Z) (p q : rpart) (x y : kin) (old old' : kold),
    0 <= knZnT c ->
    1 <= T -> 2 * T <= kns c -> 0 <= t < T ->
    1 <= T' -> 2 * T' <= kns c -> 0 <= t' < T' ->
    adjustRadialPartitioning T t (kns c) (klfreeb c) = Some p ->
    adjustRadialPartitioning T' t' (kns c) (klfreeb c) = Some q ->
    holds_part (knZnT c) p f x -> holds_part (knZnT c) q f y ->
    same_results c p q (eval_thread npow nneg ncopysign c p x old)
                       (eval_thread npow nneg ncopysign c q y old').
Proof.
  intros K npow nneg ncs c f T T' t t' p q x y old old' Hn HT H2 Ht HT' H2' Ht' Ep Eq Hx Hy.
  pose proof (adjust_range_ok _ _ _ _ _ HT H2 Ht Ep) as Rp.
  pose proof (adjust_range_ok _ _ _ _ _ HT' H2' Ht' Eq) as Rq.
  pose proof (eval_ok npow nneg ncs c Hn f p Rp x Hx old) as A.
  pose proof (eval_ok npow nneg ncs c Hn f q Rq y Hy old') as B.
  cbv zeta in A, B.
  set (a := eval_thread _ _ _ _ _ _ _) in *. set (b := eval_thread _ _ _ c q y old') in *.
  clearbody a b.
  destruct A as (A1 & A2 & A3 & A4 & A5 & A6 & A7 & A8 & A9 & A10 & A11).
  destruct B as (B1 & B2 & B3 & B4 & B5 & B6 & B7 & B8 & B9 & B10 & B11).
  unfold same_results. split; [|split; [|split; [|split]]].
  - intros h kl Hp Hq Hk. cbv zeta.
    split; [rewrite A1, B1 by auto; reflexivity|].
    split; [eapply same_metric_trans; [apply A2; auto|apply same_metric_sym, B2; auto]|].
    split; [rewrite A6, B6 by auto; reflexivity|].
    split; [rewrite A7, B7 by auto; reflexivity|].
    rewrite A8, B8 by auto; reflexivity.
  - intros h Hp Hq. rewrite A3, A4, A5, B3, B4, B5 by auto. auto.
  - intros j Hp Hq. rewrite A9, B9 by auto. reflexivity.
  - intros j kl Hp Hq Hk. eapply same_lf_join; [apply A10; auto|apply B10; auto].
  - intros j kl Hp Hq Hk. eapply same_mf_join; [apply A11; auto|apply B11; auto].
Qed.

Lemma single_thread_owns_all :
  forall (ns T : Z) (lfreeb : bool), 1 <= T -> 2 * T <= ns ->
    exists q, adjustRadialPartitioning 1 0 ns lfreeb = Some q /\
      nsMinF q = 0 /\ nsMaxF q = (if lfreeb then ns else ns - 1) /\ nsMaxFIncludingLcfs q = ns /\
      nsMinH q = 0 /\ nsMaxH q = ns - 1 /\ nsMinFi q = 1 /\ nsMaxFi q = ns - 1 /\
      (forall j, 0 <= j < (if lfreeb then ns else ns - 1) ->
         exists t p, 0 <= t < T /\ adjustRadialPartitioning T t ns lfreeb = Some p /\
                     nsMinF p <= j < nsMaxF p).
Proof.
  intros ns T lfreeb HT H2. unfold adjustRadialPartitioning at 1.
  rewrite Z.quot_div_nonneg by lia.
  assert (1 <= ns / 2) by (apply Z.div_le_lower_bound; lia).
  destruct (Z.gtb_spec 1 (ns / 2)); [lia|]. cbn [Z.gtb Z.compare Pos.compare Pos.compare_cont].
  eexists. split; [reflexivity|]. cbn [nsMinF1 nsMaxF1 nsMinH nsMaxH nsMinF nsMaxF nsMinFi nsMaxFi nsMaxFIncludingLcfs].
  rewrite Z.eqb_refl. do 7 (split; [reflexivity|]).
  intros j Hj. destruct (C01_radial_work_sharing ns T lfreeb HT H2) as (r & R1 & (R2 & _) & _).
  destruct (R2 j Hj) as (t & (Ht & Hr) & _). exists t, (r t). auto.
Qed.

Section A.
Context {K : num} (c : @kcfg K) (M : Z -> Z -> @metp K).

Lemma fold_acc {A B} (g : A -> B) (step : Z -> A -> A) (s0 : A) (G : Z -> B -> B) n :
  (forall kl s, g (step kl s) = G kl (g s)) ->
  g (for_up 0 n step s0) = for_up 0 n G (g s0).
Proof.
  intros H. unfold for_up. generalize (zrange 0 n) as l. intros l. revert s0.
  induction l as [|k l IH]; intros s0; cbn; [reflexivity|]. rewrite IH, H. reflexivity.
Qed.

Lemma surface_sum_for n (F : Z -> K) : surface_sum n F = for_up 0 n (fun kl s => nadd s (F kl)) (nZ 0).
Proof.
  unfold surface_sum, for_up. generalize (zrange 0 n) as l. intros l. generalize (nZ 0 : K) as s.
  induction l as [|k l IH]; intros s; cbn; [reflexivity|]. apply IH.
Qed.

Lemma Gint_lb h : lb (Gint c M h) = surface_sum (knZnT c) (fun kl =>
  nmul (ndiv (guu (M h kl)) (gsqrt (M h kl))) (kwInt c (Z.rem kl (knThetaEff c)))).
Proof. rewrite surface_sum_for. unfold Gint. apply (fold_acc lb). reflexivity. Qed.
Lemma Gint_lc h : lc (Gint c M h) = surface_sum (knZnT c) (fun kl =>
  nmul (ndiv (gvv (M h kl)) (gsqrt (M h kl))) (kwInt c (Z.rem kl (knThetaEff c)))).
Proof. rewrite surface_sum_for. unfold Gint. apply (fold_acc lc). reflexivity. Qed.
Lemma Gint_ld h : klthreed c = true -> ld (Gint c M h) = surface_sum (knZnT c) (fun kl =>
  nmul (ndiv (guv (M h kl)) (gsqrt (M h kl))) (kwInt c (Z.rem kl (knThetaEff c)))).
Proof.
  intros D. rewrite surface_sum_for. unfold Gint. apply (fold_acc ld).
  intros. unfold lpc_add. rewrite D. reflexivity.
Qed.

Lemma Gavg_view (g : @lpc K -> K) (I : Z -> K) :
  (forall h, g (Gint c M h) = I h) -> g lpc_zero = nZ 0 ->
  (forall a b, g (lpc_avg a b) = nmul (nfrac 1 2) (nadd (g a) (g b))) ->
  forall j, g (Gavg c M j) = full_grid_value (kns c) I j.
Proof.
  intros H1 H2 H3 j. unfold Gavg, full_grid_value.
  destruct (j =? 0); [apply H1|]. destruct (j =? kns c - 1); rewrite H3, H1, ?H1, ?H2; reflexivity.
Qed.
End A.

(** The element behind the last half-grid value is never written. *)
Lemma history_sentinel {K : num} (c : @kcfg K) p hist a :
  0 <= knZnT c -> range_ok (kns c) (klfreeb c) p -> sentinel c p a ->
  sentinel c p (fold_left (fun a m => lambda_averages c p m a) hist a).
Proof.
  intros Hn R. revert a. induction hist as [|m hist IH]; intros a S; cbn [fold_left]; [exact S|].
  apply IH.
  (* the metric of that update defines its own global metric *)
  apply (averages_ok c (fun h kl => m ((h - nsMinH p) * knZnT c + kl)) p R m); auto.
  intros h kl _ _. unfold same_metric. auto.
Qed.

Lemma lambda_averages_spec :
  forall (K : num) (c : kcfg) (M : Z -> Z -> metp) (T t : Z) (p : rpart)
         (history : list (Z -> metp)) (met : Z -> @metp K),
    0 <= knZnT c -> 1 <= T -> 2 * T <= kns c -> 0 <= t < T ->
    adjustRadialPartitioning T t (kns c) (klfreeb c) = Some p ->
    holds_metric c p M met ->
    let zeroed := fun _ : Z => mkLpc (nZ 0) (nZ 0) (nZ 0) in
    let before := fold_left (fun a m => lambda_averages c p m a) history zeroed in
    let after := lambda_averages c p met before in
    let w kl := kwInt c (Z.rem kl (knThetaEff c)) in
    forall j, nsMinF p <= j < nsMaxFIncludingLcfs p ->
      lb (after (j - nsMinF p)) =
        full_grid_value (kns c) (fun h => surface_sum (knZnT c) (fun kl =>
          nmul (ndiv (guu (M h kl)) (gsqrt (M h kl))) (w kl))) j /\
      lc (after (j - nsMinF p)) =
        full_grid_value (kns c) (fun h => surface_sum (knZnT c) (fun kl =>
          nmul (ndiv (gvv (M h kl)) (gsqrt (M h kl))) (w kl))) j /\
      (klthreed c = true ->
       ld (after (j - nsMinF p)) =
        full_grid_value (kns c) (fun h => surface_sum (knZnT c) (fun kl =>
          nmul (ndiv (guv (M h kl)) (gsqrt (M h kl))) (w kl))) j).
Proof.
  intros K c M T t p hist met Hn HT H2 Ht Ep HM zeroed before after w j Hj.
  pose proof (adjust_range_ok _ _ _ _ _ HT H2 Ht Ep) as R.
  assert (S : sentinel c p before) by (apply history_sentinel; auto; intros _; reflexivity).
  destruct (averages_ok c M p R met HM before S) as (E & _). cbv zeta in E. fold after in E.
  rewrite E by auto. split; [|split].
  - apply (Gavg_view c M lb); [apply Gint_lb|reflexivity|reflexivity].
  - apply (Gavg_view c M lc); [apply Gint_lc|reflexivity|reflexivity].
  - intros D. apply (Gavg_view c M ld); [intros; apply Gint_ld; auto|reflexivity|reflexivity].
Qed.

Lemma preconditioner_thread_independent :
  forall (K : num) (npow ncopysign : K -> K -> K) (c : kcfg) (M : Z -> Z -> metp) (sF : Z -> K)
         (T T' t t' : Z) (p q : rpart) (hist hist' : list (Z -> metp)) (met met' : Z -> @metp K)
         (sp sq old old' : Z -> K),
    0 <= knZnT c -> 0 <= kmpol c -> 0 <= kntor c ->
    1 <= T -> 2 * T <= kns c -> 0 <= t < T ->
    1 <= T' -> 2 * T' <= kns c -> 0 <= t' < T' ->
    adjustRadialPartitioning T t (kns c) (klfreeb c) = Some p ->
    adjustRadialPartitioning T' t' (kns c) (klfreeb c) = Some q ->
    holds_metric c p M met -> holds_metric c q M met' ->
    (forall j, nsMinF1 p <= j < nsMaxF1 p -> sp (j - nsMinF1 p) = sF j) ->
    (forall j, nsMinF1 q <= j < nsMaxF1 q -> sq (j - nsMinF1 q) = sF j) ->
    let zeroed := fun _ : Z => mkLpc (nZ 0) (nZ 0) (nZ 0) in
    let a := fold_left (fun a m => lambda_averages c p m a) hist zeroed in
    let b := fold_left (fun a m => lambda_averages c q m a) hist' zeroed in
    forall j m n, nsMinF p <= j < nsMaxFIncludingLcfs p -> nsMinF q <= j < nsMaxFIncludingLcfs q ->
      0 <= m < kmpol c -> 0 <= n <= kntor c ->
      update_lambda_preconditioner npow ncopysign c p met sp a old
        (((j - nsMinF p) * kmpol c + m) * (kntor c + 1) + n) =
      update_lambda_preconditioner npow ncopysign c q met' sq b old'
        (((j - nsMinF q) * kmpol c + m) * (kntor c + 1) + n).
Proof.
  intros K npow ncs c M sF T T' t t' p q hist hist' met met' sp sq old old' Hn Hm0 Hn0
    HT H2 Ht HT' H2' Ht' Ep Eq HM HM' HS HS' zeroed a b j m n Hp Hq Hm Hnn.
  pose proof (adjust_range_ok _ _ _ _ _ HT H2 Ht Ep) as Rp.
  pose proof (adjust_range_ok _ _ _ _ _ HT' H2' Ht' Eq) as Rq.
  assert (Sa : sentinel c p a) by (apply history_sentinel; auto; intros _; reflexivity).
  assert (Sb : sentinel c q b) by (apply history_sentinel; auto; intros _; reflexivity).
  rewrite (pre_ok npow ncs c M sF p Rp met HM sp a old Sa HS Hm0 Hn0) by auto.
  rewrite (pre_ok npow ncs c M sF q Rq met' HM' sq b old' Sb HS' Hm0 Hn0) by auto.
  reflexivity.
Qed.
