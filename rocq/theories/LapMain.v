From Coq Require Import ZArith List Bool Reals Lia Lra Permutation.
From Verif Require Import Base BaseLemmas SumLemmas SizesModel FourierModel FourierSpec TrigSums DftSpec DftTables VacTables
  DftForces DftFold SingSumModel SingSumSpec SingSumProofs LapModel LapSpec LapProofs.
Import ListNotations.
Open Scope R_scope.

(** Loops assigning one entry in one iteration. *)
Lemma for_up_set_inv {S T} (Inv : S -> Prop) (pr : S -> T) (body : Z -> S -> S) lo hi x0 v :
  (lo <= x0 < hi)%Z ->
  (forall x s, (lo <= x < hi)%Z -> Inv s -> Inv (body x s)) ->
  (forall s, Inv s -> pr (body x0 s) = v) ->
  (forall x s, (lo <= x < hi)%Z -> x <> x0 -> Inv s -> pr (body x s) = pr s) ->
  forall s, Inv s -> pr (for_up lo hi body s) = v.
Proof.
  intros Hx HI H1 H2 s Hs.
  cut (Inv (for_up lo hi body s) /\ ((x0 < hi)%Z -> pr (for_up lo hi body s) = v)).
  { intros [_ E]. apply E. lia. }
  pose (P := fun (i : Z) (t : S) => Inv t /\ ((x0 < i)%Z -> pr t = v)).
  apply (for_up_ind P); unfold P.
  - lia.
  - split; [assumption|lia].
  - intros i t Hi [It Et]. split; [apply HI; [lia|assumption]|]. intros L.
    destruct (Z.eq_dec i x0) as [->|Ne]; [apply H1; assumption|]. rewrite H2 by (assumption || lia). apply Et. lia.
Qed.
Lemma for_up_set {S T} (pr : S -> T) (body : Z -> S -> S) lo hi x0 v :
  (lo <= x0 < hi)%Z -> (forall s, pr (body x0 s) = v) ->
  (forall x s, (lo <= x < hi)%Z -> x <> x0 -> pr (body x s) = pr s) ->
  forall s, pr (for_up lo hi body s) = v.
Proof. intros. apply (for_up_set_inv (fun _ => True) pr body lo hi x0 v); auto. Qed.
Lemma for_up_keep {S T} (pr : S -> T) (body : Z -> S -> S) lo hi :
  (forall x s, (lo <= x < hi)%Z -> pr (body x s) = pr s) -> forall s, pr (for_up lo hi body s) = pr s.
Proof.
  intros H s. destruct (Z_le_gt_dec lo hi) as [L|L].
  - pose (P := fun (i : Z) (t : S) => pr t = pr s). apply (for_up_ind P); unfold P; [lia|reflexivity|].
    intros i t Hi E. rewrite H by lia. exact E.
  - rewrite for_up_empty by lia. reflexivity.
Qed.
Lemma for_up_proj {S T} (pr : S -> T) (body : Z -> S -> S) (body' : Z -> T -> T) lo hi s :
  (forall j s, (lo <= j < hi)%Z -> pr (body j s) = body' j (pr s)) -> pr (for_up lo hi body s) = for_up lo hi body' (pr s).
Proof. intros H. unfold for_up. apply (fold_project pr (fun s j => body j s) (fun t j => body' j t)). intros t a Ha. apply H. apply zrange_In. exact Ha. Qed.

Section L.
Variable s : sizes.
Hypothesis OK : sz_ok s.
Hypothesis MQ : (sz_mpol s + 1 <= sz_mnyq2 s)%Z.
Variable b0 : basis_tables.
Local Notation fb := (vtab s b0).
Local Notation nT := (sz_nThetaEven s).
Local Notation nTR := (sz_nThetaReduced s).
Local Notation nTE := (sz_nThetaEff s).
Local Notation nz := (sz_nZeta s).
Variables mf nf ztMin ztMax : Z.
Hypothesis Hmf : (0 <= mf <= sz_mpol s + 1)%Z.
Hypothesis Hnf : (0 <= nf <= sz_ntor s)%Z.
Local Notation NL := (ztMax - ztMin)%Z.
Local Notation M := (mnpd mf nf).
Local Notation th l := (ang nT l).
Local Notation ze k := (ang nz k).
Local Notation at_ mn an l := (((mn * (2 * nf + 1) + an) * nTE + l)%Z).
Definition inr (klp : Z) : bool := negb ((klp <? ztMin) || (klp >=? ztMax))%Z%bool.
Definition hval (grpmn : Z -> R) (mn klp : Z) : R := if inr klp then grpmn (mn * NL + (klp - ztMin))%Z else 0.

Lemma at_inj mn an l mn' an' l' : (0 <= l < nTE)%Z -> (0 <= l' < nTE)%Z -> (0 <= an < 2 * nf + 1)%Z -> (0 <= an' < 2 * nf + 1)%Z ->
  at_ mn an l = at_ mn' an' l' -> mn = mn' /\ an = an' /\ l = l'.
Proof. intros. assert (E := H3). apply flat_inj in E; try lia. destruct E as [E1 E2]. apply flat_inj in E1; try lia. Qed.

(** The two passes of the toroidal transform of the kernel. *)
Definition pass1 (c : Z -> Z -> R) (grpmn : Z -> R) : Z -> R :=
  for_up 0 nTE (fun l a => for_up 0 nz (fun k a =>
    let klp := (l * nz + k)%Z in
    if ((klp <? ztMin) || (klp >=? ztMax))%Z%bool then a else
    for_up 0 M (fun mn a => for_up 0 (nf + 1) (fun n a => add_at a (at_ mn (nf + n)%Z l) (c n k * grpmn (mn * NL + (klp - ztMin))%Z)) a) a) a) (fun _ => 0).
Definition pass2 (sg : R -> R) (a : Z -> R) : Z -> R :=
  for_up 0 M (fun mn a => for_up 1 (nf + 1) (fun n a => for_up 0 nTE (fun l a =>
    upd a (at_ mn (nf - n)%Z l) (sg (a (at_ mn (nf + n)%Z l)))) a) a) a.
Lemma tm_fst grpmn : fst (toroidal_matrix s fb mf nf ztMin ztMax grpmn) = pass2 (fun x => x) (pass1 (cosnv_scaled s fb) grpmn).
Proof.
  unfold toroidal_matrix, pass2, pass1. cbv zeta.
  rewrite (for_up_proj fst _ (fun mn a => for_up 1 (nf + 1) (fun n a => for_up 0 nTE (fun l a =>
    upd a (at_ mn (nf - n)%Z l) (a (at_ mn (nf + n)%Z l))) a) a)).
  2:{ intros mn [x y] _. apply (for_up_proj fst). intros n [x1 y1] _. apply (for_up_proj fst). intros l [x2 y2] _. reflexivity. }
  f_equal. rewrite (for_up_proj fst _ (fun l a => for_up 0 nz (fun k a =>
    if ((l * nz + k <? ztMin) || (l * nz + k >=? ztMax))%Z%bool then a else
    for_up 0 M (fun mn a => for_up 0 (nf + 1) (fun n a => add_at a (at_ mn (nf + n)%Z l) (cosnv_scaled s fb n k * grpmn (mn * NL + (l * nz + k - ztMin))%Z)) a) a) a)).
  2:{ intros l [x y] _. apply (for_up_proj fst). intros k [x1 y1] _.
      destruct ((l * nz + k <? ztMin) || (l * nz + k >=? ztMax))%Z%bool; [reflexivity|].
      apply (for_up_proj fst). intros mn [x2 y2] _. apply (for_up_proj fst). intros n [x3 y3] _. reflexivity. }
  reflexivity.
Qed.
Lemma tm_snd grpmn : snd (toroidal_matrix s fb mf nf ztMin ztMax grpmn) = pass2 Ropp (pass1 (sinnv_scaled s fb) grpmn).
Proof.
  unfold toroidal_matrix, pass2, pass1. cbv zeta.
  rewrite (for_up_proj snd _ (fun mn a => for_up 1 (nf + 1) (fun n a => for_up 0 nTE (fun l a =>
    upd a (at_ mn (nf - n)%Z l) (- a (at_ mn (nf + n)%Z l))) a) a)).
  2:{ intros mn [x y] _. apply (for_up_proj snd). intros n [x1 y1] _. apply (for_up_proj snd). intros l [x2 y2] _. reflexivity. }
  f_equal. rewrite (for_up_proj snd _ (fun l a => for_up 0 nz (fun k a =>
    if ((l * nz + k <? ztMin) || (l * nz + k >=? ztMax))%Z%bool then a else
    for_up 0 M (fun mn a => for_up 0 (nf + 1) (fun n a => add_at a (at_ mn (nf + n)%Z l) (sinnv_scaled s fb n k * grpmn (mn * NL + (l * nz + k - ztMin))%Z)) a) a) a)).
  2:{ intros l [x y] _. apply (for_up_proj snd). intros k [x1 y1] _.
      destruct ((l * nz + k <? ztMin) || (l * nz + k >=? ztMax))%Z%bool; [reflexivity|].
      apply (for_up_proj snd). intros mn [x2 y2] _. apply (for_up_proj snd). intros n [x3 y3] _. reflexivity. }
  reflexivity.
Qed.

Lemma pass1_val c grpmn mn n l : (0 <= mn < M)%Z -> (0 <= n <= nf)%Z -> (0 <= l < nTE)%Z ->
  pass1 c grpmn (at_ mn (nf + n)%Z l) = zsum 0 nz (fun k => c n k * hval grpmn mn (l * nz + k)).
Proof.
  intros Hmn Hn Hl. unfold pass1. cbv zeta. set (j := at_ mn (nf + n)%Z l).
  rewrite (for_up_delta (fun a : Z -> R => a j) _ (fun l' => zsum 0 nz (fun k => if ((l' * nz + k <? ztMin) || (l' * nz + k >=? ztMax))%Z%bool then 0 else
     zsum 0 M (fun mn' => zsum 0 (nf + 1) (fun n' => ind (at_ mn' (nf + n')%Z l') j * (c n' k * grpmn (mn' * NL + (l' * nz + k - ztMin))%Z)))))).
  - rewrite Rplus_0_l. rewrite (zsum_single 0 nTE l); [|lia|].
    + apply zsum_ext. intros k Hk. unfold hval, inr. destruct ((l * nz + k <? ztMin) || (l * nz + k >=? ztMax))%Z%bool; cbn [negb]; [ring|].
      rewrite (zsum_single 0 M mn); [|lia|].
      * rewrite (zsum_single 0 (nf + 1) n); [|lia|].
        -- unfold j. rewrite ind_refl. ring.
        -- intros n' Hn' Ne. rewrite ind_neq; [ring|]. intros E. apply at_inj in E; lia.
      * intros mn' Hmn' Ne. apply zsum_zero. intros n' Hn'. rewrite ind_neq; [ring|]. intros E. apply at_inj in E; lia.
    + intros l' Hl' Ne. apply zsum_zero. intros k Hk. destruct ((l' * nz + k <? ztMin) || (l' * nz + k >=? ztMax))%Z%bool; [reflexivity|].
      apply zsum_zero. intros mn' Hmn'. apply zsum_zero. intros n' Hn'. rewrite ind_neq; [ring|]. intros E. apply at_inj in E; lia.
  - intros l' a Hl'. apply (for_up_delta (fun a : Z -> R => a j)). intros k a1 Hk.
    destruct ((l' * nz + k <? ztMin) || (l' * nz + k >=? ztMax))%Z%bool; [ring|].
    apply (for_up_delta (fun a : Z -> R => a j)). intros mn' a2 Hmn'. apply (for_up_delta (fun a : Z -> R => a j)). intros n' a3 Hn'.
    apply add_at_ind.
Qed.
Lemma pass2_pos sg a mn n l : (0 <= n <= nf)%Z -> (0 <= l < nTE)%Z -> pass2 sg a (at_ mn (nf + n)%Z l) = a (at_ mn (nf + n)%Z l).
Proof.
  intros Hn Hl. unfold pass2. set (j := at_ mn (nf + n)%Z l).
  apply (for_up_keep (fun a : Z -> R => a j)). intros mn' a1 Hmn'. apply (for_up_keep (fun a : Z -> R => a j)). intros n' a2 Hn'.
  apply (for_up_keep (fun a : Z -> R => a j)). intros l' a3 Hl'. apply upd_neq. unfold j. intros E. apply at_inj in E; lia.
Qed.
Lemma pass2_neg sg a mn n l : (0 <= mn < M)%Z -> (1 <= n <= nf)%Z -> (0 <= l < nTE)%Z ->
  pass2 sg a (at_ mn (nf - n)%Z l) = sg (a (at_ mn (nf + n)%Z l)).
Proof.
  intros Hmn Hn Hl. unfold pass2. set (j := at_ mn (nf - n)%Z l). set (i := at_ mn (nf + n)%Z l). set (w := a i).
  assert (KI : forall mn' n' l' (b : Z -> R) v, (0 <= mn' < M)%Z -> (1 <= n' < nf + 1)%Z -> (0 <= l' < nTE)%Z -> b i = w -> upd b (at_ mn' (nf - n')%Z l') v i = w).
  { intros mn' n' l' b v H1 H2 H3 Eb. rewrite upd_neq; [exact Eb|]. unfold i. intros E. apply at_inj in E; lia. }
  assert (KL : forall mn' n' b, (0 <= mn' < M)%Z -> (1 <= n' < nf + 1)%Z -> b i = w ->
     for_up 0 nTE (fun l a => upd a (at_ mn' (nf - n')%Z l) (sg (a (at_ mn' (nf + n')%Z l)))) b i = w).
  { intros mn' n' b H1 H2 Eb. rewrite <- Eb. apply (for_up_keep (fun a : Z -> R => a i)). intros l' a3 Hl'. apply upd_neq. unfold i. intros E. apply at_inj in E; lia. }
  assert (KN : forall mn' b, (0 <= mn' < M)%Z -> b i = w ->
     for_up 1 (nf + 1) (fun n a => for_up 0 nTE (fun l a => upd a (at_ mn' (nf - n)%Z l) (sg (a (at_ mn' (nf + n)%Z l)))) a) b i = w).
  { intros mn' b H1 Eb. rewrite <- Eb. apply (for_up_keep (fun a : Z -> R => a i)). intros n' a2 Hn'.
    apply (for_up_keep (fun a : Z -> R => a i)). intros l' a3 Hl'. apply upd_neq. unfold i. intros E. apply at_inj in E; lia. }
  apply (for_up_set_inv (fun b : Z -> R => b i = w) (fun b : Z -> R => b j) _ 0 M mn); [lia|intros; apply KN; assumption| | |reflexivity].
  - apply (for_up_set_inv (fun b : Z -> R => b i = w) (fun b : Z -> R => b j) _ 1 (nf + 1) n); [lia|intros; apply KL; [lia|assumption|assumption]| |].
    + apply (for_up_set_inv (fun b : Z -> R => b i = w) (fun b : Z -> R => b j) _ 0 nTE l); [lia|intros; apply KI; (assumption || lia)| |].
      * intros b Eb. unfold j. rewrite upd_eq. rewrite <- Eb. reflexivity.
      * intros l' b Hl' Ne Eb. apply upd_neq. unfold j. intros E. apply at_inj in E; lia.
    + intros n' b Hn' Ne Eb. apply (for_up_keep (fun a : Z -> R => a j)). intros l' a3 Hl'. apply upd_neq. unfold j. intros E. apply at_inj in E; lia.
  - intros mn' b Hmn' Ne Eb. apply (for_up_keep (fun a : Z -> R => a j)). intros n' a2 Hn'.
    apply (for_up_keep (fun a : Z -> R => a j)). intros l' a3 Hl'. apply upd_neq. unfold j. intros E. apply at_inj in E; lia.
Qed.

Local Notation Ac := (Ac s).
Local Notation As := (As s).
Lemma tm_val grpmn mn n l : (0 <= mn < M)%Z -> (- nf <= n <= nf)%Z -> (0 <= l < nTE)%Z ->
  fst (toroidal_matrix s fb mf nf ztMin ztMax grpmn) (at_ mn (nf + n)%Z l) = Ac n (fun k => hval grpmn mn (l * nz + k)) /\
  snd (toroidal_matrix s fb mf nf ztMin ztMax grpmn) (at_ mn (nf + n)%Z l) = As n (fun k => hval grpmn mn (l * nz + k)).
Proof.
  intros Hmn Hn Hl. rewrite tm_fst, tm_snd. destruct (Z_le_gt_dec 0 n) as [P|P].
  - rewrite !pass2_pos by lia. rewrite !pass1_val by lia. rewrite (Ac_code s OK b0 nf Hnf), (As_code s OK b0 nf Hnf) by lia. split; reflexivity.
  - replace (nf + n)%Z with (nf - (- n))%Z by lia. rewrite !pass2_neg by lia. rewrite !pass1_val by lia.
    rewrite (Ac_code s OK b0 nf Hnf), (As_code s OK b0 nf Hnf) by lia. replace n with (- - n)%Z at 2 4 by lia.
    rewrite (Ac_neg s (- n)), (As_neg s (- n)). split; reflexivity.
Qed.

Lemma block_val f mn an m : (0 <= mn < M)%Z -> (0 <= an < 2 * nf + 1)%Z -> (0 <= m < mf + 1)%Z ->
  block mf nf f ((an * (mf + 1) + m) * M + mn)%Z = f mn an m.
Proof.
  intros Hmn Han Hm. unfold block. set (j := ((an * (mf + 1) + m) * M + mn)%Z).
  assert (I : forall mn' an' m', (0 <= mn' < M)%Z -> (0 <= m' < mf + 1)%Z -> j = ((an' * (mf + 1) + m') * M + mn')%Z -> mn' = mn /\ an' = an /\ m' = m).
  { intros mn' an' m' H1 H2 E. unfold j in E. apply flat_inj in E; try lia. destruct E as [E1 E2]. apply flat_inj in E1; try lia. }
  apply (for_up_set (fun a : Z -> R => a j) _ 0 M mn); [lia| |].
  - apply (for_up_set (fun a : Z -> R => a j) _ 0 (2 * nf + 1) an); [lia| |].
    + apply (for_up_set (fun a : Z -> R => a j) _ 0 (mf + 1) m); [lia| |].
      * intros b. unfold j. apply upd_eq.
      * intros m' b Hm' Ne. apply upd_neq. intros E. apply I in E; lia.
    + intros an' b Han' Ne. apply (for_up_keep (fun a : Z -> R => a j)). intros m' b' Hm'. apply upd_neq. intros E. apply I in E; lia.
  - intros mn' b Hmn' Ne. apply (for_up_keep (fun a : Z -> R => a j)). intros an' b1 Han'. apply (for_up_keep (fun a : Z -> R => a j)).
    intros m' b' Hm'. apply upd_neq. intros E. apply I in E; lia.
Qed.

(** One thread's block entries: sums over the grid points of its range. *)
Local Notation ph := (ph s).
Lemma nTE_nTR : (nTR <= nTE)%Z.
Proof. pose proof (so_nTE s OK). pose proof (so_nT s OK). pose proof (so_nTR s OK). destruct (sz_lasym s); lia. Qed.
Definition Es (grpmn : Z -> R) mn m n l := zsum 0 nz (fun k => hval grpmn mn (l * nz + k) * sin (ph m n l k)).
Definition Ec (grpmn : Z -> R) mn m n l := zsum 0 nz (fun k => hval grpmn mn (l * nz + k) * cos (ph m n l k)).
Lemma ss_val grpmn mn n m : (0 <= mn < M)%Z -> (- nf <= n <= nf)%Z -> (0 <= m <= mf)%Z ->
  let '(ac, as_) := toroidal_matrix s fb mf nf ztMin ztMax grpmn in
  let i := (mode_at mf nf m n * M + mn)%Z in
  amat_sin_sin s fb mf nf ac as_ i = zsum 0 nTR (fun l => wred s l * Es grpmn mn m n l) /\
  amat_sin_cos s fb mf nf ac as_ i = zsum 0 nTR (fun l => wred s l * Ec grpmn mn m n l).
Proof.
  intros Hmn Hn Hm. pose proof nTE_nTR. destruct (toroidal_matrix s fb mf nf ztMin ztMax grpmn) as [ac as_] eqn:E. cbv zeta.
  unfold amat_sin_sin, amat_sin_cos, mode_at. rewrite !block_val by lia. unfold base_idx. rewrite <- zsum_minus, <- zsum_plus.
  split; apply zsum_ext; intros l Hl; destruct (tm_val grpmn mn n l Hmn Hn ltac:(lia)) as [E1 E2]; rewrite E in E1, E2; cbn [fst snd] in E1, E2;
    rewrite E1, E2; destruct (mui_val s OK MQ b0 mf Hmf l m ltac:(lia) Hm) as [-> ->]; unfold Es, Ec; [rewrite <- comb_sin|rewrite <- comb_cos]; ring.
Qed.

(** Weighted half-range sums of folded columns are full sums. *)
Lemma fold_full (E : Z -> R) :
  zsum 0 nTR (fun l => wred s l * (1 / 2 * (E l + E ((nT - l) mod nT)%Z))) = / (IZR nT * IZR nz) * zsum 0 nT E.
Proof.
  assert (Z1 := so_nZeta s OK). assert (HT := so_nT s OK). assert (H2 := so_nTR s OK).
  assert (NT : IZR nT <> 0) by (apply not_0_IZR; lia). assert (NZ : IZR nz <> 0) by (apply not_0_IZR; lia).
  set (F := fun k l => if (k =? 0)%Z then E l else 0).
  set (g := fun k l => 1 / 2 * F k l + 1 / 2 * F (rk s k) (rl s l)).
  assert (R0 : forall k, (0 <= k < nz)%Z -> (rk s k =? 0)%Z = (k =? 0)%Z).
  { intros k Hk. unfold rk. destruct (Z.eqb_spec k 0) as [->|Ne].
    - rewrite Z.sub_0_r, Z_mod_same_full. reflexivity.
    - rewrite Z.mod_small by lia. apply Z.eqb_neq. lia. }
  transitivity (red_avg s g).
  - unfold red_avg. rewrite (zsum_single 0 nz 0); [|lia|].
    + apply zsum_ext. intros l Hl. f_equal. unfold g, F. rewrite R0 by lia. cbn [Z.eqb]. unfold rl. ring.
    + intros k Hk Ne. apply zsum_zero. intros l Hl. unfold g, F. rewrite R0 by lia. destruct (Z.eqb_spec k 0); [lia|ring].
  - rewrite (red_even s OK).
    + assert (EN : norm_ s / 2 = / (IZR nT * IZR nz)).
      { unfold norm_, intNorm. rewrite HT, !mult_IZR. field. repeat split; try assumption; apply not_0_IZR; lia. }
      rewrite EN. f_equal. unfold g. rewrite full_lin, (full_refl s OK F). unfold full.
      rewrite (zsum_single 0 nz 0); [|lia|].
      * unfold F. cbn [Z.eqb]. rewrite (zsum_ext 0 nT (fun l => E l) E) by reflexivity. field.
      * intros k Hk Ne. apply zsum_zero. intros l Hl. unfold F. destruct (Z.eqb_spec k 0); [lia|reflexivity].
    + intros k l Hk Hl. unfold g. assert (RK : rk s (rk s k) = k) by (apply rr; lia). assert (RL : rl s (rl s l) = l) by (apply rr; lia).
      rewrite RK, RL. ring.
Qed.
Lemma rl_trig m l : (0 <= l < nT)%Z -> sin (IZR m * th ((nT - l) mod nT)) = - sin (IZR m * th l) /\ cos (IZR m * th ((nT - l) mod nT)) = cos (IZR m * th l).
Proof.
  intros Hl. assert (NT : IZR nT <> 0) by (apply not_0_IZR; lia).
  assert (A1 : exists a, IZR m * th ((nT - l) mod nT) = - (IZR m * th l) + 2 * IZR a * PI).
  { destruct (Z.eq_dec l 0) as [->|].
    - exists 0%Z. rewrite Z.sub_0_r, Z_mod_same_full. unfold ang. field. assumption.
    - exists m. rewrite Z.mod_small by lia. unfold ang. rewrite minus_IZR. field. assumption. }
  destruct A1 as [a ->]. rewrite sin_period_Z, cos_period_Z, sin_neg, cos_neg. split; reflexivity.
Qed.
Lemma cc_val grpmn mn n m : sz_lasym s = true -> (0 <= mn < M)%Z -> (- nf <= n <= nf)%Z -> (0 <= m <= mf)%Z ->
  let '(ac, as_) := toroidal_matrix s fb mf nf ztMin ztMax grpmn in
  let i := (mode_at mf nf m n * M + mn)%Z in
  amat_cos_sin s fb mf nf ac as_ i = / (IZR nT * IZR nz) * zsum 0 nT (Es grpmn mn m n) /\
  amat_cos_cos s fb mf nf ac as_ i = / (IZR nT * IZR nz) * zsum 0 nT (Ec grpmn mn m n).
Proof.
  intros LA Hmn Hn Hm. pose proof nTE_nTR. pose proof (so_nTE s OK) as HE. rewrite LA in HE. pose proof (so_nTR s OK). pose proof (so_nT s OK) as HT.
  destruct (toroidal_matrix s fb mf nf ztMin ztMax grpmn) as [ac as_] eqn:E. cbv zeta.
  unfold amat_cos_sin, amat_cos_cos, mode_at. rewrite !block_val by lia. unfold base_idx, fold_m, fold_p. rewrite <- zsum_minus, <- zsum_plus.
  rewrite <- !fold_full. split; apply zsum_ext; intros l Hl;
    assert (Hl' : (0 <= (nT - l) mod nT < nT)%Z) by (apply Z.mod_pos_bound; lia);
    destruct (tm_val grpmn mn n l Hmn Hn ltac:(lia)) as [E1 E2]; destruct (tm_val grpmn mn n ((nT - l) mod nT) Hmn Hn ltac:(lia)) as [E3 E4];
    rewrite E in E1, E2, E3, E4; cbn [fst snd] in E1, E2, E3, E4;
    rewrite E1, E2, E3, E4; destruct (mui_val s OK MQ b0 mf Hmf l m ltac:(lia) Hm) as [-> ->]; unfold Es, Ec;
    [rewrite <- !comb_sin|rewrite <- !comb_cos]; destruct (rl_trig m l ltac:(lia)) as [-> ->]; field.
Qed.

(** Source side. *)
Lemma sym_val gstore sa l k : (0 <= l < nTR)%Z -> (0 <= k < nz)%Z ->
  fst (symmetrise s gstore sa) (l * nz + k)%Z = (gstore (l * nz + k)%Z - gstore (kl_rev s l k)) * (1 / 2) /\
  (sz_lasym s = true -> snd (symmetrise s gstore sa) (l * nz + k)%Z = (gstore (l * nz + k)%Z + gstore (kl_rev s l k)) * (1 / 2)).
Proof.
  intros Hl Hk. unfold symmetrise. cbv zeta. set (j := (l * nz + k)%Z).
  assert (I : forall l' k', (0 <= k' < nz)%Z -> j = (l' * nz + k')%Z -> l' = l /\ k' = k) by (intros l' k' Hk' E; unfold j in E; apply flat_inj in E; lia).
  split; [|intros ->].
  - apply (for_up_set (fun q : (Z -> R) * (Z -> R) => fst q j) _ 0 nTR l); [lia| |].
    + apply (for_up_set (fun q : (Z -> R) * (Z -> R) => fst q j) _ 0 nz k); [lia| |].
      * intros [x y]. cbn [fst]. apply upd_eq.
      * intros k' [x y] Hk' Ne. cbn [fst]. apply upd_neq. intros E. apply I in E; lia.
    + intros l' q Hl' Ne. apply (for_up_keep (fun q : (Z -> R) * (Z -> R) => fst q j)). intros k' [x y] Hk'. cbn [fst]. apply upd_neq. intros E. apply I in E; lia.
  - apply (for_up_set (fun q : (Z -> R) * (Z -> R) => snd q j) _ 0 nTR l); [lia| |].
    + apply (for_up_set (fun q : (Z -> R) * (Z -> R) => snd q j) _ 0 nz k); [lia| |].
      * intros [x y]. cbn [snd]. apply upd_eq.
      * intros k' [x y] Hk' Ne. cbn [snd]. apply upd_neq. intros E. apply I in E; lia.
    + intros l' q Hl' Ne. apply (for_up_keep (fun q : (Z -> R) * (Z -> R) => snd q j)). intros k' [x y] Hk'. cbn [snd]. apply upd_neq. intros E. apply I in E; lia.
Qed.
Lemma ts_val g n l : (- nf <= n <= nf)%Z -> (0 <= l < nTR)%Z ->
  fst (toroidal_source s fb nf g) ((nf + n) * nTR + l)%Z = Ac n (fun k => g (l * nz + k)%Z) /\
  snd (toroidal_source s fb nf g) ((nf + n) * nTR + l)%Z = As n (fun k => g (l * nz + k)%Z).
Proof.
  intros Hn Hl. unfold toroidal_source. cbv zeta. set (j := ((nf + n) * nTR + l)%Z).
  assert (I : forall n' l', (0 <= l' < nTR)%Z -> j = ((nf + n') * nTR + l')%Z -> n' = n /\ l' = l) by (intros n' l' Hl' E; unfold j in E; apply flat_inj in E; lia).
  assert (I' : forall n' l', (0 <= l' < nTR)%Z -> j = ((nf - n') * nTR + l')%Z -> (- n')%Z = n /\ l' = l) by (intros n' l' Hl' E; unfold j in E; apply flat_inj in E; lia).
  split.
  - apply (for_up_set (fun q : (Z -> R) * (Z -> R) => fst q j) _ 0 (nf + 1) (Z.abs n)); [lia| |].
    + apply (for_up_set (fun q : (Z -> R) * (Z -> R) => fst q j) _ 0 nTR l); [lia| |].
      * intros [x y]. rewrite (Ac_code s OK b0 nf Hnf), (As_code s OK b0 nf Hnf) by lia. rewrite Z.gtb_ltb. destruct (Z.ltb_spec 0 (Z.abs n)) as [G|G]; cbn [fst].
        -- destruct (Z_le_gt_dec 0 n) as [P|P].
           ++ rewrite Z.abs_eq by lia. rewrite upd_neq by (intros E; apply I' in E; lia). apply upd_eq.
           ++ rewrite Z.abs_neq by lia. replace (nf - - n)%Z with (nf + n)%Z by lia. rewrite Ac_neg. apply upd_eq.
        -- replace (Z.abs n) with n by lia. apply upd_eq.
      * intros l' [x y] Hl' Ne. destruct (Z.abs n >? 0)%Z; cbn [fst]; rewrite ?upd_neq; try reflexivity; intros E; (apply I in E || apply I' in E); lia.
    + intros n' q Hn' Ne. apply (for_up_keep (fun q : (Z -> R) * (Z -> R) => fst q j)). intros l' [x y] Hl'.
      destruct (n' >? 0)%Z; cbn [fst]; rewrite ?upd_neq; try reflexivity; intros E; (apply I in E || apply I' in E); lia.
  - apply (for_up_set (fun q : (Z -> R) * (Z -> R) => snd q j) _ 0 (nf + 1) (Z.abs n)); [lia| |].
    + apply (for_up_set (fun q : (Z -> R) * (Z -> R) => snd q j) _ 0 nTR l); [lia| |].
      * intros [x y]. rewrite (Ac_code s OK b0 nf Hnf), (As_code s OK b0 nf Hnf) by lia. rewrite Z.gtb_ltb. destruct (Z.ltb_spec 0 (Z.abs n)) as [G|G]; cbn [snd].
        -- destruct (Z_le_gt_dec 0 n) as [P|P].
           ++ rewrite Z.abs_eq by lia. rewrite upd_neq by (intros E; apply I' in E; lia). apply upd_eq.
           ++ rewrite Z.abs_neq by lia. replace (nf - - n)%Z with (nf + n)%Z by lia. rewrite As_neg, Ropp_involutive. apply upd_eq.
        -- replace (Z.abs n) with n by lia. apply upd_eq.
      * intros l' [x y] Hl' Ne. destruct (Z.abs n >? 0)%Z; cbn [snd]; rewrite ?upd_neq; try reflexivity; intros E; (apply I in E || apply I' in E); lia.
    + intros n' q Hn' Ne. apply (for_up_keep (fun q : (Z -> R) * (Z -> R) => snd q j)). intros l' [x y] Hl'.
      destruct (n' >? 0)%Z; cbn [snd]; rewrite ?upd_neq; try reflexivity; intros E; (apply I in E || apply I' in E); lia.
Qed.
Lemma fill2 (f : Z -> Z -> R) an m : (0 <= an < 2 * nf + 1)%Z -> (0 <= m < mf + 1)%Z ->
  for_up 0 (2 * nf + 1) (fun an b => for_up 0 (mf + 1) (fun m b => upd b (an * (mf + 1) + m)%Z (f an m)) b) (fun _ => 0) (an * (mf + 1) + m)%Z = f an m.
Proof.
  intros Han Hm. set (j := (an * (mf + 1) + m)%Z).
  assert (I : forall an' m', (0 <= m' < mf + 1)%Z -> j = (an' * (mf + 1) + m')%Z -> an' = an /\ m' = m) by (intros a' m' H E; unfold j in E; apply flat_inj in E; lia).
  apply (for_up_set (fun a : Z -> R => a j) _ 0 (2 * nf + 1) an); [lia| |].
  - apply (for_up_set (fun a : Z -> R => a j) _ 0 (mf + 1) m); [lia| |].
    + intros b. unfold j. apply upd_eq.
    + intros m' b Hm' Ne. apply upd_neq. intros E. apply I in E; lia.
  - intros an' b Han' Ne. apply (for_up_keep (fun a : Z -> R => a j)). intros m' b' Hm'. apply upd_neq. intros E. apply I in E; lia.
Qed.
Lemma src_sin gstore sa n m : (- nf <= n <= nf)%Z -> (0 <= m <= mf)%Z ->
  let '(bc, bs) := toroidal_source s fb nf (fst (symmetrise s gstore sa)) in
  poloidal_source_sin s fb mf nf bc bs (mode_at mf nf m n) = field_mode sin nT nz gstore m n.
Proof.
  intros Hn Hm. destruct (toroidal_source s fb nf (fst (symmetrise s gstore sa))) as [bc bs] eqn:E.
  unfold poloidal_source_sin, mode_at. rewrite (fill2 (fun an m => _) (nf + n) m) by lia. rewrite <- (half_sin s OK). rewrite <- zsum_minus.
  apply zsum_ext. intros l Hl. destruct (ts_val (fst (symmetrise s gstore sa)) n l Hn ltac:(lia)) as [E1 E2]. rewrite E in E1, E2. cbn [fst snd] in E1, E2.
  rewrite E1, E2. destruct (mui_val s OK MQ b0 mf Hmf l m ltac:(lia) Hm) as [-> ->].
  transitivity (wred s l * (sin (IZR m * th l) * Ac n (fun k => fst (symmetrise s gstore sa) (l * nz + k)%Z) - cos (IZR m * th l) * As n (fun k => fst (symmetrise s gstore sa) (l * nz + k)%Z))); [ring|].
  rewrite comb_sin. f_equal. apply zsum_ext. intros k Hk. destruct (sym_val gstore sa l k ltac:(lia) ltac:(lia)) as [-> _]. reflexivity.
Qed.
Lemma src_cos gstore sa n m : sz_lasym s = true -> (- nf <= n <= nf)%Z -> (0 <= m <= mf)%Z ->
  let '(bc, bs) := toroidal_source s fb nf (snd (symmetrise s gstore sa)) in
  poloidal_source_cos s fb mf nf bc bs (mode_at mf nf m n) = field_mode cos nT nz gstore m n.
Proof.
  intros LA Hn Hm. destruct (toroidal_source s fb nf (snd (symmetrise s gstore sa))) as [bc bs] eqn:E.
  unfold poloidal_source_cos, mode_at. rewrite (fill2 (fun an m => _) (nf + n) m) by lia. rewrite <- (half_cos s OK). rewrite <- zsum_plus.
  apply zsum_ext. intros l Hl. destruct (ts_val (snd (symmetrise s gstore sa)) n l Hn ltac:(lia)) as [E1 E2]. rewrite E in E1, E2. cbn [fst snd] in E1, E2.
  rewrite E1, E2. destruct (mui_val s OK MQ b0 mf Hmf l m ltac:(lia) Hm) as [-> ->].
  transitivity (wred s l * (cos (IZR m * th l) * Ac n (fun k => snd (symmetrise s gstore sa) (l * nz + k)%Z) + sin (IZR m * th l) * As n (fun k => snd (symmetrise s gstore sa) (l * nz + k)%Z))); [ring|].
  rewrite comb_cos. f_equal. apply zsum_ext. intros k Hk. destruct (sym_val gstore sa l k ltac:(lia) ltac:(lia)) as [_ Q]. rewrite Q by assumption. reflexivity.
Qed.
End L.
