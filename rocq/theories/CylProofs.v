From Coq Require Import ZArith List Bool Reals Lia Lra.
From Verif Require Import Base BaseLemmas SumLemmas Num KernelModel LapMain CylModel.
Open Scope R_scope.

Section C.
Variables ns nZnT : Z.
Lemma fill_at {A} (v : Z -> Z -> A) (d : A) lo hi jH kl : (lo <= jH < hi)%Z -> (0 <= kl < nZnT)%Z ->
  for_up lo hi (fun jH a => for_up 0 nZnT (fun kl a => upd a (jH * nZnT + kl)%Z (v jH kl)) a) (fun _ => d) (jH * nZnT + kl)%Z = v jH kl.
Proof.
  intros Hj Hk. apply (for_up_set (fun a : Z -> A => a (jH * nZnT + kl)%Z) _ lo hi jH (v jH kl)); [lia| |].
  - intros a. apply (for_up_set (fun a : Z -> A => a (jH * nZnT + kl)%Z) _ 0 nZnT kl (v jH kl)); [lia| |].
    + intros a'. apply upd_eq.
    + intros x a' Hx N0. apply upd_neq. lia.
  - intros x a Hx N0. apply (for_up_keep (fun a : Z -> A => a (jH * nZnT + kl)%Z)). intros y a' Hy. apply upd_neq.
    intros E. apply flat_inj in E; lia.
Qed.
Lemma fill_out {A} (v : Z -> Z -> A) (d : A) lo hi j kl : ~ (lo <= j < hi)%Z -> (0 <= kl < nZnT)%Z ->
  for_up lo hi (fun jH a => for_up 0 nZnT (fun kl a => upd a (jH * nZnT + kl)%Z (v jH kl)) a) (fun _ => d) (j * nZnT + kl)%Z = d.
Proof.
  intros Hj Hk. apply (for_up_keep (fun a : Z -> A => a (j * nZnT + kl)%Z)). intros x a Hx.
  apply (for_up_keep (fun a : Z -> A => a (j * nZnT + kl)%Z)). intros y a' Hy. apply upd_neq. intros E. apply flat_inj in E; lia.
Qed.
Lemma rm_at sqrtSH g jac jH kl : (0 <= jH < ns - 1)%Z -> (0 <= kl < nZnT)%Z ->
  remaining_metric ns nZnT sqrtSH g jac (jH * nZnT + kl)%Z =
  metric_point (sqrtSH jH) (g (jH * nZnT + kl)%Z) (g ((jH + 1) * nZnT + kl)%Z) (jac (jH * nZnT + kl)%Z).
Proof.
  intros Hj Hk. unfold remaining_metric.
  apply (fill_at (fun jH kl => metric_point (sqrtSH jH) (g (jH * nZnT + kl)%Z) (g ((jH + 1) * nZnT + kl)%Z) (jac (jH * nZnT + kl)%Z)) cyl0 0 (ns - 1) jH kl Hj Hk).
Qed.
Lemma half_array_at v jH kl : (0 <= jH < ns - 1)%Z -> (0 <= kl < nZnT)%Z -> half_array ns nZnT v (jH * nZnT + kl)%Z = v (jH * nZnT + kl)%Z.
Proof. intros Hj Hk. unfold half_array. apply (fill_at (fun jH kl => v (jH * nZnT + kl)%Z) 0 0 (ns - 1) jH kl Hj Hk). Qed.
Lemma interior_at bs jF kl : (1 <= jF < ns - 1)%Z -> (0 <= kl < nZnT)%Z ->
  bsubs_interior ns nZnT bs (jF * nZnT + kl)%Z = (bs (jF * nZnT + kl)%Z + bs ((jF - 1) * nZnT + kl)%Z) / 2.
Proof.
  intros Hj Hk. unfold bsubs_interior.
  apply (fill_at (fun jF kl => (bs (jF * nZnT + kl)%Z + bs ((jF - 1) * nZnT + kl)%Z) / 2) 0 1 (ns - 1) jF kl Hj Hk).
Qed.
Lemma extra_at a j kl : (4 <= ns)%Z -> (0 <= j < ns)%Z -> (0 <= kl < nZnT)%Z ->
  extrapolate_bsubs ns nZnT a (j * nZnT + kl)%Z =
  if (j =? 0)%Z then 2 * a (1 * nZnT + kl)%Z - a (2 * nZnT + kl)%Z
  else if (j =? ns - 1)%Z then 2 * a ((ns - 2) * nZnT + kl)%Z - a ((ns - 3) * nZnT + kl)%Z else a (j * nZnT + kl)%Z.
Proof.
  intros Hn Hj Hk. unfold extrapolate_bsubs.
  set (body := fun kl (a : Z -> R) => _).
  assert (Other : forall x b y j', (0 <= x < nZnT)%Z -> (0 <= y < nZnT)%Z -> x <> y -> body x b (j' * nZnT + y)%Z = b (j' * nZnT + y)%Z).
  { intros x b y j' Hx Hy N0. unfold body. cbv zeta. rewrite !upd_neq; [reflexivity| |]; intros E; apply flat_inj in E; lia. }
  assert (Mid : forall x b j', (0 <= x < nZnT)%Z -> (0 < j' < ns - 1)%Z -> body x b (j' * nZnT + x)%Z = b (j' * nZnT + x)%Z).
  { intros x b j' Hx Hj'. unfold body. cbv zeta. rewrite !upd_neq; [reflexivity| |]; intros E; apply flat_inj in E; lia. }
  pose (I := fun x (b : Z -> R) => forall y j', (0 <= y < nZnT)%Z -> (0 <= j' < ns)%Z ->
    b (j' * nZnT + y)%Z = if (y <? x)%Z then
      (if (j' =? 0)%Z then 2 * a (1 * nZnT + y)%Z - a (2 * nZnT + y)%Z
       else if (j' =? ns - 1)%Z then 2 * a ((ns - 2) * nZnT + y)%Z - a ((ns - 3) * nZnT + y)%Z else a (j' * nZnT + y)%Z)
      else a (j' * nZnT + y)%Z).
  assert (F : I nZnT (for_up 0 nZnT body a)).
  { apply (for_up_ind I); unfold I; [lia| |].
    - intros y j' Hy Hj'. destruct (Z.ltb_spec y 0); [lia|reflexivity].
    - intros x b Hx IH y j' Hy Hj'. destruct (Z.eq_dec y x) as [-> | N0].
      + destruct (Z.ltb_spec x (x + 1)); [|lia].
        assert (B : forall j', (0 <= j' < ns)%Z -> b (j' * nZnT + x)%Z = a (j' * nZnT + x)%Z).
        { intros q Hq. rewrite (IH x q) by lia. destruct (Z.ltb_spec x x); [lia|reflexivity]. }
        destruct (Z.eqb_spec j' 0) as [-> | J0].
        * unfold body. cbv zeta. rewrite upd_neq by (intros E; apply flat_inj in E; lia).
          rewrite upd_eq, !B by lia. reflexivity.
        * destruct (Z.eqb_spec j' (ns - 1)) as [-> | J1].
          -- unfold body. cbv zeta. rewrite upd_eq. rewrite !upd_neq by (intros E; apply flat_inj in E; lia). rewrite !B by lia. reflexivity.
          -- rewrite Mid by lia. apply B. lia.
      + rewrite Other by lia. rewrite (IH y j') by lia.
        destruct (Z.ltb_spec y x); destruct (Z.ltb_spec y (x + 1)); try lia; reflexivity. }
  rewrite (F kl j Hk Hj). destruct (Z.ltb_spec kl nZnT); [reflexivity|lia].
Qed.
Lemma extra_mid a j kl : (3 <= ns)%Z -> (1 <= j < ns - 1)%Z -> (0 <= kl < nZnT)%Z ->
  extrapolate_bsubs ns nZnT a (j * nZnT + kl)%Z = a (j * nZnT + kl)%Z.
Proof.
  intros Hn Hj Hk. unfold extrapolate_bsubs. apply (for_up_keep (fun a : Z -> R => a (j * nZnT + kl)%Z)).
  intros x b Hx. cbv zeta. rewrite !upd_neq; [reflexivity| |]; intros E; apply flat_inj in E; lia.
Qed.
End C.

(** Derivative of a radial profile with the root-of-s factor *)
Lemma root_profile a b c d si ds : 0 <= si -> 0 < ds ->
  let sH := si + ds / 2 in
  derivable_pt_lim (fun x => (a + (b - a) * (x - si) / ds) + sqrt x * (c + (d - c) * (x - si) / ds)) sH
    ((b - a + sqrt sH * (d - c)) / ds + (d + c) / 2 / (2 * sqrt sH)).
Proof.
  intros Hs Hd sH. assert (PS : 0 < sH) by (unfold sH; lra). assert (RS : sqrt sH <> 0) by (apply Rgt_not_eq; apply sqrt_lt_R0; exact PS).
  assert (L : forall p q, derivable_pt_lim (fun x => p + (q - p) * (x - si) / ds) sH ((q - p) / ds)).
  { intros p q. apply derivable_pt_lim_ext with (f := fun x => (q - p) / ds * x + (p - (q - p) * si / ds)); [intros; field; lra|].
    assert (P := derivable_pt_lim_plus _ _ sH _ _ (derivable_pt_lim_scal _ ((q - p) / ds) sH 1 (derivable_pt_lim_id sH)) (derivable_pt_lim_const (p - (q - p) * si / ds) sH)).
    rewrite Rmult_1_r, Rplus_0_r in P. exact P. }
  assert (SQ : derivable_pt_lim sqrt sH (/ (2 * sqrt sH))) by (apply derivable_pt_lim_sqrt; exact PS).
  assert (P := derivable_pt_lim_plus _ _ sH _ _ (L a b) (derivable_pt_lim_mult _ _ sH _ _ SQ (L c d))).
  replace ((b - a + sqrt sH * (d - c)) / ds + (d + c) / 2 / (2 * sqrt sH)) with
    ((b - a) / ds + (/ (2 * sqrt sH) * (c + (d - c) * (sH - si) / ds) + sqrt sH * ((d - c) / ds))).
  - exact P.
  - replace ((d - c) * (sH - si) / ds) with ((d - c) / 2) by (unfold sH; field; lra). field. split; [exact RS|lra].
Qed.
