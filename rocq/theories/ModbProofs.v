From Coq Require Import ZArith List Bool Reals Lia Lra.
From Verif Require Import Base BaseLemmas SumLemmas Num FourierProofs PartModel KernelModel LapMain WoutProofs SizesModel NyqModel TableProofs.
Open Scope R_scope.
Section T.
Variables (c : @kcfg num_R) (p : rpart).
Local Notation n := (knZnT c).
Lemma tp_at (presH : Z -> R) (bsup bsub : Z -> @vecp num_R) (old : Z -> R) jH kl : (nsMinH p <= jH < nsMaxH p)%Z -> (0 <= kl < n)%Z ->
  let i := ((jH - nsMinH p) * n + kl)%Z in
  (@compute_total_pressure num_R c p presH bsup bsub old : Z -> R) i =
  1 / 2 * (vu (bsup i) * vu (bsub i) + vv (bsup i) * vv (bsub i) : R) + presH (jH - nsMinH p)%Z.
Proof.
  intros Hj Hk i. unfold compute_total_pressure. cbv zeta.
  match goal with |- context [for_up 0 ((nsMaxH p - nsMinH p) * n) ?b old] => set (a := for_up 0 ((nsMaxH p - nsMinH p) * n) b old) end.
  assert (A : a i = 1 / 2 * (vu (bsup i) * vu (bsub i) + vv (bsup i) * vv (bsub i) : R)).
  { subst a. apply (for_up_set (fun o : Z -> R => o i) _ 0 ((nsMaxH p - nsMinH p) * n) i).
    - unfold i. nia.
    - intros o. rewrite upd_eq. reflexivity.
    - intros i' o _ NE. apply upd_neq. auto. }
  rewrite <- A. 
  apply (for_up_touch (fun o : Z -> R => o i) (fun v => v + presH (jH - nsMinH p)%Z) _ (nsMinH p) (nsMaxH p) jH); [lia| |].
  - intros o. apply (for_up_touch (fun o : Z -> R => o i) (fun v => v + presH (jH - nsMinH p)%Z) _ 0 n kl); [lia| |].
    + intros o'. unfold i. rewrite upd_eq. reflexivity.
    + intros kl' o' Hkl' NE. apply upd_neq. unfold i. lia.
  - intros j' o Hj' NE. apply (for_up_keep (fun o : Z -> R => o i)). intros kl' o' Hkl'. apply upd_neq. unfold i. intros E.
    apply flat_inj in E; lia.
Qed.
Lemma bco_at (met : Z -> @metp num_R) (bsup old : Z -> @vecp num_R) i : (0 <= i < (nsMaxH p - nsMinH p) * n)%Z ->
  compute_bco c p met bsup old i = bco_point c (met i) (bsup i).
Proof.
  intros H. unfold compute_bco. apply (for_up_set (fun o : Z -> vecp => o i) _ 0 ((nsMaxH p - nsMinH p) * n) i); [lia| |].
  - intros o. apply upd_eq.
  - intros i' o _ NE. apply upd_neq. auto.
Qed.
End T.
Lemma modB_at s ns tp pres jH kl : (0 <= jH < ns - 1)%Z -> (0 <= kl < sz_nZnT s)%Z ->
  modB s ns tp pres (jH * sz_nZnT s + kl)%Z = sqrt (2 * Rabs (tp (jH * sz_nZnT s + kl)%Z - pres jH)).
Proof.
  intros Hj Hk. unfold modB. set (i := (jH * sz_nZnT s + kl)%Z).
  apply (for_up_set (fun o : Z -> R => o i) _ 0 (ns - 1) jH); [lia| |].
  - intros o. apply (for_up_set (fun o : Z -> R => o i) _ 0 (sz_nZnT s) kl); [lia| |].
    + intros o'. cbv zeta. fold i. apply upd_eq.
    + intros kl' o' Hkl' NE. cbv zeta. apply upd_neq. unfold i. lia.
  - intros j' o Hj' NE. apply (for_up_keep (fun o : Z -> R => o i)). intros kl' o' Hkl'. cbv zeta. apply upd_neq. unfold i. intros E. apply flat_inj in E; lia.
Qed.
(** A positive semidefinite quadratic form. *)
Lemma psd a b d u v : 0 <= a -> 0 <= d -> b * b <= a * d -> 0 <= a * (u * u) + 2 * b * (u * v) + d * (v * v).
Proof.
  intros A D H. destruct (Req_dec a 0) as [-> | NA].
  - assert (b = 0) as -> by nra. nra.
  - assert (0 < a) by lra. assert (E : a * (a * (u * u) + 2 * b * (u * v) + d * (v * v)) = (a * u + b * v) * (a * u + b * v) + (a * d - b * b) * (v * v)) by ring.
    assert (0 <= a * (a * (u * u) + 2 * b * (u * v) + d * (v * v))) by (rewrite E; apply Rplus_le_le_0_compat; [apply Rle_0_sqr|apply Rmult_le_pos; [lra|apply Rle_0_sqr]]). apply Rmult_le_reg_l with a; lra.
Qed.
