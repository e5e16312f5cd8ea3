(** Property theorem C123: |B| of the output. *)
From Coq Require Import ZArith List Bool Reals Lia Lra.
From Verif Require Import Base Num PartModel KernelModel SizesModel NyqModel ModbProofs.
Open Scope R_scope.

(** On every half-grid point the |B| whose Fourier coefficients are written is the
    length of the contravariant field in the metric of the solver.  [p]: the surfaces
    of one thread, with its local arrays; [tp], [pres]: the collected arrays. [guv]
    counts only in three-dimensional runs (it vanishes otherwise). *)
Theorem C123_modB (s : sizes) ns (c : @kcfg num_R) (p : rpart) (presH : Z -> R) (met : Z -> @metp num_R) (bsup oldb : Z -> @vecp num_R) (oldp tp pres : Z -> R) jH kl :
  knZnT c = sz_nZnT s -> (0 <= jH < ns - 1)%Z -> (nsMinH p <= jH < nsMaxH p)%Z -> (0 <= kl < sz_nZnT s)%Z ->
  let i := ((jH - nsMinH p) * sz_nZnT s + kl)%Z in
  tp (jH * sz_nZnT s + kl)%Z = @compute_total_pressure num_R c p presH bsup (compute_bco c p met bsup oldb) oldp i ->
  pres jH = presH (jH - nsMinH p)%Z ->
  let guv_ : R := if klthreed c then guv (met i) else 0 in
  0 <= (guu (met i) : R) -> 0 <= (gvv (met i) : R) -> guv_ * guv_ <= (guu (met i) : R) * gvv (met i) ->
  let u : R := vu (bsup i) in let v : R := vv (bsup i) in
  let B := modB s ns tp pres (jH * sz_nZnT s + kl)%Z in
  0 <= B /\ B * B = (guu (met i) : R) * (u * u) + 2 * guv_ * (u * v) + (gvv (met i) : R) * (v * v).
Proof.
  intros EN J1 J2 HK i TP PR guv_ G1 G2 G3 u v B.
  assert (Q := psd (guu (met i)) guv_ (gvv (met i)) u v G1 G2 G3). set (q := _ + _ + _) in *.
  assert (T : tp (jH * sz_nZnT s + kl)%Z = 1 / 2 * q + pres jH).
  { rewrite TP, PR. unfold i. rewrite <- EN. rewrite tp_at by (rewrite ?EN; assumption). rewrite EN. fold i. f_equal. f_equal.
    rewrite bco_at by (rewrite EN; unfold i; nia). unfold q, u, v, guv_, bco_point. destruct (klthreed c); cbn [vu vv nadd nmul num_R]; ring. }
  unfold B. rewrite modB_at by assumption. split; [apply sqrt_pos|]. rewrite T. replace (1 / 2 * q + pres jH - pres jH) with (1 / 2 * q) by ring.
  rewrite Rabs_right by lra. replace (2 * (1 / 2 * q)) with q by field. apply sqrt_sqrt. exact Q.
Qed.
Print Assumptions C123_modB.

(** Unit metric, field (3, 4), pressure 7: |B| = 5. *)
Example C123_case : exists s p c, make_sizes false 1 2 0 0 0 2 0 = Some s /\ adjustRadialPartitioning 1 0 4 true = Some p /\
  let tp := @compute_total_pressure num_R c p (fun _ => 7) (fun _ => @mkVec num_R 3 4) (compute_bco c p (fun _ => @mkMet num_R 1 1 0 1) (fun _ => @mkVec num_R 3 4) (fun _ => @mkVec num_R 0 0)) (fun _ => 0) in
  modB s 4 tp (fun _ => 7) (1 * sz_nZnT s + 2)%Z = 5.
Proof.
  destruct (make_sizes false 1 2 0 0 0 2 0) as [s|] eqn:S; [|discriminate]. destruct (adjustRadialPartitioning 1 0 4 true) as [p|] eqn:P; [|discriminate].
  assert (Z6 : sz_nZnT s = 6%Z) by (injection S as <-; reflexivity). assert (H0 : nsMinH p = 0%Z /\ nsMaxH p = 3%Z) by (injection P as <-; split; reflexivity).
  pose (c := @mkKcfg num_R 4 true false false (sz_nZnT s) 6 2 0 1 (fun _ => 0) 0 0 0 0 0 0 0 0 0).
  exists s, p, c. split; [reflexivity|]. split; [reflexivity|]. intros tp.
  destruct (C123_modB s 4 c p (fun _ => 7) (fun _ => @mkMet num_R 1 1 0 1) (fun _ => @mkVec num_R 3 4) (fun _ => @mkVec num_R 0 0) (fun _ => 0) tp (fun _ => 7) 1 2) as (A & B);
    try reflexivity; try lia; try (cbn; lra).
  - unfold tp. destruct H0 as (-> & _). rewrite Z.sub_0_r. reflexivity.
  - cbn in B. change (modB s 4 tp (fun _ => 7) (1 * sz_nZnT s + 2)%Z * modB s 4 tp (fun _ => 7) (1 * sz_nZnT s + 2)%Z = 1 * (3 * 3) + 2 * 0 * (3 * 4) + 1 * (4 * 4)) in B. change (0 <= modB s 4 tp (fun _ => 7) (1 * sz_nZnT s + 2)%Z) in A. set (m := modB s 4 tp (fun _ => 7) (1 * sz_nZnT s + 2)%Z) in *. nra.
Qed.
