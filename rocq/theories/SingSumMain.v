From Coq Require Import ZArith List Bool Reals Lia Lra.
From Verif Require Import Base BaseLemmas SumLemmas SizesModel FourierModel DftSpec DftTables VacTables
  SingSumModel SingSumSpec SingSumProofs.
Import ListNotations.
Open Scope R_scope.

Section M.
Variables mf nf nZeta nThetaReduced nThetaEven mnyq2 ztMin ztMax : Z.
Variables lasym fullUpdate : bool.
Variable fb : basis_tables.
Variables wInt cmns : Z -> R.
Variables Tlp Tlm Slp Slm : Z -> Z -> R.
Variable bDotN : Z -> R.
Hypothesis HZ : (1 <= nZeta)%Z.
Hypothesis Hlo : (0 <= ztMin)%Z.
Hypothesis Hhi : (ztMin <= ztMax)%Z.

Local Notation posn := (i_posn mf nf).
Local Notation negn := (i_negn mf nf).
Local Notation nl := (numLocal ztMin ztMax).
Local Notation sp := (SP mf nf nZeta nThetaReduced nThetaEven mnyq2 fb cmns).
Local Notation sm := (SM mf nf nZeta nThetaReduced nThetaEven mnyq2 fb cmns).
Local Notation cp := (CP mf nf nZeta nThetaReduced nThetaEven mnyq2 fb cmns).
Local Notation cm := (CM mf nf nZeta nThetaReduced nThetaEven mnyq2 fb cmns).
Local Notation w_ := (bw nZeta ztMin wInt bDotN).

(** What the modes (n, m), (-n, m) receive at one grid point, from integrals [xp],
    [xm] and harmonics [yp], [ym]; [ip], [im] are the two array positions. *)
Definition gterm (n m ip im j : Z) (xp xm yp ym : R) : R :=
  if ((n =? 0) || (m =? 0))%Z%bool then ind ip j * ((xp + xm) * yp)
  else ind ip j * (xp * yp) + ind im j * (xm * ym).
Definition ebs fl n m j kl := gterm n m (posn n m) (negn n m) j
  (Tlp fl (kl - ztMin)%Z * w_ kl) (Tlm fl (kl - ztMin)%Z * w_ kl) (sp fl n m kl) (sm fl n m kl).
Definition ebc fl n m j kl := gterm n m (posn n m) (negn n m) j
  (Tlp fl (kl - ztMin)%Z * w_ kl) (Tlm fl (kl - ztMin)%Z * w_ kl) (cp fl n m kl) (cm fl n m kl).
Definition egs fl n m j kl := gterm n m (posn n m * nl + (kl - ztMin)) (negn n m * nl + (kl - ztMin)) j
  (Slp fl (kl - ztMin)%Z) (Slm fl (kl - ztMin)%Z) (sp fl n m kl) (sm fl n m kl).
Definition egc fl n m j kl := gterm n m (posn n m * nl + (kl - ztMin)) (negn n m * nl + (kl - ztMin)) j
  (Slp fl (kl - ztMin)%Z) (Slm fl (kl - ztMin)%Z) (cp fl n m kl) (cm fl n m kl).

Local Notation an := (analysum mf nf nZeta nThetaReduced nThetaEven mnyq2 ztMin ztMax lasym fullUpdate fb wInt cmns Tlp Tlm Slp Slm bDotN).
Local Notation an2 := (analysum2 mf nf nZeta nThetaReduced nThetaEven mnyq2 ztMin ztMax lasym fullUpdate fb wInt cmns Tlp Tlm Slp Slm bDotN).

Definition step fl n m st := if ((n =? 0) || (m =? 0))%Z%bool then an fl n m st else an2 fl n m st.

Lemma step_spec fl n m st j :
  s_bs (step fl n m st) j = s_bs st j + zsum ztMin ztMax (ebs fl n m j) /\
  s_gs (step fl n m st) j = s_gs st j + zsum ztMin ztMax (fun kl => gate fullUpdate (egs fl n m j kl)) /\
  s_bc (step fl n m st) j = s_bc st j + zsum ztMin ztMax (fun kl => gate lasym (ebc fl n m j kl)) /\
  s_gc (step fl n m st) j = s_gc st j + zsum ztMin ztMax (fun kl => gate (lasym && fullUpdate)%bool (egc fl n m j kl)).
Proof.
  unfold step, ebs, egs, ebc, egc, gterm. destruct ((n =? 0) || (m =? 0))%Z%bool.
  - unfold analysum.
    match goal with |- context [for_up ztMin ztMax ?B st] => set (bd := B) end.
    assert (D : forall kl s, (ztMin <= kl < ztMax)%Z ->
      s_bs (bd kl s) j = s_bs s j + ind (posn n m) j * ((Tlp fl (kl - ztMin)%Z * w_ kl + Tlm fl (kl - ztMin)%Z * w_ kl) * sp fl n m kl) /\
      s_gs (bd kl s) j = s_gs s j + gate fullUpdate (ind (posn n m * nl + (kl - ztMin)) j * ((Slp fl (kl - ztMin)%Z + Slm fl (kl - ztMin)%Z) * sp fl n m kl)) /\
      s_bc (bd kl s) j = s_bc s j + gate lasym (ind (posn n m) j * ((Tlp fl (kl - ztMin)%Z * w_ kl + Tlm fl (kl - ztMin)%Z * w_ kl) * cp fl n m kl)) /\
      s_gc (bd kl s) j = s_gc s j + gate (lasym && fullUpdate) (ind (posn n m * nl + (kl - ztMin)) j * ((Slp fl (kl - ztMin)%Z + Slm fl (kl - ztMin)%Z) * cp fl n m kl))).
    { intros kl s _. unfold bd. cbv zeta. cbn [s_bs s_gs s_bc s_gc].
      unfold SP, CP, snm, csm, cnv, snv, bw, cf. split; [|split; [|split]].
      - rewrite add_at_ind. ring.
      - destruct fullUpdate; unfold gate; [|lra]. rewrite add_at_ind. ring.
      - destruct lasym; unfold gate; [|lra]. rewrite add_at_ind. ring.
      - destruct (lasym && fullUpdate)%bool; unfold gate; [|lra]. rewrite add_at_ind. ring. }
    split; [|split; [|split]].
    + apply (for_up_delta (fun s => s_bs s j)). intros. apply D; assumption.
    + apply (for_up_delta (fun s => s_gs s j)). intros. apply D; assumption.
    + apply (for_up_delta (fun s => s_bc s j)). intros. apply D; assumption.
    + apply (for_up_delta (fun s => s_gc s j)). intros. apply D; assumption.
  - unfold analysum2.
    pose proof (rows_spec mf nf nZeta nThetaReduced nThetaEven mnyq2 ztMin ztMax fullUpdate fb wInt cmns Tlp Tlm Slp Slm bDotN
      HZ fl n m j (Z.to_nat (ztMax - ztMin)) ztMin (s_bs st) (s_gs st) ltac:(lia) ltac:(lia)) as R.
    cbv zeta in R.
    destruct (rows _ _ _ _ _ _ _ _ _ _ _ _ _ _ _ _ _ _ _ _ _ _ _) as [bs gs]. cbn [fst snd] in R.
    destruct R as [R1 R2].
    assert (E1 : zsum ztMin ztMax (dbs mf nf nZeta nThetaReduced nThetaEven mnyq2 ztMin fb wInt cmns Tlp Tlm bDotN fl n m j) =
      zsum ztMin ztMax (fun kl => ind (posn n m) j * (Tlp fl (kl - ztMin)%Z * w_ kl * sp fl n m kl)
        + ind (negn n m) j * (Tlm fl (kl - ztMin)%Z * w_ kl * sm fl n m kl))).
    { apply zsum_ext. intros. unfold dbs. rewrite !at_ind. reflexivity. }
    assert (E2 : zsum ztMin ztMax (fun kl => gate fullUpdate (dgs mf nf nZeta nThetaReduced nThetaEven mnyq2 ztMin ztMax fb cmns Slp Slm fl n m j kl)) =
      zsum ztMin ztMax (fun kl => gate fullUpdate (ind (posn n m * nl + (kl - ztMin)) j * (Slp fl (kl - ztMin)%Z * sp fl n m kl)
        + ind (negn n m * nl + (kl - ztMin)) j * (Slm fl (kl - ztMin)%Z * sm fl n m kl)))).
    { apply zsum_ext. intros. unfold dgs. rewrite !at_ind. reflexivity. }
    rewrite E1 in R1. rewrite E2 in R2.
    destruct lasym.
    + match goal with |- context [for_up ztMin ztMax ?B ?S0] => set (bd := B); set (s0 := S0) end.
      assert (D : forall kl s, (ztMin <= kl < ztMax)%Z ->
        s_bs (bd kl s) j = s_bs s j + 0 /\ s_gs (bd kl s) j = s_gs s j + 0 /\
        s_bc (bd kl s) j = s_bc s j + (ind (posn n m) j * (Tlp fl (kl - ztMin)%Z * w_ kl * cp fl n m kl)
          + ind (negn n m) j * (Tlm fl (kl - ztMin)%Z * w_ kl * cm fl n m kl)) /\
        s_gc (bd kl s) j = s_gc s j + gate fullUpdate (ind (posn n m * nl + (kl - ztMin)) j * (Slp fl (kl - ztMin)%Z * cp fl n m kl)
          + ind (negn n m * nl + (kl - ztMin)) j * (Slm fl (kl - ztMin)%Z * cm fl n m kl))).
      { intros kl s _. unfold bd. cbv zeta. cbn [s_bs s_gs s_bc s_gc].
        unfold CP, CM, snm, csm, cnv, snv, bw, cf. split; [lra|]. split; [lra|]. split.
        - rewrite !add_at_ind. ring.
        - destruct fullUpdate; unfold gate; [|lra]. rewrite !add_at_ind. ring. }
      pose proof (for_up_delta (fun s => s_bs s j) bd (fun _ => 0) ztMin ztMax (fun kl s H => proj1 (D kl s H)) s0) as B1.
      pose proof (for_up_delta (fun s => s_gs s j) bd (fun _ => 0) ztMin ztMax (fun kl s H => proj1 (proj2 (D kl s H))) s0) as B2.
      rewrite zsum_zero in B1, B2 by reflexivity.
      split; [|split; [|split]].
      * cbv beta in B1. rewrite B1. unfold s0. cbn [s_bs]. lra.
      * cbv beta in B2. rewrite B2. unfold s0. cbn [s_gs]. lra.
      * apply (for_up_delta (fun s => s_bc s j) bd _ ztMin ztMax (fun kl s H => proj1 (proj2 (proj2 (D kl s H)))) s0).
      * apply (for_up_delta (fun s => s_gc s j) bd _ ztMin ztMax (fun kl s H => proj2 (proj2 (proj2 (D kl s H)))) s0).
    + cbn [s_bs s_gs s_bc s_gc andb gate]. rewrite (zsum_zero ztMin ztMax (fun _ => 0)) by reflexivity. lra.
Qed.

Local Notation pu := (perform_update mf nf nZeta nThetaReduced nThetaEven mnyq2 ztMin ztMax lasym fullUpdate fb wInt cmns Tlp Tlm Slp Slm bDotN).
Definition tsum (e : Z -> Z -> Z -> R) : R :=
  zsum 0 (1 + nf + mf) (fun fl => zsum 0 (nf + 1) (fun n => zsum 0 (mf + 1) (fun m => e fl n m))).

Lemma pu_spec st j :
  s_bs (pu st) j = tsum (fun fl n m => zsum ztMin ztMax (ebs fl n m j)) /\
  s_gs (pu st) j = (if fullUpdate then 0 else s_gs st j)
     + tsum (fun fl n m => zsum ztMin ztMax (fun kl => gate fullUpdate (egs fl n m j kl))) /\
  s_bc (pu st) j = (if lasym then 0 else s_bc st j)
     + tsum (fun fl n m => zsum ztMin ztMax (fun kl => gate lasym (ebc fl n m j kl))) /\
  s_gc (pu st) j = (if (lasym && fullUpdate)%bool then 0 else s_gc st j)
     + tsum (fun fl n m => zsum ztMin ztMax (fun kl => gate (lasym && fullUpdate)%bool (egc fl n m j kl))).
Proof.
  unfold perform_update. cbv zeta. set (s0 := mkSums _ _ _ _).
  assert (K : forall (g : sums -> R) (d : Z -> Z -> Z -> R),
    (forall fl n m s, g (step fl n m s) = g s + d fl n m) ->
    g (for_up 0 (1 + nf + mf) (fun fl st => for_up 0 (nf + 1) (fun n st => for_up 0 (mf + 1) (fun m st => step fl n m st) st) st) s0)
    = g s0 + tsum d).
  { intros g d H. unfold tsum.
    apply (for_up_delta g). intros fl s _. apply (for_up_delta g). intros n s1 _. apply (for_up_delta g).
    intros m s2 _. apply H. }
  split; [|split; [|split]].
  - etransitivity; [exact (K (fun s => s_bs s j) _ (fun fl n m s => proj1 (step_spec fl n m s j)))|]. unfold s0. cbn [s_bs]. lra.
  - etransitivity; [exact (K (fun s => s_gs s j) _ (fun fl n m s => proj1 (proj2 (step_spec fl n m s j))))|]. unfold s0. cbn [s_gs].
    destruct fullUpdate; reflexivity.
  - etransitivity; [exact (K (fun s => s_bc s j) _ (fun fl n m s => proj1 (proj2 (proj2 (step_spec fl n m s j)))))|]. unfold s0. cbn [s_bc].
    destruct lasym; reflexivity.
  - etransitivity; [exact (K (fun s => s_gc s j) _ (fun fl n m s => proj2 (proj2 (proj2 (step_spec fl n m s j)))))|]. unfold s0. cbn [s_gc].
    destruct (lasym && fullUpdate)%bool; reflexivity.
Qed.
End M.

(** Picking the mode (m, n). *)
Section Pick.
Variables mf nf : Z.
Hypothesis Hm : (0 <= mf)%Z.
Hypothesis Hn : (0 <= nf)%Z.

Lemma posn_eq n m n' m' : (0 <= m <= mf)%Z -> (0 <= m' <= mf)%Z ->
  ind (i_posn mf nf n m) (i_posn mf nf n' m') = if ((n =? n') && (m =? m'))%Z%bool then 1 else 0.
Proof.
  intros A B. unfold ind, i_posn. destruct (Z.eqb_spec ((nf + n) * (mf + 1) + m) ((nf + n') * (mf + 1) + m')) as [E|E].
  - apply flat_inj in E; try lia. destruct E as [E1 E2].
    replace n' with n by lia. subst m'. rewrite !Z.eqb_refl. reflexivity.
  - destruct (Z.eqb_spec n n'); [|reflexivity]. destruct (Z.eqb_spec m m'); [|reflexivity]. subst. congruence.
Qed.
Lemma negn_posn n m : i_negn mf nf n m = i_posn mf nf (- n) m.
Proof. unfold i_negn, i_posn. ring. Qed.

Lemma gterm_pick n m n' m' xp xm yp ym :
  (0 <= n <= nf)%Z -> (0 <= m <= mf)%Z -> (- nf <= n' <= nf)%Z -> (0 <= m' <= mf)%Z ->
  gterm n m (i_posn mf nf n m) (i_negn mf nf n m) (i_posn mf nf n' m') xp xm yp ym =
  if ((n =? Z.abs n') && (m =? m'))%Z%bool then by_sign m' n' (xp * (if (n' <? 0)%Z then ym else yp)) (xm * (if (n' <? 0)%Z then ym else yp)) else 0.
Proof.
  intros A B C D. unfold gterm, by_sign. rewrite negn_posn, !posn_eq by lia.
  destruct (Z.eqb_spec m m') as [<-|Em].
  2:{ rewrite !andb_false_r. destruct ((n =? 0) || (m =? 0))%Z%bool; lra. }
  rewrite !andb_true_r.
  destruct (Z.eqb_spec n (Z.abs n')) as [->|En].
  - destruct (Z.ltb_spec n' 0).
    + rewrite (proj2 (Z.eqb_neq (Z.abs n') 0)), (proj2 (Z.eqb_neq n' 0)), (proj2 (Z.eqb_neq (Z.abs n') n')),
        (proj2 (Z.eqb_eq (- Z.abs n') n')), (proj2 (Z.ltb_ge 0 n')) by lia.
      cbn [orb]. rewrite orb_false_r. destruct (m =? 0)%Z; lra.
    + rewrite (proj2 (Z.eqb_eq (Z.abs n') n')) by lia. replace (Z.abs n') with n' by lia.
      destruct (Z.eqb_spec n' 0) as [->|E0].
      * cbn [orb]. rewrite orb_true_r. lra.
      * rewrite (proj2 (Z.eqb_neq (- n') n')), (proj2 (Z.ltb_lt 0 n')) by lia. rewrite orb_false_r. cbn [orb].
        destruct (m =? 0)%Z; lra.
  - rewrite (proj2 (Z.eqb_neq n n')), (proj2 (Z.eqb_neq (- n) n')) by lia.
    destruct ((n =? 0) || (m =? 0))%Z%bool; lra.
Qed.

Lemma sum_pick (f : Z -> Z -> R) n' m' v :
  (- nf <= n' <= nf)%Z -> (0 <= m' <= mf)%Z ->
  (forall n m, (0 <= n <= nf)%Z -> (0 <= m <= mf)%Z -> f n m = if ((n =? Z.abs n') && (m =? m'))%Z%bool then v else 0) ->
  zsum 0 (nf + 1) (fun n => zsum 0 (mf + 1) (fun m => f n m)) = v.
Proof.
  intros A B H.
  rewrite (zsum_single 0 (nf + 1) (Z.abs n')); [|lia|].
  - rewrite (zsum_single 0 (mf + 1) m'); [|lia|].
    + rewrite H by lia. rewrite !Z.eqb_refl. reflexivity.
    + intros m Hm' Ne. rewrite H by lia. rewrite (proj2 (Z.eqb_neq m m')) by lia. rewrite andb_false_r. reflexivity.
  - intros n Hn' Ne. apply zsum_zero. intros m Hm'. rewrite H by lia. rewrite (proj2 (Z.eqb_neq n (Z.abs n'))) by lia. reflexivity.
Qed.
End Pick.
