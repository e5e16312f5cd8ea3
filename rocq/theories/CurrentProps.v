(** Property theorem C48: runs with prescribed toroidal current carry it. *)
From Coq Require Import ZArith List Lia Bool Reals Lra.
From Verif Require Import Base BaseLemmas Num PartModel PartSpec PartProofs.
From Verif Require Import KernelModel KernelSpec KernelProofs LamPreProofs KernelFinal.
Import ListNotations.
Open Scope Z_scope.

Lemma for_up_R_lin (n : Z) (A B C : Z -> R) (k : R) :
  (forall kl, 0 <= kl < n -> C kl = (A kl + k * B kl)%R) -> forall a b : R,
  for_up 0 n (fun kl s => (s + C kl)%R) (a + k * b)%R =
  (for_up 0 n (fun kl s => (s + A kl)%R) a + k * for_up 0 n (fun kl s => (s + B kl)%R) b)%R.
Proof.
  intros H. destruct (Z_le_gt_dec 0 n) as [L|L]; [|intros; rewrite !for_up_empty by lia; reflexivity].
  intros a b.
  apply (for_up_ind (fun m r => r = (for_up 0 m (fun kl s => (s + A kl)%R) a +
     k * for_up 0 m (fun kl s => (s + B kl)%R) b)%R)); [lia| |].
  - rewrite !for_up_empty by lia. reflexivity.
  - intros m r Hm ->. rewrite !for_up_snoc by lia. rewrite H by lia. ring.
Qed.

Lemma ints_fst (c : @kcfg num_R) f h :
  fst (Gints c f h) = for_up 0 (knZnT c) (fun kl s => (s +
    (if klthreed c
     then (guu (Gmet c f h kl) * vu (Gbsup0 c f h kl) + guv (Gmet c f h kl) * vv (Gbsup0 c f h kl)) * w c kl
     else guu (Gmet c f h kl) * vu (Gbsup0 c f h kl) * w c kl))%R) 0%R.
Proof.
  unfold Gints. rewrite (fold_acc fst _ _ (fun kl (s : R) => (s +
    (if klthreed c
     then (guu (Gmet c f h kl) * vu (Gbsup0 c f h kl) + guv (Gmet c f h kl) * vv (Gbsup0 c f h kl)) * w c kl
     else guu (Gmet c f h kl) * vu (Gbsup0 c f h kl) * w c kl))%R)).
  - reflexivity.
  - intros kl s. cbn [fst]. destruct (klthreed c); reflexivity.
Qed.
Lemma ints_snd (c : @kcfg num_R) f h :
  snd (Gints c f h) = for_up 0 (knZnT c) (fun kl s => (s +
    guu (Gmet c f h kl) / gsqrt (Gmet c f h kl) * w c kl)%R) 0%R.
Proof.
  unfold Gints. rewrite (fold_acc snd _ _ (fun kl (s : R) => (s +
    guu (Gmet c f h kl) / gsqrt (Gmet c f h kl) * w c kl)%R)); reflexivity.
Qed.

Lemma prescribed_current :
  forall (npow : R -> R -> R) (nneg : R -> R) (ncopysign : R -> R -> R)
         (c : @kcfg num_R) (f : fields) (T t : Z) (p : rpart) (x : kin) (old : kold),
    0 <= knZnT c -> 1 <= T -> 2 * T <= kns c -> 0 <= t < T ->
    adjustRadialPartitioning T t (kns c) (klfreeb c) = Some p ->
    holds_part (knZnT c) p f x -> kncurr1 c = true ->
    let r := eval_thread (K := num_R) npow nneg ncopysign c p x old in
    let w kl : R := kwInt c (Z.rem kl (knThetaEff c)) in
    forall h, nsMinH p <= h < nsMaxH p ->
      let at_ kl := (h - nsMinH p) * knZnT c + kl in
      surface_sum (knZnT c) (fun kl => (guu (t_met r (at_ kl)) / gsqrt (t_met r (at_ kl)) * w kl)%R : num_R) <> 0%R ->
      surface_sum (knZnT c) (fun kl => (vu (t_bsub r (at_ kl)) * w kl)%R : num_R) = f_currH f h.
Proof.
  intros npow nneg ncs c f T t p x old Hn HT H2 Ht Ep Hx HC r w0 h Hh at_ Havg.
  pose proof (adjust_range_ok _ _ _ _ _ HT H2 Ht Ep) as Rp.
  pose proof (eval_ok (K := num_R) npow nneg ncs c Hn f p Rp x Hx old) as A. cbv zeta in A.
  fold r in A. clearbody r.
  destruct A as (_ & A2 & _ & _ & _ & _ & A7 & _).
  rewrite surface_sum_for in Havg |- *.
  assert (Ea : for_up 0 (knZnT c) (fun kl (s : num_R) => nadd s
     (guu (t_met r (at_ kl)) / gsqrt (t_met r (at_ kl)) * w0 kl)%R) (nZ 0) = snd (Gints c f h)).
  { rewrite ints_snd. apply for_up_ext. intros kl s Hk. unfold at_.
    destruct (A2 h kl Hh Hk) as (-> & -> & _). reflexivity. }
  rewrite Ea in Havg.
  assert (Eb : for_up 0 (knZnT c) (fun kl (s : num_R) => nadd s (vu (t_bsub r (at_ kl)) * w0 kl)%R) (nZ 0) =
     for_up 0 (knZnT c) (fun kl (s : R) => (s + vu (Gbsub c f h kl) * w c kl)%R) (0 + fst (Gci c f h) * 0)%R).
  { transitivity (for_up 0 (knZnT c) (fun kl (s : R) => (s + vu (Gbsub c f h kl) * w c kl)%R) 0%R).
    - apply for_up_ext. intros kl s Hk. unfold at_. rewrite (A7 h kl Hh Hk). reflexivity.
    - f_equal. change (0%R = (0 + (fst (Gci c f h) : R) * 0)%R). ring. }
  rewrite Eb.
  rewrite (for_up_R_lin (knZnT c)
    (fun kl => if klthreed c
     then ((guu (Gmet c f h kl) * vu (Gbsup0 c f h kl) + guv (Gmet c f h kl) * vv (Gbsup0 c f h kl)) * w c kl)%R
     else (guu (Gmet c f h kl) * vu (Gbsup0 c f h kl) * w c kl)%R)
    (fun kl => (guu (Gmet c f h kl) / gsqrt (Gmet c f h kl) * w c kl)%R)).
  - rewrite <- ints_fst, <- ints_snd.
    unfold Gci. rewrite HC.
    assert (Hneq : neq (snd (Gints c f h)) c0 = false).
    { change (Reqb (snd (Gints c f h)) 0 = false). unfold Reqb. destruct (Req_EM_T _ _); [contradiction|reflexivity]. }
    rewrite Hneq. cbn [fst].
    change ((fst (Gints c f h) + ((f_currH f h - fst (Gints c f h)) / snd (Gints c f h)) * snd (Gints c f h))%R = f_currH f h).
    field. exact Havg.
  - intros kl Hk. unfold Gbsub, bco_point, Gbsup. cbn [vu vv].
    cbn [nadd nmul ndiv num_R]. unfold Rdiv.
    destruct (klthreed c); cbn [vu]; ring.
Qed.

(** C48.  For every surface on which the surface average of g_uu/sqrt(g) does
    not vanish, the surface average of the covariant poloidal field is the
    prescribed enclosed toroidal current.  Exact arithmetic; any distribution of
    surfaces over threads; any geometry. *)
Theorem C48_prescribed_current :
  forall (npow : R -> R -> R) (nneg : R -> R) (ncopysign : R -> R -> R)
         (c : @kcfg num_R) (f : fields) (T t : Z) (p : rpart) (x : kin) (old : kold),
    0 <= knZnT c -> 1 <= T -> 2 * T <= kns c -> 0 <= t < T ->
    adjustRadialPartitioning T t (kns c) (klfreeb c) = Some p ->
    holds_part (knZnT c) p f x -> kncurr1 c = true ->
    let r := eval_thread (K := num_R) npow nneg ncopysign c p x old in
    let w kl : R := kwInt c (Z.rem kl (knThetaEff c)) in
    forall h, nsMinH p <= h < nsMaxH p ->
      let at_ kl := (h - nsMinH p) * knZnT c + kl in
      surface_sum (knZnT c) (fun kl => (guu (t_met r (at_ kl)) / gsqrt (t_met r (at_ kl)) * w kl)%R : num_R) <> 0%R ->
      surface_sum (knZnT c) (fun kl => (vu (t_bsub r (at_ kl)) * w kl)%R : num_R) = f_currH f h.
Proof. exact prescribed_current. Qed.
Print Assumptions C48_prescribed_current.

(** A case meeting the hypotheses (doubles, four surfaces, one thread, two grid
    points, 3D): the average of g_uu/sqrt(g) is non-zero on the half-grid surface
    and the computed average equals the prescribed current 3 there. *)
Section Instance.
Local Notation F := num_f64.
Definition c48_cfg : @kcfg F :=
  mkKcfg 4 false true true 2 2 2 1 1 (fun _ => nfrac 1 2) (nZ 1) (nfrac 1 4) (nZ 1) (nZ (-1)) (nZ 0)
         (nZ 2) (nZ 16) (nZ 8) (nZ (-1)).
Definition c48_in : @kin F :=
  mkKin (fun i => mkGeo (nZ (8 + i)) (nZ 0) (nZ 0) (nZ 0) (nZ 0) (nZ 0) (nZ 1) (nZ 0) (nZ 1) (nZ 0) (nZ 2) (nZ 0))
        (fun i => mkLam (nZ i) (nZ 0) (nZ 2) (nZ 0))
        (fun i => nZ i) (fun i => nZ (1 + i)) (fun i => nZ 0)
        (fun i => nZ 1) (fun _ => nZ 1) (fun _ => nZ 3) (fun i => nZ 1)
        (fun _ => nZ 0) (fun i => nZ 0).
Definition c48_old : @kold F :=
  mkOld (fun _ => mkJac (nZ 7) (nZ 7) (nZ 7) (nZ 7) (nZ 7) (nZ 7)) (fun _ => mkMet (nZ 7) (nZ 7) (nZ 7) (nZ 7)) (fun _ => nZ 7)
    (fun _ => mkVec (nZ 7) (nZ 7)) (fun _ => mkVec (nZ 7) (nZ 7)) (fun _ => nZ 7) (fun _ => nZ 7)
    (fun _ => nZ 7) (fun _ => nZ 7, fun _ => nZ 7) (fun _ => mkRfb (nZ 7) (nZ 7) (nZ 7) (nZ 7) (nZ 7))
    (fun _ => lscr_zero) (fun _ => mkLfrc (nZ 7) (nZ 7) (nZ 7) (nZ 7)) (fun _ => mscr_zero) (fun _ => mscr_zero)
    (fun _ => mkMfrc (nZ 7) (nZ 7) (nZ 7) (nZ 7) (nZ 7) (nZ 7) (nZ 7) (nZ 7) (nZ 7) (nZ 7) (nZ 7) (nZ 7))
    (fun _ => mkLpc (nZ 0) (nZ 0) (nZ 0)) (fun _ => nZ 7).
Example C48_instance :
  match adjustRadialPartitioning 1 0 4 false with
  | Some p =>
      let r := eval_thread (fun a _ => a) (fun a : F => nsub (nZ 0) a) (fun a _ => a) c48_cfg p c48_in c48_old in
      (neq (surface_sum 2 (fun kl => nmul (ndiv (guu (t_met r kl)) (gsqrt (t_met r kl))) (nfrac 1 2))) (nZ 0),
       t_chipH r 0, surface_sum 2 (fun kl => nmul (vu (t_bsub r kl)) (nfrac 1 2)))
      = (false, t_chipH r 0, nZ 3) /\ neq (t_chipH r 0) (nZ 0) = false
  | None => False
  end.
Proof. vm_compute. split; reflexivity. Qed.
End Instance.
