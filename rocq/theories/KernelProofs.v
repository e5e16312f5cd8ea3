(** Every array a thread computes is, point by point, a function of the global
    fields alone. *)
From Coq Require Import ZArith List Lia Bool.
From Verif Require Import Base BaseLemmas GridLemmas Num PartModel PartSpec PartProofs.
From Verif Require Import KernelModel KernelSpec.
Open Scope Z_scope.

(** What the proofs need to know about a thread's range. *)
Record range_ok (ns : Z) (lfreeb : bool) (p : rpart) : Prop := {
  ro_ns : 2 <= ns;
  ro_H : nsMinH p = nsMinF1 p;
  ro_MaxH : nsMaxH p = nsMaxF1 p - 1;
  ro_F : 0 <= nsMinF p;
  ro_minH : nsMinH p = Z.max 0 (nsMinF p - 1);
  ro_F1 : nsMaxF1 p = Z.min ns (nsMaxF p + 1);
  ro_ne : nsMinF p < nsMaxF p;
  ro_max : nsMaxF p <= if lfreeb then ns else ns - 1;
  ro_lcfs : nsMaxFIncludingLcfs p = if nsMaxF1 p =? ns then ns else nsMaxF p;
  ro_minFi : nsMinFi p = Z.max 1 (nsMinF p);
  ro_maxFi : nsMaxFi p = Z.min (ns - 1) (nsMaxF p) }.

Lemma adjust_range_ok T t ns lfreeb p : 1 <= T -> 2 * T <= ns -> 0 <= t < T ->
  adjustRadialPartitioning T t ns lfreeb = Some p -> range_ok ns lfreeb p.
Proof.
  intros HT H2 Ht E.
  assert (T <= ns / 2) by (apply Z.div_le_lower_bound; lia).
  rewrite adjust_closed in E by lia. injection E as <-.
  set (n := num_surfaces_to_distribute ns lfreeb).
  assert (Hn : n = if lfreeb then ns else ns - 1) by reflexivity.
  assert (0 <= n) by (rewrite Hn; destruct lfreeb; lia).
  assert (B0 : blk n T 0 = 0) by (apply blk_0; lia).
  assert (BT : blk n T T = n) by (apply blk_T; lia).
  assert (M1 : blk n T 0 <= blk n T t) by (apply blk_mono; lia).
  assert (M2 : blk n T (t + 1) <= blk n T T) by (apply blk_mono; lia).
  destruct (blk_two n T t) as (W & _); [lia| rewrite Hn; destruct lfreeb; lia|lia|].
  constructor; cbn [nsMinF1 nsMaxF1 nsMinH nsMaxH nsMinF nsMaxF nsMinFi nsMaxFi
     nsMaxFIncludingLcfs rp_closed]; fold n; try reflexivity; try lia.
Qed.

Section K.
Context {K : num}.
Variables (npow : K -> K -> K) (nneg : K -> K) (ncopysign : K -> K -> K).
Variable c : @kcfg K.
Notation n := (knZnT c).
Hypothesis Hn : 0 <= n.
Variable f : @fields K.

(** Global fields, point by point. *)
Definition Gjac (j kl : Z) : jacp :=
  jac_point c (f_sqrtSH f j) (f_geo f j kl) (f_geo f (j + 1) kl).
Definition Gmet (j kl : Z) : metp :=
  met_point c (f_sqrtSF f j * f_sqrtSF f j)%n (f_sqrtSF f (j + 1)%Z * f_sqrtSF f (j + 1)%Z)%n
    (f_sqrtSH f j) (f_geo f j kl) (f_geo f (j + 1) kl) (Gjac j kl) (mkMet c0 c0 c0 c0).
Definition w (kl : Z) := kwInt c (Z.rem kl (knThetaEff c)).
Definition GdVds (j : Z) : K :=
  (for_up 0 n (fun kl s => s + gsqrt (Gmet j kl) * w kl)%n c0 * ksignJac c)%n.
Definition Glam (j kl : Z) : lamp := lam_point c (f_phipF f j) (f_lam f j kl).
Definition Gbsup0 (j kl : Z) : vecp :=
  bsup_point c (f_sqrtSH f j) (Glam j kl) (Glam (j + 1) kl) (Gmet j kl).
Definition Gints (j : Z) : K * K :=
  for_up 0 n (fun kl acc =>
    ((if klthreed c
      then fst acc + (guu (Gmet j kl) * vu (Gbsup0 j kl) + guv (Gmet j kl) * vv (Gbsup0 j kl)) * w kl
      else fst acc + guu (Gmet j kl) * vu (Gbsup0 j kl) * w kl)%n,
     (snd acc + guu (Gmet j kl) / gsqrt (Gmet j kl) * w kl)%n)) (c0, c0).
Definition Gci (j : Z) : K * K :=
  if kncurr1 c then
    let chip := if neq (snd (Gints j)) c0 then f_chipH f j
                else ((f_currH f j - fst (Gints j)) / snd (Gints j))%n in
    let iota := if neq (f_phipH f j) c0 then f_iotaH f j else (chip / f_phipH f j)%n in
    (chip, iota)
  else ((f_iotaH f j * f_phipH f j)%n, f_iotaH f j).
Definition GchipF (j : Z) : K := (half * (fst (Gci j) + fst (Gci (j - 1)%Z)))%n.
Definition Gbsup (j kl : Z) : vecp :=
  mkVec (vu (Gbsup0 j kl) + fst (Gci j) / gsqrt (Gmet j kl))%n (vv (Gbsup0 j kl)).
Definition Gbsub (j kl : Z) : vecp := bco_point c (Gmet j kl) (Gbsup j kl).
Definition Gpres (j : Z) : K := (f_massH f j / npow (GdVds j) (kgamma c))%n.
Definition Gtp (j kl : Z) : K :=
  (half * (vu (Gbsup j kl) * vu (Gbsub j kl) + vv (Gbsup j kl) * vv (Gbsub j kl)) + Gpres j)%n.
Definition Gbu (j : Z) : K := for_up 0 n (fun kl s => s + vu (Gbsub j kl) * w kl)%n c0.
Definition Gbv (j : Z) : K := for_up 0 n (fun kl s => s + vv (Gbsub j kl) * w kl)%n c0.
Definition Grfb (j : Z) : rfb :=
  rfb_point nneg c (Gbu j) (Gbu (j - 1)) (Gbv j) (Gbv (j - 1)) (Gpres j) (Gpres (j - 1))
    (GdVds j) (GdVds (j - 1)) (GchipF j) (f_phipF f j).
Definition inside (ns h : Z) : bool := (0 <=? h) && (h <? ns - 1).
Definition Glscr (h kl : Z) : lscr :=
  if inside (kns c) h then lscr_point c (Gmet h kl) (Gbsup h kl) (Gbsub h kl) lscr_zero
  else lscr_zero.
Definition GsH0 (h : Z) : K := if inside (kns c) h then f_sqrtSH f h else c0.
Definition Glfrc (j kl : Z) : lfrc :=
  lam_force_point nneg c (negb (j >? 0)) (Glscr (j - 1) kl) (Glscr j kl) (GsH0 (j - 1)) (GsH0 j)
    (Glam j kl) (f_blend f j) (f_sqrtSF f j) (mkLfrc c0 c0 c0 c0).
Definition Gmscr (h kl : Z) : mscr :=
  if inside (kns c) h then mscr_point (Gjac h kl) (Gmet h kl) (Gbsup h kl) (Gtp h kl)
  else mscr_zero.
Definition GsH1 (h : Z) : K := if inside (kns c) h then f_sqrtSH f h else c1.
Definition Gmfrc (j kl : Z) : mfrc :=
  mhd_point nneg c (f_sqrtSF f j) (GsH1 (j - 1)) (GsH1 j) (Gmscr (j - 1) kl) (Gmscr j kl)
    (f_geo f j kl) (mkMfrc c0 c0 c0 c0 c0 c0 c0 c0 c0 c0 c0 c0).

(** Small congruences: nothing looks at guv in axisymmetric runs. *)
Lemma met_point_old a b s i o j x y :
  same_metric (klthreed c) (met_point c a b s i o j x) (met_point c a b s i o j y).
Proof. unfold same_metric, met_point. destruct (klthreed c); cbn; auto. repeat split; congruence. Qed.

Lemma bco_point_ext a b v : same_metric (klthreed c) a b -> bco_point c a v = bco_point c b v.
Proof.
  intros (E1 & E2 & E3 & E4). unfold bco_point. destruct (klthreed c); rewrite E2, E3, ?E4; auto.
Qed.
Lemma bsup_point_ext s i o a b : same_metric (klthreed c) a b ->
  bsup_point c s i o a = bsup_point c s i o b.
Proof. intros (E1 & E2 & E3 & E4). unfold bsup_point. rewrite E1. reflexivity. Qed.

(** One thread. *)
Variable p : rpart.
Hypothesis RO : range_ok (kns c) (klfreeb c) p.
Variable x : @kin K.
Hypothesis HX : holds_part n p f x.

Lemma ro_le : nsMaxF p <= kns c.
Proof. pose proof (ro_max _ _ _ RO) as M. destruct (klfreeb c); lia. Qed.
Lemma ro_jmax : jMaxRZ c p = nsMaxF p.
Proof. pose proof (ro_max _ _ _ RO) as M. unfold jMaxRZ. destruct (klfreeb c); lia. Qed.
Ltac rng := pose proof (ro_ns _ _ _ RO); pose proof (ro_H _ _ _ RO); pose proof (ro_MaxH _ _ _ RO);
  pose proof (ro_F _ _ _ RO); pose proof (ro_minH _ _ _ RO); pose proof (ro_F1 _ _ _ RO);
  pose proof (ro_ne _ _ _ RO); pose proof ro_le; try lia.

Definition onH {A} (a : Z -> A) (F : Z -> Z -> A) : Prop :=
  forall h kl, nsMinH p <= h < nsMaxH p -> 0 <= kl < n -> a ((h - nsMinH p) * n + kl) = F h kl.
Definition onF1 {A} (a : Z -> A) (F : Z -> Z -> A) : Prop :=
  forall j kl, nsMinF1 p <= j < nsMaxF1 p -> 0 <= kl < n -> a ((j - nsMinF1 p) * n + kl) = F j kl.
Definition onHs {A} (a : Z -> A) (F : Z -> A) : Prop :=
  forall h, nsMinH p <= h < nsMaxH p -> a (h - nsMinH p) = F h.
Definition onMet (a : Z -> @metp K) : Prop :=
  forall h kl, nsMinH p <= h < nsMaxH p -> 0 <= kl < n ->
    same_metric (klthreed c) (a ((h - nsMinH p) * n + kl)) (Gmet h kl).

Lemma h_geo : onF1 (i_geo x) (f_geo f).
Proof. intros j kl Hj Hk. apply HX; auto. Qed.
Lemma h_lam : onF1 (i_lam x) (f_lam f).
Proof. intros j kl Hj Hk. apply HX; auto. Qed.
Lemma h_sF j : nsMinF1 p <= j < nsMaxF1 p -> i_sqrtSF x (j - nsMinF1 p) = f_sqrtSF f j.
Proof. intros. apply HX; auto. Qed.
Lemma h_blend j : nsMinF1 p <= j < nsMaxF1 p -> i_blend x (j - nsMinF1 p) = f_blend f j.
Proof. intros. apply HX; auto. Qed.
Lemma h_phipF j : nsMinF1 p <= j < nsMaxF1 p -> i_phipF x (j - nsMinF1 p) = f_phipF f j.
Proof. intros. apply HX; auto. Qed.
Lemma h_sH : onHs (i_sqrtSH x) (f_sqrtSH f).
Proof. intros h Hh. apply HX; auto. Qed.

Lemma jac_ok old : onH (compute_jacobian c p (i_sqrtSH x) (i_geo x) old) Gjac.
Proof.
  intros h kl Hh Hk. unfold compute_jacobian.
  destruct (grid_map (fun a : Z -> jacp => a)
    (fun jH kl out => upd out ((jH - nsMinH p) * n + kl)
        (jac_point c (i_sqrtSH x (jH - nsMinH p)) (i_geo x ((jH - nsMinF1 p) * n + kl))
                      (i_geo x ((jH + 1 - nsMinF1 p) * n + kl))))
    (fun jH kl _ => Gjac jH kl) n (nsMinH p) (nsMinH p) (nsMaxH p) old Hn) as (E & _).
  - intros. cbv beta. rewrite upd_eq. unfold Gjac.
    rewrite (h_sH j) by auto. rewrite !h_geo by rng. reflexivity.
  - intros. cbv beta. apply upd_neq. auto.
  - apply E; auto.
Qed.

Lemma met_ok jac old : onH jac Gjac ->
  onMet (compute_metric c p (i_sqrtSF x) (i_sqrtSH x) (i_geo x) jac old).
Proof.
  intros HJ h kl Hh Hk. unfold compute_metric.
  destruct (grid_map (fun a : Z -> metp => a)
    (fun jH kl out => upd out ((jH - nsMinH p) * n + kl)
        (met_point c (i_sqrtSF x (jH - nsMinF1 p)%Z * i_sqrtSF x (jH - nsMinF1 p)%Z)%n
                     (i_sqrtSF x (jH + 1 - nsMinF1 p)%Z * i_sqrtSF x (jH + 1 - nsMinF1 p)%Z)%n
           (i_sqrtSH x (jH - nsMinH p)) (i_geo x ((jH - nsMinF1 p) * n + kl))
                      (i_geo x ((jH + 1 - nsMinF1 p) * n + kl))
                      (jac ((jH - nsMinH p) * n + kl)) (out ((jH - nsMinH p) * n + kl))))
    (fun jH kl o => met_point c (f_sqrtSF f jH * f_sqrtSF f jH)%n
       (f_sqrtSF f (jH + 1)%Z * f_sqrtSF f (jH + 1)%Z)%n
       (f_sqrtSH f jH) (f_geo f jH kl) (f_geo f (jH + 1) kl) (Gjac jH kl) o)
    n (nsMinH p) (nsMinH p) (nsMaxH p) old Hn) as (E & _).
  - intros. cbv beta. rewrite upd_eq.
    rewrite (h_sH j) by auto. rewrite !h_geo, !h_sF by rng. rewrite HJ by auto. reflexivity.
  - intros. cbv beta. apply upd_neq. auto.
  - cbv beta in E. rewrite E by auto. apply met_point_old.
Qed.

Lemma for_up_ext' {S} lo hi (b b' : Z -> S -> S) s s' :
  s = s' -> (forall j t, lo <= j < hi -> b j t = b' j t) -> for_up lo hi b s = for_up lo hi b' s'.
Proof. intros -> H. apply for_up_ext, H. Qed.

Lemma dVds_ok met old : onMet met -> onHs (update_dVds c p met old) GdVds.
Proof.
  intros HM h Hh. unfold update_dVds.
  destruct (loop_map (fun a : Z -> K => a)
    (fun jH d =>
    let d0 := upd d (jH - nsMinH p) c0 in
    let d1 := for_up 0 n (fun kl d =>
        upd d (jH - nsMinH p)
          (d (jH - nsMinH p)%Z +
           gsqrt (met ((jH - nsMinH p) * n + kl)%Z) * kwInt c (Z.rem kl (knThetaEff c)))%n) d0 in
    upd d1 (jH - nsMinH p) (d1 (jH - nsMinH p)%Z * ksignJac c)%n)
    (fun jH => jH - nsMinH p) (fun jH _ => GdVds jH) (nsMinH p) (nsMaxH p) old) as (E & _).
  - intros; lia.
  - intros j s Hj. cbv beta zeta. rewrite upd_eq.
    pose proof (for_up_acc (fun kl (s : K) => (s +
           gsqrt (met ((j - nsMinH p) * n + kl)%Z) * kwInt c (Z.rem kl (knThetaEff c)))%n)
        n (j - nsMinH p) (upd s (j - nsMinH p) c0)) as (A & _).
    cbv beta in A. rewrite A, upd_eq. unfold GdVds. f_equal.
    apply for_up_ext. intros kl t Hk. destruct (HM j kl Hj Hk) as (-> & _). reflexivity.
  - intros j s i Hj Hi. cbv beta zeta. rewrite upd_neq by auto.
    pose proof (for_up_acc (fun kl (s : K) => (s +
           gsqrt (met ((j - nsMinH p) * n + kl)%Z) * kwInt c (Z.rem kl (knThetaEff c)))%n)
        n (j - nsMinH p) (upd s (j - nsMinH p) c0)) as (_ & A).
    cbv beta in A. rewrite A by auto. apply upd_neq; auto.
  - apply (E h Hh).
Qed.

Lemma lam_ok : onF1 (normalise_lambda c p (i_phipF x) (i_lam x)) Glam.
Proof.
  intros j kl Hj Hk. unfold normalise_lambda.
  destruct (loop_map (fun a : Z -> lamp => a)
    (fun kl lam => upd lam ((nsMinH p - nsMinF1 p) * n + kl)
       (lam_point c (i_phipF x (nsMinH p - nsMinF1 p)) (lam ((nsMinH p - nsMinF1 p) * n + kl))))
    (fun kl => (nsMinH p - nsMinF1 p) * n + kl)
    (fun kl a => lam_point c (f_phipF f (nsMinH p)) a) 0 n (i_lam x)) as (A1 & A2).
  { intros; lia. }
  { intros. cbv beta. rewrite upd_eq. rewrite h_phipF by rng. reflexivity. }
  { intros. cbv beta. apply upd_neq; auto. }
  cbv beta zeta in *. set (lam1 := for_up 0 n _ (i_lam x)) in *.
  destruct (grid_map (fun a : Z -> lamp => a)
    (fun jH kl lam => upd lam ((jH + 1 - nsMinF1 p) * n + kl)
       (lam_point c (i_phipF x (jH + 1 - nsMinH p)) (lam ((jH + 1 - nsMinF1 p) * n + kl))))
    (fun jH kl a => lam_point c (f_phipF f (jH + 1)) a) n (nsMinF1 p - 1) (nsMinH p) (nsMaxH p) lam1 Hn)
    as (B1 & B2).
  { intros j0 k0 s0 Hj0 Hk0. cbv beta. replace (j0 - (nsMinF1 p - 1)) with (j0 + 1 - nsMinF1 p) by lia.
    rewrite upd_eq. f_equal. replace (nsMinH p) with (nsMinF1 p) by rng. apply h_phipF. rng. }
  { intros. cbv beta. apply upd_neq. replace (j0 + 1 - nsMinF1 p) with (j0 - (nsMinF1 p - 1)) by lia. auto. }
  cbv beta in *. destruct (Z.eq_dec j (nsMinF1 p)) as [E|E].
  - subst j. rewrite B2.
    + assert (nsMinH p = nsMinF1 p) as EH by rng. rewrite EH in A1.
      rewrite A1 by auto. unfold Glam. rewrite h_lam by rng. reflexivity.
    + intros j' kl' Hj' Hk' E'. apply flat_inj in E'; auto. rng.
  - replace (j - nsMinF1 p) with (j - 1 - (nsMinF1 p - 1)) by lia.
    rewrite B1 by rng. replace (j - 1 + 1) with j by lia.
    rewrite A2.
    + replace (j - 1 - (nsMinF1 p - 1)) with (j - nsMinF1 p) by lia. unfold Glam.
      rewrite h_lam by auto. reflexivity.
    + intros k' Hk' E'. apply flat_inj in E'; auto. rng.
Qed.

Lemma bsup0_ok lam met old : onF1 lam Glam -> onMet met ->
  onH (compute_bsup c p (i_sqrtSH x) lam met old) Gbsup0.
Proof.
  intros HL HM h kl Hh Hk. unfold compute_bsup.
  destruct (grid_map (fun a : Z -> vecp => a)
    (fun jH kl out => upd out ((jH - nsMinH p) * n + kl)
       (bsup_point c (i_sqrtSH x (jH - nsMinH p)) (lam ((jH - nsMinF1 p) * n + kl))
                     (lam ((jH + 1 - nsMinF1 p) * n + kl)) (met ((jH - nsMinH p) * n + kl))))
    (fun jH kl _ => Gbsup0 jH kl) n (nsMinH p) (nsMinH p) (nsMaxH p) old Hn) as (E & _).
  - intros. cbv beta. rewrite upd_eq. unfold Gbsup0.
    rewrite (h_sH j) by auto. rewrite !HL by rng. apply bsup_point_ext, HM; auto.
  - intros. cbv beta. apply upd_neq. auto.
  - apply E; auto.
Qed.

Lemma ints_ok met bsup h : onMet met -> onH bsup Gbsup0 -> nsMinH p <= h < nsMaxH p ->
  current_integrals c met bsup ((h - nsMinH p) * n) = Gints h.
Proof.
  intros HM HB Hh. unfold current_integrals, Gints. apply for_up_ext.
  intros kl t Hk. cbv zeta. rewrite (HB h kl Hh Hk).
  destruct (HM h kl Hh Hk) as (-> & -> & E3 & E4). fold (w kl).
  destruct (klthreed c); [rewrite E4 by auto|]; reflexivity.
Qed.

Lemma ci_ok met bsup : onMet met -> onH bsup Gbsup0 ->
  forall h, nsMinH p <= h < nsMaxH p ->
  let ci := update_chip c p met bsup (i_currH x) (i_phipH x) (i_chipH x, i_iotaH x) in
  (fst ci (h - nsMinH p), snd ci (h - nsMinH p)) = Gci h.
Proof.
  intros HM HB h Hh. cbv zeta. unfold update_chip.
  match goal with |- context [for_up _ _ ?b ?s] =>
  destruct (loop_map (fun ci : (Z -> K) * (Z -> K) => fun i => (fst ci i, snd ci i)) b
    (fun jH => jH - nsMinH p)
    (fun jH ci => if kncurr1 c then
        let chip := if neq (snd (Gints jH)) c0 then fst ci
                    else ((f_currH f jH - fst (Gints jH)) / snd (Gints jH))%n in
        let iota := if neq (f_phipH f jH) c0 then snd ci else (chip / f_phipH f jH)%n in
        (chip, iota)
      else ((snd ci * f_phipH f jH)%n, snd ci)) (nsMinH p) (nsMaxH p) s) as (E & _)
  end.
  - intros; lia.
  - intros j s Hj. cbv zeta.
    destruct (proj2 HX j Hj) as (_ & -> & -> & _).
    destruct (kncurr1 c); cbn [fst snd]; [|rewrite upd_eq; reflexivity].
    rewrite (ints_ok met bsup j HM HB Hj). destruct (Gints j) as (jv & avg). cbn [fst snd].
    destruct (neq avg c0), (neq (f_phipH f j) c0); cbn [fst snd]; rewrite ?upd_eq; reflexivity.
  - intros j s i Hj Hi. cbv zeta.
    destruct (kncurr1 c); cbn [fst snd]; [|rewrite upd_neq by auto; reflexivity].
    destruct (current_integrals _ _ _ _) as (jv & avg).
    destruct (neq avg c0), (neq (i_phipH x (j - nsMinH p)) c0); cbn [fst snd];
      rewrite ?upd_neq by auto; reflexivity.
  - cbv beta in E. rewrite (E h Hh). cbn [fst snd]. unfold Gci.
    destruct (proj2 HX h Hh) as (_ & _ & _ & _ & -> & ->). reflexivity.
Qed.

Lemma chipF_ok chipH old : onHs chipH (fun h => fst (Gci h)) ->
  forall j, nsMinFi p <= j < nsMaxFi p ->
  update_chipF p chipH old (j - nsMinF1 p) = GchipF j.
Proof.
  intros HC j Hj. unfold update_chipF.
  destruct (loop_map (fun a : Z -> K => a)
    (fun jFi g => upd g (jFi - nsMinF1 p)
      (half * (chipH (jFi - nsMinH p)%Z + chipH (jFi - 1 - nsMinH p)%Z))%n)
    (fun jFi => jFi - nsMinF1 p) (fun jFi _ => GchipF jFi) (nsMinFi p) (nsMaxFi p) old) as (E & _).
  - intros; lia.
  - intros k s Hk. cbv beta. rewrite upd_eq. unfold GchipF.
    pose proof (ro_minFi _ _ _ RO); pose proof (ro_maxFi _ _ _ RO).
    rewrite (HC k), (HC (k - 1)) by rng. reflexivity.
  - intros. cbv beta. apply upd_neq; auto.
  - apply (E j Hj).
Qed.

Lemma bsup_ok met bsup0 chipH : onMet met -> onH bsup0 Gbsup0 -> onHs chipH (fun h => fst (Gci h)) ->
  onH (add_chip c p met chipH bsup0) Gbsup.
Proof.
  intros HM HB HC h kl Hh Hk. unfold add_chip.
  destruct (grid_map (fun a : Z -> vecp => a)
    (fun jH kl b => upd b ((jH - nsMinH p) * n + kl)
       (mkVec (vu (b ((jH - nsMinH p) * n + kl)%Z) + chipH (jH - nsMinH p)%Z / gsqrt (met ((jH - nsMinH p) * n + kl)%Z))%n
              (vv (b ((jH - nsMinH p) * n + kl)))))
    (fun jH kl b => mkVec (vu b + fst (Gci jH) / gsqrt (Gmet jH kl))%n (vv b))
    n (nsMinH p) (nsMinH p) (nsMaxH p) bsup0 Hn) as (E & _).
  - intros. cbv beta. rewrite upd_eq. rewrite (HC j) by auto.
    destruct (HM j kl0) as (-> & _); auto.
  - intros. cbv beta. apply upd_neq. auto.
  - cbv beta in E. rewrite E, HB by auto. reflexivity.
Qed.

(** Loops over the whole flat array. *)
Lemma flat_ok {A} (v : Z -> A -> A) (a0 : Z -> A) h kl :
  nsMinH p <= h < nsMaxH p -> 0 <= kl < n ->
  for_up 0 ((nsMaxH p - nsMinH p) * n) (fun i a => upd a i (v i (a i))) a0 ((h - nsMinH p) * n + kl)
  = v ((h - nsMinH p) * n + kl) (a0 ((h - nsMinH p) * n + kl)).
Proof.
  intros Hh Hk.
  destruct (loop_map (fun a : Z -> A => a) (fun i a => upd a i (v i (a i))) (fun i => i) v
    0 ((nsMaxH p - nsMinH p) * n) a0) as (E & _).
  - auto.
  - intros. cbv beta. rewrite upd_eq. reflexivity.
  - intros. cbv beta. apply upd_neq; auto.
  - apply E. apply flat_bound; auto.
Qed.

Lemma bsub_ok met bsup old : onMet met -> onH bsup Gbsup -> onH (compute_bco c p met bsup old) Gbsub.
Proof.
  intros HM HB h kl Hh Hk. unfold compute_bco.
  rewrite (flat_ok (fun i _ => bco_point c (met i) (bsup i)) old h kl Hh Hk).
  unfold Gbsub. rewrite HB by auto. apply bco_point_ext, HM; auto.
Qed.

Lemma pres_ok dVds old : onHs dVds GdVds -> onHs (update_pres npow c p (i_massH x) dVds old) Gpres.
Proof.
  intros HD h Hh. unfold update_pres.
  match goal with |- context [for_up _ _ ?b ?s] =>
  destruct (loop_map (fun a : Z -> K => a) b
    (fun jH => jH - nsMinH p) (fun jH _ => Gpres jH) (nsMinH p) (nsMaxH p) s) as (E & _) end.
  - intros; lia.
  - intros j s Hj. cbv beta. rewrite upd_eq. rewrite HD by auto.
    destruct (proj2 HX j Hj) as (_ & _ & _ & -> & _). reflexivity.
  - intros. cbv beta. apply upd_neq; auto.
  - apply (E h Hh).
Qed.

Lemma tp_ok pres bsup bsub old : onHs pres Gpres -> onH bsup Gbsup -> onH bsub Gbsub ->
  onH (compute_total_pressure c p pres bsup bsub old) Gtp.
Proof.
  intros HP HB HB' h kl Hh Hk. unfold compute_total_pressure.
  set (out1 := for_up 0 ((nsMaxH p - nsMinH p) * n) _ old).
  assert (E1 : onH out1 (fun h kl =>
    (half * (vu (Gbsup h kl) * vu (Gbsub h kl) + vv (Gbsup h kl) * vv (Gbsub h kl)))%n)).
  { intros h' kl' Hh' Hk'. subst out1.
    rewrite (flat_ok (fun i _ => (half * (vu (bsup i) * vu (bsub i) + vv (bsup i) * vv (bsub i)))%n)
      old h' kl' Hh' Hk'). rewrite HB, HB' by auto. reflexivity. }
  destruct (grid_map (fun a : Z -> K => a)
    (fun jH kl out => upd out ((jH - nsMinH p) * n + kl)
       (out ((jH - nsMinH p) * n + kl)%Z + pres (jH - nsMinH p)%Z)%n)
    (fun jH kl b => (b + Gpres jH)%n)
    n (nsMinH p) (nsMinH p) (nsMaxH p) out1 Hn) as (E & _).
  - intros. cbv beta. rewrite upd_eq, HP by auto. reflexivity.
  - intros. cbv beta. apply upd_neq. auto.
  - cbv beta in E. rewrite E, E1 by auto. reflexivity.
Qed.

Lemma buv_ok bsub old : onH bsub Gbsub ->
  let r := update_bco_avg c p bsub old in onHs (fst r) Gbu /\ onHs (snd r) Gbv.
Proof.
  intros HB. cbv zeta. unfold update_bco_avg.
  assert (IN : forall h (s : (Z -> K) * (Z -> K)), nsMinH p <= h < nsMaxH p ->
    let i := h - nsMinH p in
    let r := for_up 0 n (fun kl buv =>
      (upd (fst buv) i (fst buv i + vu (bsub ((h - nsMinH p) * n + kl)%Z) * kwInt c (Z.rem kl (knThetaEff c)))%n,
       upd (snd buv) i (snd buv i + vv (bsub ((h - nsMinH p) * n + kl)%Z) * kwInt c (Z.rem kl (knThetaEff c)))%n))
      (upd (fst s) i c0, upd (snd s) i c0) in
    (fst r i = Gbu h /\ snd r i = Gbv h) /\
    (forall k, k <> i -> fst r k = fst s k /\ snd r k = snd s k)).
  { intros h s Hh i r. subst r.
    apply (for_up_ind (fun m (r : (Z -> K) * (Z -> K)) =>
      (fst r i = for_up 0 m (fun kl s => s + vu (Gbsub h kl) * w kl)%n c0 /\
       snd r i = for_up 0 m (fun kl s => s + vv (Gbsub h kl) * w kl)%n c0) /\
      (forall k, k <> i -> fst r k = fst s k /\ snd r k = snd s k))); [lia| |].
    - rewrite !for_up_empty by lia. cbn [fst snd]. rewrite !upd_eq.
      split; [auto|]. intros. rewrite !upd_neq by auto. auto.
    - intros m r Hm ((I1 & I2) & I3). cbn [fst snd]. rewrite !upd_eq. split.
      + rewrite I1, I2, !for_up_snoc, (HB h m) by lia. auto.
      + intros. rewrite !upd_neq by auto. auto. }
  match goal with |- context [for_up _ _ ?b ?s] =>
  destruct (loop_map (fun ci : (Z -> K) * (Z -> K) => fun i => (fst ci i, snd ci i)) b
    (fun jH => jH - nsMinH p) (fun jH _ => (Gbu jH, Gbv jH)) (nsMinH p) (nsMaxH p) s) as (E & _)
  end.
  - intros; lia.
  - intros j s Hj. destruct (IN j s Hj) as ((A & B) & _). cbv zeta in *. rewrite A, B. reflexivity.
  - intros j s i Hj Hi. destruct (IN j s Hj) as (_ & A). cbv zeta in *.
    destruct (A i Hi) as (-> & ->). reflexivity.
  - split; intros h Hh; specialize (E h Hh); cbv beta in E; congruence.
Qed.

Lemma rfb_ok buco bvco pres dVds chipF old :
  onHs buco Gbu -> onHs bvco Gbv -> onHs pres Gpres -> onHs dVds GdVds ->
  (forall j, nsMinFi p <= j < nsMaxFi p -> chipF (j - nsMinF1 p) = GchipF j) ->
  forall j, nsMinFi p <= j < nsMaxFi p ->
  radial_force_balance nneg c p buco bvco pres dVds chipF (i_phipF x) old (j - nsMinFi p) = Grfb j.
Proof.
  intros H1 H2 H3 H4 H5 j Hj. unfold radial_force_balance.
  match goal with |- context [for_up _ _ ?b ?s] =>
  destruct (loop_map (fun a : Z -> rfb => a) b
    (fun jH => jH - nsMinFi p) (fun jH _ => Grfb jH) (nsMinFi p) (nsMaxFi p) s) as (E & _) end.
  - intros; lia.
  - intros k s Hk. cbv beta. rewrite upd_eq. unfold Grfb.
    pose proof (ro_minFi _ _ _ RO); pose proof (ro_maxFi _ _ _ RO).
    assert (nsMinH p <= k < nsMaxH p) by rng. assert (nsMinH p <= k - 1 < nsMaxH p) by rng.
    rewrite (H1 k), (H1 (k - 1)), (H2 k), (H2 (k-1)), (H3 k), (H3 (k-1)), (H4 k), (H4 (k-1)), H5, h_phipF
      by (auto; rng).
    reflexivity.
  - intros. cbv beta. apply upd_neq; auto.
  - apply (E j Hj).
Qed.

Lemma inside_H h : nsMinF p - 1 <= h < nsMaxFIncludingLcfs p ->
  (inside (kns c) h = true -> nsMinH p <= h < nsMaxH p) /\
  (nsMinH p <= h < nsMaxH p -> inside (kns c) h = true) /\
  (nsMinF p <= h -> inside (kns c) h = (h <? nsMaxH p)).
Proof.
  intros Hh. unfold inside. pose proof (ro_lcfs _ _ _ RO) as L.
  assert (X : nsMaxFIncludingLcfs p <= kns c /\ (nsMaxF1 p < kns c -> nsMaxFIncludingLcfs p = nsMaxF p)).
  { rewrite L. destruct (Z.eqb_spec (nsMaxF1 p) (kns c)); rng. }
  split; [|split].
  - intros E. apply andb_prop in E. destruct E as (E1 & E2).
    apply Z.leb_le in E1. apply Z.ltb_lt in E2. rng.
  - intros E. apply andb_true_intro. rewrite Z.leb_le, Z.ltb_lt. rng.
  - intros E. destruct (Z.leb_spec 0 h); [|rng]. cbn [andb].
    destruct (Z.ltb_spec h (kns c - 1)), (Z.ltb_spec h (nsMaxH p)); auto; exfalso; rng.
Qed.

Definition same_lscr (a b : @lscr K) : Prop :=
  sbv a = sbv b /\ sgg a = sgg b /\ (klthreed c = true -> sbu a = sbu b /\ sgb a = sgb b).

Lemma lscr_point_same m m' b b' o o' : same_metric (klthreed c) m m' ->
  same_lscr (lscr_point c m b b' o) (lscr_point c m' b b' o').
Proof.
  intros (E1 & E2 & E3 & E4). unfold same_lscr, lscr_point; cbn. rewrite E1, E3.
  split; [auto|split; [auto|]]. intros H. rewrite H in *. rewrite E4 by auto. auto.
Qed.

Lemma lam_force_same fst_ i i' o o' a b l bl s u u' : same_lscr i i' -> same_lscr o o' ->
  same_lambda_force (klthreed c) (lam_force_point nneg c fst_ i o a b l bl s u)
                       (lam_force_point nneg c fst_ i' o' a b l bl s u').
Proof.
  intros (A1 & A2 & A3) (B1 & B2 & B3).
  unfold same_lambda_force, lam_force_point. destruct (klthreed c) eqn:D; cbn.
  - destruct A3 as (A3 & A4); auto. destruct B3 as (B3 & B4); auto.
    rewrite A1, A2, A3, A4, B1, B2, B3, B4. auto.
  - rewrite A1, A2, B1, B2. split; [auto|split; [auto|]]. discriminate.
Qed.

Lemma lscr_shift_same o o' i : same_lscr o o' -> same_lscr (lscr_shift c o i) o'.
Proof.
  intros (A1 & A2 & A3). unfold same_lscr, lscr_shift; cbn. split; [auto|split; [auto|]].
  intros D. rewrite D. auto.
Qed.

Lemma lfrc_ok met bsup bsub lam scr old :
  onMet met -> onH bsup Gbsup -> onH bsub Gbsub -> onF1 lam Glam ->
  forall j kl, nsMinF p <= j < nsMaxFIncludingLcfs p -> 0 <= kl < n ->
  same_lambda_force (klthreed c)
    (hybrid_lambda_force nneg c p met bsup bsub lam (i_sqrtSH x) (i_sqrtSF x) (i_blend x) scr old
       ((j - nsMinF p) * n + kl)) (Glfrc j kl).
Proof.
  intros HM HB HB' HL. unfold hybrid_lambda_force.
  assert (LC : nsMaxFIncludingLcfs p <= nsMaxF1 p /\ nsMinF p <= nsMaxFIncludingLcfs p).
  { rewrite (ro_lcfs _ _ _ RO). destruct (Z.eqb_spec (nsMaxF1 p) (kns c)); rng. }
  set (sHi := if nsMinF p >? 0 then _ else c0).
  set (scr1 := for_up 0 n _ scr).
  assert (E1 : sHi = GsH0 (nsMinF p - 1)).
  { subst sHi. unfold GsH0. destruct (Z.gtb_spec (nsMinF p) 0).
    - rewrite (proj1 (proj2 (inside_H (nsMinF p - 1) ltac:(lia)))) by rng. apply h_sH. rng.
    - unfold inside. destruct (Z.leb_spec 0 (nsMinF p - 1)); [lia|]. reflexivity. }
  assert (E2 : forall kl, 0 <= kl < n -> same_lscr (scr1 kl) (Glscr (nsMinF p - 1) kl)).
  { intros kl Hk. subst scr1. unfold Glscr.
    destruct (Z.eqb_spec (nsMinF p) 0) as [Z0|NZ].
    - destruct (for_up_fill (fun kl => kl) (fun _ => @lscr_zero K) 0 n scr) as (F & _); auto.
      cbv beta in F. rewrite F by auto.
      unfold inside. destruct (Z.leb_spec 0 (nsMinF p - 1)); [lia|]. cbn [andb].
      unfold same_lscr. auto.
    - destruct (loop_map (fun a : Z -> lscr => a)
        (fun kl scr => upd scr kl (lscr_point c (met ((nsMinF p - 1 - nsMinH p) * n + kl))
            (bsup ((nsMinF p - 1 - nsMinH p) * n + kl)) (bsub ((nsMinF p - 1 - nsMinH p) * n + kl)) (scr kl)))
        (fun kl => kl)
        (fun kl o => (lscr_point c (met ((nsMinF p - 1 - nsMinH p) * n + kl))
            (bsup ((nsMinF p - 1 - nsMinH p) * n + kl)) (bsub ((nsMinF p - 1 - nsMinH p) * n + kl)) o))
        0 n scr) as (F & _).
      { auto. } { intros; cbv beta; apply upd_eq. } { intros; cbv beta; apply upd_neq; auto. }
      cbv beta in F. rewrite F by auto.
      rewrite (proj1 (proj2 (inside_H (nsMinF p - 1) ltac:(lia)))) by rng.
      rewrite HB, HB' by (auto; rng). apply lscr_point_same, HM; auto; rng. }
  clearbody scr1 sHi.
  match goal with |- context [for_up (nsMinF p) (nsMaxFIncludingLcfs p) ?b ?s] => set (body := b) end.
  assert (INV : let '(s, sh, out) := for_up (nsMinF p) (nsMaxFIncludingLcfs p) body (scr1, sHi, old) in
    (forall kl, 0 <= kl < n -> same_lscr (s kl) (Glscr (nsMaxFIncludingLcfs p - 1) kl)) /\
    sh = GsH0 (nsMaxFIncludingLcfs p - 1) /\
    (forall j kl, nsMinF p <= j < nsMaxFIncludingLcfs p -> 0 <= kl < n ->
       same_lambda_force (klthreed c) (out ((j - nsMinF p) * n + kl)) (Glfrc j kl))).
  2:{ destruct (for_up _ _ body _) as ((s & sh) & out). destruct INV as (_ & _ & INV). exact INV. }
  apply (for_up_ind (fun m st => let '(s, sh, out) := st in
    (forall kl, 0 <= kl < n -> same_lscr (s kl) (Glscr (m - 1) kl)) /\
    sh = GsH0 (m - 1) /\
    (forall j kl, nsMinF p <= j < m -> 0 <= kl < n ->
       same_lambda_force (klthreed c) (out ((j - nsMinF p) * n + kl)) (Glfrc j kl)))); [lia| |].
  { split; [exact E2|split; [exact E1|]]. intros; lia. }
  intros m ((s & sh) & out) Hm (I1 & I2 & I3). subst body. cbv beta iota.
  set (sHo := if m <? nsMaxH p then _ else c0).
  assert (Eo : sHo = GsH0 m).
  { subst sHo. unfold GsH0. destruct (inside_H m ltac:(lia)) as (_ & _ & ->); [|lia].
    destruct (Z.ltb_spec m (nsMaxH p)); [|reflexivity]. apply h_sH. rng. }
  match goal with |- context [for_up 0 n ?b (s, out)] => set (b1 := b) end.
  assert (L : (forall kl, 0 <= kl < n -> same_lscr (fst (for_up 0 n b1 (s, out)) kl) (Glscr m kl)) /\
              (forall kl, 0 <= kl < n -> same_lambda_force (klthreed c)
                  (snd (for_up 0 n b1 (s, out)) ((m - nsMinF p) * n + kl)) (Glfrc m kl)) /\
              (forall i, (forall kl, 0 <= kl < n -> i <> (m - nsMinF p) * n + kl) ->
                  snd (for_up 0 n b1 (s, out)) i = out i)).
  { apply (for_up_ind (fun k so =>
       (forall kl, 0 <= kl < k -> same_lscr (fst so kl) (Glscr m kl)) /\
       (forall kl, k <= kl < n -> fst so kl = s kl) /\
       (forall kl, 0 <= kl < k -> same_lambda_force (klthreed c)
                  (snd so ((m - nsMinF p) * n + kl)) (Glfrc m kl)) /\
       (forall i, (forall kl, 0 <= kl < n -> i <> (m - nsMinF p) * n + kl) -> snd so i = out i))
       b1 0 n (s, out)) in Hn as R.
    - destruct R as (R1 & _ & R3 & R4). auto.
    - cbn [fst snd]. repeat split; intros; auto; lia.
    - intros k (s' & out') Hk (J1 & J2 & J3 & J4). cbn [fst snd] in *.
      subst b1. cbv beta iota zeta. cbn [fst snd].
      set (o := if m <? nsMaxH p then _ else lscr_zero).
      assert (Eoo : same_lscr o (Glscr m k)).
      { subst o. unfold Glscr. destruct (inside_H m ltac:(lia)) as (_ & _ & ->); [|lia].
        destruct (Z.ltb_spec m (nsMaxH p)).
        - rewrite HB, HB' by (auto; rng). apply lscr_point_same, HM; auto; rng.
        - unfold same_lscr; auto. }
      clearbody o. split; [|split; [|split]].
      + intros kl Hkl. destruct (Z.eq_dec kl k) as [E|E].
        * subst kl. rewrite upd_eq. apply lscr_shift_same. exact Eoo.
        * rewrite upd_neq by auto. apply J1. lia.
      + intros kl Hkl. rewrite upd_neq by lia. apply J2. lia.
      + intros kl Hkl. destruct (Z.eq_dec kl k) as [E|E].
        * subst kl. rewrite upd_eq. unfold Glfrc. rewrite I2, Eo, J2 by lia.
          rewrite HL, h_blend, h_sF by rng.
          apply lam_force_same; [apply I1; lia|exact Eoo].
        * rewrite upd_neq by lia. apply J3. lia.
      + intros i Hi. rewrite upd_neq by (apply Hi; lia). apply J4. exact Hi. }
  destruct (for_up 0 n b1 (s, out)) as (s2 & out2). cbn [fst snd] in L.
  destruct L as (L1 & L2 & L3).
  replace (m + 1 - 1) with m by lia. split; [exact L1|split; [exact Eo|]].
  intros j kl Hj Hk. destruct (Z.eq_dec j m) as [E|E]; [subst j; apply L2; auto|].
  rewrite L3; [apply I3; auto; lia|].
  intros kl' Hk' E'. apply flat_inj in E'; auto. lia.
Qed.

Lemma mhd_point_same sF a b i o g u u' :
  same_mhd_force (klthreed c) (mhd_point nneg c sF a b i o g u) (mhd_point nneg c sF a b i o g u').
Proof.
  unfold same_mhd_force, mhd_point. destruct (klthreed c); cbn; repeat split; congruence.
Qed.

Lemma mscr_point_ext j (m m' : @metp K) b t : same_metric (klthreed c) m m' -> mscr_point j m b t = mscr_point j m' b t.
Proof. intros (E1 & _). unfold mscr_point. rewrite E1. reflexivity. Qed.

Lemma mfrc_ok jac met bsup tp si so old :
  onH jac Gjac -> onMet met -> onH bsup Gbsup -> onH tp Gtp ->
  forall j kl, nsMinF p <= j < nsMaxF p -> 0 <= kl < n ->
  same_mhd_force (klthreed c)
    (mhd_force nneg c p jac met bsup tp (i_geo x) (i_sqrtSH x) (i_sqrtSF x) si so old
       ((j - nsMinF p) * n + kl)) (Gmfrc j kl).
Proof.
  intros HJ HM HB HT.
  pose proof ro_jmax as JM.
  unfold mhd_force. rewrite JM. cbv zeta.
  pose proof (ro_ne _ _ _ RO) as NE.
  assert (LC : nsMaxF p <= nsMaxFIncludingLcfs p).
  { rewrite (ro_lcfs _ _ _ RO). destruct (Z.eqb_spec (nsMaxF1 p) (kns c)); rng. }
  assert (TK : forall h kl, nsMinH p <= h < nsMaxH p -> 0 <= kl < n ->
    mscr_point (jac ((h - nsMinH p) * n + kl)) (met ((h - nsMinH p) * n + kl))
      (bsup ((h - nsMinH p) * n + kl)) (tp ((h - nsMinH p) * n + kl)) =
    mscr_point (Gjac h kl) (Gmet h kl) (Gbsup h kl) (Gtp h kl)).
  { intros h kl Hh Hk. rewrite HJ, HB, HT by auto. apply mscr_point_ext, HM; auto. }
  match goal with |- context [if nsMinF p >? 0 then ?a else ?b] =>
    remember (if nsMinF p >? 0 then a else b) as st0 eqn:Est0 end.
  assert (E0 : (forall kl, 0 <= kl < n -> fst st0 kl = Gmscr (nsMinF p - 1) kl) /\
               snd st0 = GsH1 (nsMinF p - 1)).
  { subst st0. unfold Gmscr, GsH1. destruct (Z.gtb_spec (nsMinF p) 0).
    - cbn [fst snd].
      rewrite (proj1 (proj2 (inside_H (nsMinF p - 1) ltac:(lia)))) by rng.
      assert (EH : nsMinH p = nsMinF p - 1) by rng. split.
      + intros kl Hk.
        match goal with |- for_up 0 n (fun kl s => upd s kl (@?v kl)) si kl = _ =>
          destruct (for_up_fill (fun kl => kl) v 0 n si) as (F & _); auto end.
        cbv beta in F. rewrite F by auto. rewrite TK by (auto; rng). rewrite EH. reflexivity.
      + rewrite h_sH by rng. rewrite EH. reflexivity.
    - cbn [fst snd]. assert (I : inside (kns c) (nsMinF p - 1) = false).
      { unfold inside. destruct (Z.leb_spec 0 (nsMinF p - 1)); [lia|reflexivity]. }
      rewrite I. split; [|reflexivity]. intros kl Hk.
      destruct (for_up_fill (fun kl => kl) (fun _ => @mscr_zero K) 0 n si) as (F & _); auto. }
  clear Est0. destruct st0 as (si1 & sHi). cbn [fst snd] in E0. destruct E0 as (E1 & E2).
  set (so1 := for_up 0 n _ so). clearbody so1.
  match goal with |- context [for_up (nsMinF p) (nsMaxF p) ?b ?s] => set (body := b) end.
  assert (INV : let '(s, s', sh, out) := for_up (nsMinF p) (nsMaxF p) body (si1, so1, sHi, old) in
    (forall kl, 0 <= kl < n -> s kl = Gmscr (nsMaxF p - 1) kl) /\
    sh = GsH1 (nsMaxF p - 1) /\
    (forall j kl, nsMinF p <= j < nsMaxF p -> 0 <= kl < n ->
       same_mhd_force (klthreed c) (out ((j - nsMinF p) * n + kl)) (Gmfrc j kl))).
  2:{ destruct (for_up _ _ body _) as (((s & s') & sh) & out). destruct INV as (_ & _ & INV). exact INV. }
  apply (for_up_ind (fun m st => let '(s, s', sh, out) := st in
    (forall kl, 0 <= kl < n -> s kl = Gmscr (m - 1) kl) /\
    sh = GsH1 (m - 1) /\
    (forall j kl, nsMinF p <= j < m -> 0 <= kl < n ->
       same_mhd_force (klthreed c) (out ((j - nsMinF p) * n + kl)) (Gmfrc j kl)))); [rng| |].
  { split; [exact E1|split; [exact E2|]]. intros; lia. }
  intros m (((s & s') & sh) & out) Hm (I1 & I2 & I3). subst body. cbv beta iota zeta.
  set (sHo := if m <? nsMaxH p then i_sqrtSH x (m - nsMinH p) else c1).
  assert (Eo : sHo = GsH1 m).
  { subst sHo. unfold GsH1. destruct (inside_H m ltac:(lia)) as (_ & _ & ->); [|lia].
    destruct (Z.ltb_spec m (nsMaxH p)); [|reflexivity]. apply h_sH. rng. }
  match goal with |- context [if m <? nsMaxH p then ?a else ?b] =>
    match type of a with Z -> _ => set (so2 := if m <? nsMaxH p then a else b) end end.
  assert (Eso : forall kl, 0 <= kl < n -> so2 kl = Gmscr m kl).
  { intros kl Hk. subst so2. unfold Gmscr. destruct (inside_H m ltac:(lia)) as (_ & _ & ->); [|lia].
    destruct (Z.ltb_spec m (nsMaxH p)).
    - match goal with |- for_up 0 n (fun kl s => upd s kl (@?v kl)) s' kl = _ =>
          destruct (for_up_fill (fun kl => kl) v 0 n s') as (F & _); auto end.
      cbv beta in F. rewrite F by auto. apply TK; auto; rng.
    - destruct (for_up_fill (fun kl => kl) (fun _ => @mscr_zero K) 0 n s') as (F & _); auto. }
  clearbody so2.
  destruct (for_up_fill (fun kl => kl) so2 0 n s) as (F & _); auto. cbv beta in F.
  replace (m + 1 - 1) with m by lia.
  split; [intros kl Hk; rewrite F by auto; apply Eso; auto|]. split; [exact Eo|].
  destruct (loop_map (fun a : Z -> mfrc => a)
     (fun kl out => upd out ((m - nsMinF p) * n + kl)
         (mhd_point nneg c (i_sqrtSF x (m - nsMinF1 p)) sh sHo (s kl) (so2 kl)
            (i_geo x ((m - nsMinF1 p) * n + kl)) (out ((m - nsMinF p) * n + kl))))
     (fun kl => (m - nsMinF p) * n + kl)
     (fun kl o => mhd_point nneg c (f_sqrtSF f m) (GsH1 (m - 1)) (GsH1 m) (Gmscr (m - 1) kl) (Gmscr m kl)
                    (f_geo f m kl) o) 0 n out) as (L2 & L3).
  { intros; lia. }
  { intros kl o Hk. cbv beta. rewrite upd_eq. rewrite I1, I2, Eo, Eso by auto.
    rewrite h_sF, h_geo by rng. reflexivity. }
  { intros. cbv beta. apply upd_neq; auto. }
  cbv beta in L2, L3.
  intros j kl Hj Hk. destruct (Z.eq_dec j m) as [E|E].
  - subst j. rewrite L2 by auto. apply mhd_point_same.
  - rewrite L3; [apply I3; auto; lia|]. intros kl' Hk' E'. apply flat_inj in E'; auto. lia.
Qed.

(** All of a thread's results at once. *)
Lemma eval_ok old : let r := eval_thread npow nneg ncopysign c p x old in
  onH (t_jac r) Gjac /\ onMet (t_met r) /\ onHs (t_dVds r) GdVds /\
  onHs (t_chipH r) (fun h => fst (Gci h)) /\ onHs (t_iotaH r) (fun h => snd (Gci h)) /\
  onH (t_bsup r) Gbsup /\ onH (t_bsub r) Gbsub /\ onH (t_tp r) Gtp /\
  (forall j, nsMinFi p <= j < nsMaxFi p -> t_rfb r (j - nsMinFi p) = Grfb j) /\
  (forall j kl, nsMinF p <= j < nsMaxFIncludingLcfs p -> 0 <= kl < n ->
     same_lambda_force (klthreed c) (t_lfrc r ((j - nsMinF p) * n + kl)) (Glfrc j kl)) /\
  (forall j kl, nsMinF p <= j < nsMaxF p -> 0 <= kl < n ->
     same_mhd_force (klthreed c) (t_mfrc r ((j - nsMinF p) * n + kl)) (Gmfrc j kl)).
Proof.
  intros r. subst r. unfold eval_thread.
  pose proof (jac_ok (o_jac old)) as HJ.
  set (jac := compute_jacobian _ _ _ _ _) in *.
  pose proof (met_ok jac (o_met old) HJ) as HM.
  set (met := compute_metric _ _ _ _ _ _ _) in *.
  pose proof (dVds_ok met (o_dVds old) HM) as HD.
  set (dV := update_dVds _ _ _ _) in *.
  pose proof lam_ok as HL.
  set (lam := normalise_lambda _ _ _ _) in *.
  pose proof (bsup0_ok lam met (o_bsup old) HL HM) as HB0.
  set (bsup0 := compute_bsup _ _ _ _ _ _) in *.
  pose proof (ci_ok met bsup0 HM HB0) as HC. cbv zeta in HC.
  set (ci := update_chip _ _ _ _ _ _ _) in *.
  assert (HC1 : onHs (fst ci) (fun h => fst (Gci h))).
  { intros h Hh. pose proof (HC h Hh) as E. rewrite <- E. reflexivity. }
  assert (HC2 : onHs (snd ci) (fun h => snd (Gci h))).
  { intros h Hh. pose proof (HC h Hh) as E. rewrite <- E. reflexivity. }
  pose proof (chipF_ok (fst ci) (o_chipF old) HC1) as HCF.
  pose proof (bsup_ok met bsup0 (fst ci) HM HB0 HC1) as HB.
  set (bsup := add_chip _ _ _ _ _) in *.
  pose proof (bsub_ok met bsup (o_bsub old) HM HB) as HB'.
  set (bsub := compute_bco _ _ _ _ _) in *.
  pose proof (pres_ok dV (o_pres old) HD) as HP.
  set (pres := update_pres _ _ _ _ _ _) in *.
  pose proof (tp_ok pres bsup bsub (o_tp old) HP HB HB') as HT.
  pose proof (buv_ok bsub (o_buv old) HB') as HU. cbv zeta in HU. destruct HU as (HU1 & HU2).
  cbn [t_jac t_met t_dVds t_chipH t_iotaH t_bsup t_bsub t_tp t_rfb t_lfrc t_mfrc].
  split; [exact HJ|]. split; [exact HM|]. split; [exact HD|]. split; [exact HC1|].
  split; [exact HC2|]. split; [exact HB|]. split; [exact HB'|]. split; [exact HT|].
  split; [exact (rfb_ok _ _ pres dV _ (o_rfb old) HU1 HU2 HP HD HCF)|].
  split; [exact (lfrc_ok met bsup bsub lam (o_lscr old) (o_lfrc old) HM HB HB' HL)|].
  exact (mfrc_ok jac met bsup _ (o_mscr_i old) (o_mscr_o old) (o_mfrc old) HJ HM HB HT).
Qed.
End K.
