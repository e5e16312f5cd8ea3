(** The cubic spline: solution of the tridiagonal system, search, evaluation,
    integration. *)
From Coq Require Import ZArith List Reals Lia Lra.
From Coquelicot Require Import Coquelicot.
From Verif Require Import Base BaseLemmas SumLemmas ProfileModel ProfileSpec.
Import ListNotations.
Open Scope R_scope.

Lemma rltb_true x y : rltb x y = true <-> x < y.
Proof. unfold rltb. destruct (Rlt_dec x y); split; intros; auto; discriminate. Qed.
Lemma rltb_false x y : rltb x y = false <-> y <= x.
Proof. unfold rltb. destruct (Rlt_dec x y); split; intros; auto; try discriminate; lra. Qed.
Lemma rleb_true x y : rleb x y = true <-> x <= y.
Proof. unfold rleb. destruct (Rle_dec x y); split; intros; auto; discriminate. Qed.
Lemma rleb_false x y : rleb x y = false <-> y < x.
Proof. unfold rleb. destruct (Rle_dec x y); split; intros; auto; try discriminate; lra. Qed.

Lemma inc_vat xs i j : increasing xs -> (0 <= i < j)%Z -> (j < vlen xs)%Z -> vat xs i < vat xs j.
Proof. intros H Hi Hj. unfold vat. apply H. unfold vlen in Hj. lia. Qed.
Lemma inc_vat_le xs i j : increasing xs -> (0 <= i <= j)%Z -> (j < vlen xs)%Z -> vat xs i <= vat xs j.
Proof.
  intros H Hi Hj. destruct (Z.eq_dec i j) as [-> | N]; [lra|].
  left. apply inc_vat; auto. lia.
Qed.

(** ** The search *)
Lemma bisect_spec xa x n : (2 <= n)%Z -> xa 0%Z <= x ->
  let k := cubicLowerIndex xa n x in
  (0 <= k <= n - 2)%Z /\ xa k <= x /\ (x < xa (k + 1)%Z \/ k = (n - 2)%Z).
Proof.
  intros Hn Hx. cbv zeta. unfold cubicLowerIndex.
  enough (G : forall f klo khi, (khi - klo <= Z.of_nat f + 1)%Z -> (0 <= klo < khi)%Z -> (khi <= n - 1)%Z ->
    xa klo <= x -> (x < xa khi \/ khi = (n - 1)%Z) ->
    let k := bisect xa x f klo khi in
    (0 <= k <= n - 2)%Z /\ xa k <= x /\ (x < xa (k + 1)%Z \/ k = (n - 2)%Z)).
  { apply G; try lia; auto. }
  induction f as [|f IH]; intros klo khi Hf H1 H2 Hlo Hhi; cbv zeta; cbn [bisect].
  - assert (khi = klo + 1)%Z by lia. subst khi. split; [lia|]. split; [assumption|].
    destruct Hhi; [left; assumption|right; lia].
  - destruct (Z.gtb_spec (khi - klo) 1) as [G1|G1].
    + assert (D : (klo < (khi + klo) / 2 < khi)%Z).
      { pose proof (Z.div_mod (khi + klo) 2 ltac:(lia)) as DM.
        pose proof (Z.mod_pos_bound (khi + klo) 2 ltac:(lia)). lia. }
      destruct (rltb x (xa ((khi + klo) / 2)%Z)) eqn:C.
      * apply rltb_true in C. apply IH; auto; lia.
      * apply rltb_false in C. apply IH; auto; lia.
    + assert (khi = klo + 1)%Z by lia. subst khi. split; [lia|]. split; [assumption|].
      destruct Hhi; [left; assumption|right; lia].
Qed.

Section Cubic.
  Context (xa ya : Z -> R) (n : Z).
  Hypothesis Hn : (4 <= n)%Z.
  Hypothesis Hinc : forall i j, (0 <= i < j)%Z -> (j < n)%Z -> xa i < xa j.

  Let sig i := (xa i - xa (i - 1)%Z) / (xa (i + 1)%Z - xa (i - 1)%Z).
  Let dd i := 6 * ((ya (i + 1)%Z - ya i) / (xa (i + 1)%Z - xa i)
              - (ya i - ya (i - 1)%Z) / (xa i - xa (i - 1)%Z)) / (xa (i + 1)%Z - xa (i - 1)%Z).
  Let g := fst (cubic_forward xa ya n).
  Let u := snd (cubic_forward xa ya n).
  Let y2 := cubic_y2 xa ya n.

  Lemma sig_bound i : (1 <= i <= n - 2)%Z -> 0 < sig i < 1.
  Proof.
    intros Hi. unfold sig.
    pose proof (Hinc (i - 1)%Z i ltac:(lia) ltac:(lia)).
    pose proof (Hinc i (i + 1)%Z ltac:(lia) ltac:(lia)).
    split; [apply Rdiv_lt_0_compat; lra|].
    apply (Rmult_lt_reg_r (xa (i + 1)%Z - xa (i - 1)%Z)); [lra|].
    unfold Rdiv. rewrite Rmult_assoc, Rinv_l by lra. lra.
  Qed.

  (** the recurrences of the forward sweep *)
  Lemma forward_rec :
    g 0%Z = - (1 / 2) /\
    u 0%Z = 3 / (xa 1%Z - xa 0%Z) * ((ya 1%Z - ya 0%Z) / (xa 1%Z - xa 0%Z) - cubic_yp1 xa ya) /\
    (forall i, (1 <= i <= n - 2)%Z ->
       g i = (sig i - 1) / (sig i * g (i - 1)%Z + 2) /\
       u i = (dd i - sig i * u (i - 1)%Z) / (sig i * g (i - 1)%Z + 2)).
  Proof.
    unfold g, u, cubic_forward.
    set (u0 := 3 / (xa 1%Z - xa 0%Z) * _).
    match goal with |- context [for_up 1 (n - 1) ?b ?s] => set (body := b); set (s0 := s) end.
    assert (P : forall m, (1 <= m <= n - 1)%Z -> let r := for_up 1 m body s0 in
      fst r 0%Z = - (1 / 2) /\ snd r 0%Z = u0 /\
      forall i, (1 <= i < m)%Z ->
       fst r i = (sig i - 1) / (sig i * fst r (i - 1)%Z + 2) /\
       snd r i = (dd i - sig i * snd r (i - 1)%Z) / (sig i * fst r (i - 1)%Z + 2)).
    { intros m Hm. cbv zeta. apply (for_up_ind (fun m r => fst r 0%Z = - (1 / 2) /\ snd r 0%Z = u0 /\
        forall i, (1 <= i < m)%Z ->
         fst r i = (sig i - 1) / (sig i * fst r (i - 1)%Z + 2) /\
         snd r i = (dd i - sig i * snd r (i - 1)%Z) / (sig i * fst r (i - 1)%Z + 2))); [lia| |].
      - unfold s0; cbn [fst snd]. rewrite !upd_eq. repeat split; auto; lia.
      - intros j t Hj (A & B & C). unfold body; cbn [fst snd].
        split; [rewrite upd_neq by lia; exact A|]. split; [rewrite upd_neq by lia; exact B|].
        intros i Hi. destruct (Z.eq_dec i j) as [-> | N].
        + rewrite !upd_eq, !upd_neq by lia. split; reflexivity.
        + rewrite !upd_neq by lia. apply C. lia. }
    destruct (P (n - 1)%Z ltac:(lia)) as (A & B & C). cbv zeta in *.
    split; [exact A|]. split; [exact B|]. intros i Hi. apply C. lia.
  Qed.

  Lemma g_bound i : (0 <= i <= n - 2)%Z -> -1 < g i < 0.
  Proof.
    destruct forward_rec as (G0 & _ & GR).
    intros (Hi & Hi2). revert i Hi Hi2.
    apply (Zlt_lower_bound_ind (fun i => (i <= n - 2)%Z -> -1 < g i < 0) 0).
    intros i IH Hi Hi2. destruct (Z.eq_dec i 0) as [-> | N]; [rewrite G0; lra|].
    pose proof (IH (i - 1)%Z ltac:(lia) ltac:(lia)) as B.
    destruct (GR i ltac:(lia)) as (E & _). rewrite E.
    pose proof (sig_bound i ltac:(lia)) as S.
    assert (Sg : -1 < sig i * g (i - 1)%Z <= 0) by (split; nra).
    set (p := sig i * g (i - 1)%Z + 2) in *. assert (1 < p) by (unfold p; lra).
    split.
    - apply (Rmult_lt_reg_r p); [lra|]. unfold Rdiv. rewrite Rmult_assoc, Rinv_l by lra. lra.
    - apply (Rmult_lt_reg_r p); [lra|]. unfold Rdiv. rewrite Rmult_assoc, Rinv_l by lra. lra.
  Qed.

  Let un := 3 / (xa (n - 1)%Z - xa (n - 2)%Z)
            * (cubic_ypn xa ya n - (ya (n - 1)%Z - ya (n - 2)%Z) / (xa (n - 1)%Z - xa (n - 2)%Z)).

  (** back substitution *)
  Lemma back_rec :
    y2 (n - 1)%Z = (un - 1 / 2 * u (n - 2)%Z) / (1 / 2 * g (n - 2)%Z + 1) /\
    (forall i, (0 <= i <= n - 2)%Z -> y2 i = g i * y2 (i + 1)%Z + u i).
  Proof.
    unfold y2, cubic_y2. fold g u.
    set (v := (3 / (xa (n - 1)%Z - xa (n - 2)%Z) * _ - _) / _).
    set (yy := upd g (n - 1)%Z v).
    destruct (for_down_rec (fun k (nx old : R) => old * nx + u k) 0 (n - 2) 0 yy) as (A & B).
    cbv zeta in A, B.
    assert (E : for_down (n - 2) 0 (fun k y2 => upd y2 k (y2 k * y2 (k + 1)%Z + u k)) yy
      = for_down (n - 2) 0 (fun j g0 => upd g0 (0 + j) (g0 (0 + j)%Z * g0 (0 + j + 1)%Z + u j)) yy).
    { reflexivity. }
    rewrite E. set (r := for_down _ _ _ yy) in *. split.
    - rewrite (B (n - 1)%Z) by lia. unfold yy. rewrite upd_eq. unfold v, un. reflexivity.
    - intros i Hi. specialize (A i Hi). cbn [Z.add] in A. rewrite A. unfold yy. rewrite upd_neq by lia. reflexivity.
  Qed.

  (** The second derivatives solve the spline equations. *)
  Lemma y2_first : 2 * y2 0%Z + y2 1%Z
    = 6 / (xa 1%Z - xa 0%Z) * ((ya 1%Z - ya 0%Z) / (xa 1%Z - xa 0%Z) - cubic_yp1 xa ya).
  Proof.
    destruct back_rec as (_ & B). destruct forward_rec as (G0 & U0 & _).
    specialize (B 0%Z ltac:(lia)). cbn [Z.add] in B. rewrite B, G0, U0.
    pose proof (Hinc 0%Z 1%Z ltac:(lia) ltac:(lia)). field. lra.
  Qed.

  Lemma y2_mid i : (1 <= i <= n - 2)%Z ->
    sig i * y2 (i - 1)%Z + 2 * y2 i + (1 - sig i) * y2 (i + 1)%Z = dd i.
  Proof.
    intros Hi. destruct back_rec as (_ & B). destruct forward_rec as (_ & _ & F).
    pose proof (B (i - 1)%Z ltac:(lia)) as B1. replace (i - 1 + 1)%Z with i in B1 by lia.
    pose proof (B i ltac:(lia)) as B2. destruct (F i Hi) as (Gi & Ui).
    pose proof (g_bound (i - 1)%Z ltac:(lia)) as GB. pose proof (sig_bound i Hi) as SB.
    assert (P : sig i * g (i - 1)%Z + 2 <> 0) by nra.
    rewrite B1. transitivity ((sig i * g (i - 1)%Z + 2) * y2 i + sig i * u (i - 1)%Z + (1 - sig i) * y2 (i + 1)%Z); [ring|].
    rewrite B2, Gi, Ui. field. exact P.
  Qed.

  Lemma y2_last : y2 (n - 2)%Z + 2 * y2 (n - 1)%Z
    = 6 / (xa (n - 1)%Z - xa (n - 2)%Z)
      * (cubic_ypn xa ya n - (ya (n - 1)%Z - ya (n - 2)%Z) / (xa (n - 1)%Z - xa (n - 2)%Z)).
  Proof.
    destruct back_rec as (L & B).
    pose proof (B (n - 2)%Z ltac:(lia)) as B1. replace (n - 2 + 1)%Z with (n - 1)%Z in B1 by lia.
    pose proof (g_bound (n - 2)%Z ltac:(lia)) as GB.
    rewrite B1. transitivity (2 * ((1 / 2 * g (n - 2)%Z + 1) * y2 (n - 1)%Z) + u (n - 2)%Z); [field|].
    rewrite L. transitivity (2 * un); [field; lra|]. unfold un, Rdiv. ring.
  Qed.

  (** Uniqueness in the form needed: data for which a constant second derivative
      solves the equations gets that constant. *)
  Lemma y2_const c :
    6 / (xa 1%Z - xa 0%Z) * ((ya 1%Z - ya 0%Z) / (xa 1%Z - xa 0%Z) - cubic_yp1 xa ya) = 3 * c ->
    (forall i, (1 <= i <= n - 2)%Z -> dd i = 3 * c) ->
    6 / (xa (n - 1)%Z - xa (n - 2)%Z)
      * (cubic_ypn xa ya n - (ya (n - 1)%Z - ya (n - 2)%Z) / (xa (n - 1)%Z - xa (n - 2)%Z)) = 3 * c ->
    forall i, (0 <= i <= n - 1)%Z -> y2 i = c.
  Proof.
    intros H1 H2 H3. destruct back_rec as (L & B). destruct forward_rec as (G0 & U0 & F).
    assert (UU : forall i, (0 <= i)%Z -> (i <= n - 2)%Z -> u i = c * (1 - g i)).
    { apply (Zlt_lower_bound_ind (fun i => (i <= n - 2)%Z -> u i = c * (1 - g i)) 0).
      intros i IH Hi Hi2. destruct (Z.eq_dec i 0) as [-> | N].
      - rewrite U0, G0. replace (3 / (xa 1%Z - xa 0%Z)) with (1 / 2 * (6 / (xa 1%Z - xa 0%Z))) by (unfold Rdiv; lra).
        rewrite Rmult_assoc, H1. lra.
      - destruct (F i ltac:(lia)) as (Gi & Ui).
        pose proof (IH (i - 1)%Z ltac:(lia) ltac:(lia)) as I1.
        pose proof (g_bound (i - 1)%Z ltac:(lia)) as GB. pose proof (sig_bound i ltac:(lia)) as SB.
        assert (P : sig i * g (i - 1)%Z + 2 <> 0) by nra.
        rewrite Ui, Gi, I1, H2 by lia. field. exact P. }
    assert (Y : y2 (n - 1)%Z = c).
    { rewrite L, UU by lia. pose proof (g_bound (n - 2)%Z ltac:(lia)) as GB.
      replace un with (3 / 2 * c).
      - field. lra.
      - unfold un. replace (3 / (xa (n - 1)%Z - xa (n - 2)%Z)) with (1 / 2 * (6 / (xa (n - 1)%Z - xa (n - 2)%Z))) by (unfold Rdiv; lra).
        rewrite Rmult_assoc, H3. lra. }
    intros i Hi.
    enough (G : forall k, (0 <= k)%Z -> (k <= n - 1)%Z -> y2 (n - 1 - k)%Z = c).
    { replace i with (n - 1 - (n - 1 - i))%Z by lia. apply G; lia. }
    apply (Zlt_lower_bound_ind (fun k => (k <= n - 1)%Z -> y2 (n - 1 - k)%Z = c) 0).
    intros k IH Hk Hk2. destruct (Z.eq_dec k 0) as [-> | N]; [rewrite Z.sub_0_r; exact Y|].
    rewrite B by lia. replace (n - 1 - k + 1)%Z with (n - 1 - (k - 1))%Z by lia.
    rewrite IH by lia. rewrite UU by lia. ring.
  Qed.

  (** The cubic on segment [k], as the code evaluates it. *)
  Definition cseg (k : Z) (x : R) : R :=
    let h := xa (k + 1)%Z - xa k in
    let a := (xa (k + 1)%Z - x) / h in
    let b := (x - xa k) / h in
    a * ya k + b * ya (k + 1)%Z
    + ((a * a * a - a) * cubic_y2 xa ya n k + (b * b * b - b) * cubic_y2 xa ya n (k + 1)%Z) * (h * h) / 6.

  (** first derivative of the segment *)
  Definition cseg1 (k : Z) (x : R) : R :=
    let h := xa (k + 1)%Z - xa k in
    let a := (xa (k + 1)%Z - x) / h in
    let b := (x - xa k) / h in
    (ya (k + 1)%Z - ya k) / h
    + (- (3 * a * a - 1) * cubic_y2 xa ya n k + (3 * b * b - 1) * cubic_y2 xa ya n (k + 1)%Z) * h / 6.

  (** the antiderivative the code uses *)
  Definition cint (k : Z) (x : R) : R :=
    let h := xa (k + 1)%Z - xa k in
    let dx := x - xa k in
    let dya := ya (k + 1)%Z - ya k in
    let dy2a := cubic_y2 xa ya n (k + 1)%Z - cubic_y2 xa ya n k in
    ya k * dx + 1 / 2 * dya * dx * dx / h
           + cubic_y2 xa ya n k * dx * dx * (2 * dx - 3 * h) / 12
           + dy2a * dx * dx * (dx * dx - 2 * h * h) / (h * 24).

  Lemma hpos k : (0 <= k <= n - 2)%Z -> 0 < xa (k + 1)%Z - xa k.
  Proof. intros. pose proof (Hinc k (k + 1)%Z ltac:(lia) ltac:(lia)). lra. Qed.

  Lemma cseg_left k : (0 <= k <= n - 2)%Z -> cseg k (xa k) = ya k.
  Proof. intros H. pose proof (hpos k H). unfold cseg. field. lra. Qed.
  Lemma cseg_right k : (0 <= k <= n - 2)%Z -> cseg k (xa (k + 1)%Z) = ya (k + 1)%Z.
  Proof. intros H. pose proof (hpos k H). unfold cseg. field. lra. Qed.

  Lemma cint_derive k x : (0 <= k <= n - 2)%Z -> is_derive (cint k) x (cseg k x).
  Proof.
    intros H. pose proof (hpos k H) as Hp. unfold cint.
    auto_derive; [exact I|]. unfold cseg. field. lra.
  Qed.
  Lemma cseg_derive k x : (0 <= k <= n - 2)%Z -> is_derive (cseg k) x (cseg1 k x).
  Proof.
    intros H. pose proof (hpos k H) as Hp. unfold cseg.
    auto_derive; [exact I|]. unfold cseg1. field. lra.
  Qed.
  Lemma cint_left k : (0 <= k <= n - 2)%Z -> cint k (xa k) = 0.
  Proof. intros H. pose proof (hpos k H). unfold cint. field. lra. Qed.
  Lemma cint_right k : (0 <= k <= n - 2)%Z -> cint k (xa (k + 1)%Z)
    = let dxa := xa (k + 1)%Z - xa k in
      1 / 2 * dxa * (ya (k + 1)%Z + ya k)
         - (dxa * dxa * dxa) * (cubic_y2 xa ya n (k + 1)%Z + cubic_y2 xa ya n k) / 24.
  Proof. intros H. pose proof (hpos k H). unfold cint. cbv zeta. field. lra. Qed.

  Lemma cseg1_join k : (0 <= k <= n - 3)%Z -> cseg1 k (xa (k + 1)%Z) = cseg1 (k + 1) (xa (k + 1)%Z).
  Proof.
    intros H. pose proof (hpos k ltac:(lia)) as H1. pose proof (hpos (k + 1)%Z ltac:(lia)) as H2.
    pose proof (y2_mid (k + 1)%Z ltac:(lia)) as E. unfold sig, dd in E.
    replace (k + 1 - 1)%Z with k in E by lia.
    unfold cseg1. fold y2.
    set (h := xa (k + 1)%Z - xa k) in *. set (h' := xa (k + 1 + 1)%Z - xa (k + 1)%Z) in *.
    replace (xa (k + 1 + 1)%Z - xa k) with (h + h') in E by (unfold h, h'; ring).
    set (s := (ya (k + 1)%Z - ya k) / h) in *. set (s' := (ya (k + 1 + 1)%Z - ya (k + 1)%Z) / h') in *.
    assert (E2 : h * y2 k + 2 * (h + h') * y2 (k + 1)%Z + h' * y2 (k + 1 + 1)%Z = 6 * (s' - s)).
    { transitivity ((h + h') * (h / (h + h') * y2 k + 2 * y2 (k + 1)%Z + (1 - h / (h + h')) * y2 (k + 1 + 1)%Z)).
      - field. lra.
      - rewrite E. field. lra. }
    replace ((xa (k + 1)%Z - xa (k + 1)%Z) / h) with 0 by (unfold Rdiv; ring).
    replace ((xa (k + 1)%Z - xa (k + 1)%Z) / h') with 0 by (unfold Rdiv; ring).
    replace (h / h) with 1 by (field; lra). replace (h' / h') with 1 by (field; lra).
    lra.
  Qed.

  Lemma cseg1_first : cseg1 0 (xa 0%Z) = cubic_yp1 xa ya.
  Proof.
    pose proof (hpos 0%Z ltac:(lia)) as H1. pose proof y2_first as E.
    unfold cseg1. fold y2. cbn [Z.add] in *.
    set (h := xa 1%Z - xa 0%Z) in *. replace (h / h) with 1 by (field; lra).
    replace ((xa 0%Z - xa 0%Z) / h) with 0 by (unfold Rdiv; ring).
    assert (E2 : h * (2 * y2 0%Z + y2 1%Z) = 6 * ((ya 1%Z - ya 0%Z) / h - cubic_yp1 xa ya)).
    { rewrite E. field. lra. }
    set (s := (ya 1%Z - ya 0%Z) / h) in *. lra.
  Qed.
  Lemma cseg1_last : cseg1 (n - 2) (xa (n - 1)%Z) = cubic_ypn xa ya n.
  Proof.
    pose proof (hpos (n - 2)%Z ltac:(lia)) as H1. pose proof y2_last as E.
    unfold cseg1. fold y2. replace (n - 2 + 1)%Z with (n - 1)%Z in * by lia.
    set (h := xa (n - 1)%Z - xa (n - 2)%Z) in *. replace (h / h) with 1 by (field; lra).
    replace ((xa (n - 1)%Z - xa (n - 1)%Z) / h) with 0 by (unfold Rdiv; ring).
    assert (E2 : h * (y2 (n - 2)%Z + 2 * y2 (n - 1)%Z) = 6 * (cubic_ypn xa ya n - (ya (n - 1)%Z - ya (n - 2)%Z) / h)).
    { rewrite E. field. lra. }
    set (s := (ya (n - 1)%Z - ya (n - 2)%Z) / h) in *. lra.
  Qed.
End Cubic.

(** ** Piecewise integration *)
Lemma pieces_RInt (f : R -> R) (xa : Z -> R) (p Q : Z -> R -> R) (k : Z) :
  (0 <= k)%Z ->
  (forall i, (0 <= i < k)%Z -> xa i <= xa (i + 1)%Z) ->
  (forall i x, (0 <= i < k)%Z -> is_derive (Q i) x (p i x)) ->
  (forall i x, (0 <= i < k)%Z -> continuous (p i) x) ->
  (forall i x, (0 <= i < k)%Z -> xa i < x < xa (i + 1)%Z -> f x = p i x) ->
  is_RInt f (xa 0%Z) (xa k) (zsum 0 k (fun i => Q i (xa (i + 1)%Z) - Q i (xa i))).
Proof.
  intros Hk H1 H2 H3 H4.
  enough (G : forall j, (0 <= j)%Z -> (j <= k)%Z ->
    is_RInt f (xa 0%Z) (xa j) (zsum 0 j (fun i => Q i (xa (i + 1)%Z) - Q i (xa i)))).
  { apply G; lia. }
  apply (Zlt_lower_bound_ind (fun j => (j <= k)%Z ->
    is_RInt f (xa 0%Z) (xa j) (zsum 0 j (fun i => Q i (xa (i + 1)%Z) - Q i (xa i)))) 0).
  intros j IH Hj Hj2. destruct (Z.eq_dec j 0) as [-> | N].
  - rewrite zsum_empty by lia. apply (is_RInt_point f).
  - replace j with (j - 1 + 1)%Z by lia. rewrite zsum_snoc by lia.
    apply (is_RInt_Chasles f _ (xa (j - 1)%Z)); [apply IH; lia|].
    pose proof (H1 (j - 1)%Z ltac:(lia)) as Hle.
    apply (is_RInt_ext (p (j - 1)%Z)).
    + intros x Hx. rewrite Rmin_left, Rmax_right in Hx by assumption. symmetry. apply H4; [lia|exact Hx].
    + apply (is_RInt_derive (Q (j - 1)%Z) (p (j - 1)%Z)).
      * intros; apply H2; lia.
      * intros; apply H3; lia.
Qed.
