(** Forces of lasym runs: splitting into definite parity on half the poloidal
    range, and the resulting inner products over the whole range. *)
From Coq Require Import ZArith List Bool Reals Lia Lra.
From Verif Require Import Base BaseLemmas SumLemmas SizesModel FourierModel FourierSpec FourierProofs TrigSums
  PartModel DftModel DftSpec DftTables DftProofs DftGeo DftForces.
Import ListNotations.
Open Scope R_scope.

Lemma for_up_snd {A B} lo hi (g : Z -> A -> B -> B) (st : A * B) :
  for_up lo hi (fun x st => (fst st, g x (fst st) (snd st))) st = (fst st, for_up lo hi (fun x b => g x (fst st) b) (snd st)).
Proof.
  unfold for_up. revert st. induction (zrange lo hi) as [|x L IH]; intros [a b]; [reflexivity|].
  cbn [fold_left]. rewrite IH. reflexivity.
Qed.
Lemma for_up_fst {A B} lo hi (g : Z -> A -> B -> A) (st : A * B) :
  for_up lo hi (fun x st => (g x (fst st) (snd st), snd st)) st = (for_up lo hi (fun x a => g x a (snd st)) (fst st), snd st).
Proof.
  unfold for_up. revert st. induction (zrange lo hi) as [|x L IH]; intros [a b]; [reflexivity|].
  cbn [fold_left]. rewrite IH. reflexivity.
Qed.

Section Fold.
Variable s : sizes.
Hypothesis OK : sz_ok s.
Hypothesis LA : sz_lasym s = true.
Variable p : rpart.
Local Notation nZeta := (sz_nZeta s).
Local Notation nTR := (sz_nThetaReduced s).
Local Notation nTE := (sz_nThetaEff s).
Local Notation nT := (sz_nThetaEven s).
Local Notation nZnT := (sz_nZnT s).

(** the part with the reversed symmetry *)
Definition hpart (std : bool) (x xr : R) : R := if std then 1 / 2 * (x - xr) else 1 / 2 * (x + xr).

Lemma fold1_at std lo hi f fa j k l : (lo <= j < hi)%Z -> (0 <= k < nZeta)%Z -> (0 <= l < nT)%Z ->
  let i := at_pt s (j - nsMinF p) k l in
  let iR := at_pt s (j - nsMinF p) ((nZeta - k) mod nZeta) ((nT - l) mod nT) in
  fst (fold1 s p std lo hi (f, fa)) i = (if (l <? nTR)%Z then f i - hpart std (f i) (f iR) else f i) /\
  snd (fold1 s p std lo hi (f, fa)) i = (if (l <? nTR)%Z then hpart std (f i) (f iR) else fa i).
Proof.
  intros Hj Hk Hl. assert (E := la_nTE s OK LA). assert (NZ := so_nZnT s OK). assert (H2 := so_nTR s OK).
  assert (HT := so_nT s OK). assert (Z1 := so_nZeta s OK).
  assert (P : (0 < sz_nZnT s)%Z) by (rewrite NZ; nia).
  set (off := nsMinF p).
  set (blk := fun i => (i / sz_nZnT s + off)%Z).
  assert (BK : forall j' r, (0 <= r < sz_nZnT s)%Z -> blk ((j' - off) * sz_nZnT s + r)%Z = j').
  { intros j' r Hr. unfold blk. rewrite Z.div_add_l by lia. rewrite Z.div_small by lia. lia. }
  assert (BI : forall i j', blk i = j' -> exists k l, (0 <= k < nZeta /\ 0 <= l < nTE /\ i = (j' - off) * sz_nZnT s + k * nTE + l)%Z).
  { intros i j' Hb. unfold blk in Hb.
    exists ((i mod sz_nZnT s) / nTE)%Z, ((i mod sz_nZnT s) mod nTE)%Z.
    assert (A := Z.mod_pos_bound i (sz_nZnT s) P). assert (B := Z.mod_pos_bound (i mod sz_nZnT s) nTE ltac:(lia)).
    assert (C := Z_div_mod_eq_full i (sz_nZnT s)). assert (D := Z_div_mod_eq_full (i mod sz_nZnT s) nTE).
    repeat split; try lia.
    - apply Z.div_pos; lia.
    - apply Z.div_lt_upper_bound; [lia|]. rewrite Z.mul_comm, <- NZ. lia. }
  set (F := fun (j' : Z) (g : Z -> R * R) (i : Z) =>
    let base := ((j' - off) * nZnT)%Z in let k := ((i - base) / nTE)%Z in let l := ((i - base) mod nTE)%Z in
    let iR := (base + ((nZeta - k) mod nZeta) * nTE + ((nT - l) mod nT))%Z in
    if (l <? nTR)%Z then let h := hpart std (fst (g i)) (fst (g iR)) in (fst (g i) - h, h) else g i).
  assert (FP : forall j' g k l, (0 <= k < nZeta)%Z -> (0 <= l < nTE)%Z ->
    F j' g ((j' - off) * nZnT + k * nTE + l)%Z =
    let i := ((j' - off) * nZnT + k * nTE + l)%Z in
    let iR := ((j' - off) * nZnT + ((nZeta - k) mod nZeta) * nTE + ((nT - l) mod nT))%Z in
    if (l <? nTR)%Z then let h := hpart std (fst (g i)) (fst (g iR)) in (fst (g i) - h, h) else g i).
  { intros j' g k' l' Hk' Hl'. unfold F. cbv zeta.
    replace ((j' - off) * sz_nZnT s + k' * nTE + l' - (j' - off) * sz_nZnT s)%Z with (l' + k' * nTE)%Z by lia.
    rewrite Z.div_add, Z.mod_add, Z.div_small, Z.mod_small by lia. reflexivity. }
  set (view := fun (st : (Z -> R) * (Z -> R)) i => (fst st i, snd st i)).
  assert (V : forall i, (lo <= blk i < hi)%Z -> view (fold1 s p std lo hi (f, fa)) i = F (blk i) (view (f, fa)) i).
  { unfold fold1.
    set (BODY := fun jF (st : (Z -> R) * (Z -> R)) => _).
    assert (body : forall j' st,
      (forall k l, (0 <= k < nZeta)%Z -> (0 <= l < nTE)%Z -> view (BODY j' st) ((j' - off) * nZnT + k * nTE + l)%Z = F j' (view st) ((j' - off) * nZnT + k * nTE + l)%Z) /\
      (forall i, (forall k l, (0 <= k < nZeta)%Z -> (0 <= l < nTE)%Z -> i <> ((j' - off) * nZnT + k * nTE + l)%Z) -> view (BODY j' st) i = view st i)).
    { clear k l Hk Hl f fa. intros j' [f fa].
      set (base := ((j' - off) * nZnT)%Z).
      set (w := fun q : Z * Z => (base + fst q * nTE + snd q)%Z).
      set (r := fun q : Z * Z => (base + ((nZeta - fst q) mod nZeta) * nTE + ((nT - snd q) mod nT))%Z).
      assert (WI : forall q q', (0 <= snd q < nTE)%Z -> (0 <= snd q' < nTE)%Z -> w q = w q' -> q = q').
      { intros [q1 q2] [r1 r2]. unfold w. cbn [fst snd]. intros A B C.
        destruct (flat_inj nTE q1 q2 r1 r2); [lia|lia|lia|]. subst; reflexivity. }
      set (fa' := fold_left (fun a q => upd a (w q) (hpart std (f (w q)) (f (r q)))) (pairs 0 nZeta 0 nTR) fa).
      set (f' := fold_left (fun a q => upd a (w q) ((fun q v => v - fa' (w q)) q (a (w q)))) (pairs 0 nZeta 0 nTR) f).
      assert (EB : BODY j' (f, fa) = (f', fa')).
      { assert (S1 : for_up 0 nZeta (fun k st => for_up 0 nTR (fun l st => (fst st, upd (snd st) (base + k * nTE + l)%Z
            (hpart std (fst st (base + k * nTE + l)%Z) (fst st (base + ((nZeta - k) mod nZeta) * nTE + ((nT - l) mod nT))%Z)))) st) (f, fa) = (f, fa')).
        { rewrite (for_up_ext 0 nZeta _ (fun k st => (fst st, for_up 0 nTR (fun l a => upd a (base + k * nTE + l)%Z
            (hpart std (fst st (base + k * nTE + l)%Z) (fst st (base + ((nZeta - k) mod nZeta) * nTE + ((nT - l) mod nT))%Z))) (snd st)))).
          2:{ intros k st _. apply (for_up_snd 0 nTR (fun l f a => upd a (base + k * nTE + l)%Z
            (hpart std (f (base + k * nTE + l)%Z) (f (base + ((nZeta - k) mod nZeta) * nTE + ((nT - l) mod nT))%Z)))). }
          rewrite (for_up_snd 0 nZeta (fun k f a => for_up 0 nTR (fun l a => upd a (base + k * nTE + l)%Z
            (hpart std (f (base + k * nTE + l)%Z) (f (base + ((nZeta - k) mod nZeta) * nTE + ((nT - l) mod nT))%Z))) a)).
          cbn [fst snd].
          rewrite (for_up_pairs (fun k l (a : Z -> R) => upd a (base + k * nTE + l)%Z
            (hpart std (f (base + k * nTE + l)%Z) (f (base + ((nZeta - k) mod nZeta) * nTE + ((nT - l) mod nT))%Z)))).
          reflexivity. }
        unfold BODY. cbv zeta.
        match goal with |- for_up _ _ _ ?X = _ => change X with (for_up 0 nZeta (fun k st => for_up 0 nTR (fun l st => (fst st, upd (snd st) (base + k * nTE + l)%Z
            (hpart std (fst st (base + k * nTE + l)%Z) (fst st (base + ((nZeta - k) mod nZeta) * nTE + ((nT - l) mod nT))%Z)))) st) (f, fa)) end.
        rewrite S1. clear S1.
        rewrite (for_up_ext 0 nZeta _ (fun k st => (for_up 0 nTR (fun l a => upd a (base + k * nTE + l)%Z
            (a (base + k * nTE + l)%Z - snd st (base + k * nTE + l)%Z)) (fst st), snd st))).
        2:{ intros k st _. apply (for_up_fst 0 nTR (fun l a fa => upd a (base + k * nTE + l)%Z
            (a (base + k * nTE + l)%Z - fa (base + k * nTE + l)%Z))). }
        rewrite (for_up_fst 0 nZeta (fun k a fa => for_up 0 nTR (fun l a => upd a (base + k * nTE + l)%Z
            (a (base + k * nTE + l)%Z - fa (base + k * nTE + l)%Z)) a)).
        cbn [fst snd].
        rewrite (for_up_pairs (fun k l (a : Z -> R) => upd a (base + k * nTE + l)%Z
            (a (base + k * nTE + l)%Z - fa' (base + k * nTE + l)%Z))).
        reflexivity. }
      rewrite EB. clear EB BODY.
      destruct (gather_loop w w (fun q v => hpart std (f (w q)) (f (r q))) (pairs 0 nZeta 0 nTR) (pairs_NoDup _ _ _ _)) with (a0 := fa) as [A1 A2].
      { intros [x1 x2] [y1 y2] Hx Hy Ew. apply pairs_In in Hx, Hy. apply WI; cbn [snd]; [lia|lia|exact Ew]. }
      { intros [x1 x2] [y1 y2] Hx Hy Hn Ew. apply pairs_In in Hx, Hy. apply Hn. apply WI; cbn [snd]; [lia|lia|exact Ew]. }
      destruct (gather_loop w w (fun q v => v - fa' (w q)) (pairs 0 nZeta 0 nTR) (pairs_NoDup _ _ _ _)) with (a0 := f) as [B1 B2].
      { intros [x1 x2] [y1 y2] Hx Hy Ew. apply pairs_In in Hx, Hy. apply WI; cbn [snd]; [lia|lia|exact Ew]. }
      { intros [x1 x2] [y1 y2] Hx Hy Hn Ew. apply pairs_In in Hx, Hy. apply Hn. apply WI; cbn [snd]; [lia|lia|exact Ew]. }
      fold fa' in A1, A2. fold f' in B1, B2. split.
      - intros k l Hk Hl. rewrite FP by lia. cbv zeta. unfold view. cbn [fst snd].
        change ((j' - off) * nZnT)%Z with base.
        change (base + k * nTE + l)%Z with (w (k, l)).
        change (base + (nZeta - k) mod nZeta * nTE + (nT - l) mod nT)%Z with (r (k, l)).
        destruct (Z.ltb_spec l nTR).
        + rewrite B1 by (apply pairs_In; lia). rewrite A1 by (apply pairs_In; lia). reflexivity.
        + assert (NI : forall x, In x (pairs 0 nZeta 0 nTR) -> w x <> w (k, l)).
          { intros [x1 x2] Hx Ew. apply pairs_In in Hx. apply WI in Ew; cbn [snd]; try lia. injection Ew as -> ->. lia. }
          rewrite B2 by exact NI. rewrite A2 by exact NI. reflexivity.
      - intros i Hi. unfold view. cbn [fst snd].
        assert (NI : forall x, In x (pairs 0 nZeta 0 nTR) -> w x <> i).
        { intros [x1 x2] Hx Ew. apply pairs_In in Hx. apply (Hi x1 x2); [lia|lia|]. symmetry. exact Ew. }
        rewrite B2 by exact NI. rewrite A2 by exact NI. reflexivity. }
    apply (block_loopv view BODY blk F).
    - intros j' st i Hj' Hb. apply (body j' st).
      intros k' l' Hk' Hl' Ei. apply Hb. rewrite Ei, <- Z.add_assoc. apply BK. rewrite NZ. apply kl_bound; lia.
    - intros j' st i Hj' Hb. destruct (BI i j' Hb) as (k' & l' & Hk' & Hl' & ->). apply (body j' st); lia.
    - intros j' g g2 i Hj' Hb Hg. destruct (BI i j' Hb) as (k' & l' & Hk' & Hl' & ->). rewrite !FP by lia. cbv zeta.
      rewrite (Hg _ Hb).
      rewrite (Hg ((j' - off) * nZnT + ((nZeta - k') mod nZeta) * nTE + ((nT - l') mod nT))%Z); [reflexivity|].
      rewrite <- Z.add_assoc. apply BK. rewrite NZ. apply kl_bound; [apply Z.mod_pos_bound; lia|]. rewrite E. apply Z.mod_pos_bound. lia. }
  assert (AP : forall k l, (at_pt s (j - nsMinF p) k l = (j - off) * sz_nZnT s + k * nTE + l)%Z) by (intros; unfold at_pt, off; rewrite NZ; ring).
  intros i iR. assert (BJ : blk i = j).
  { unfold i. rewrite AP, <- Z.add_assoc. apply BK. rewrite NZ. apply kl_bound; lia. }
  assert (V' := V i ltac:(lia)). rewrite BJ in V'. unfold i in V'. rewrite !AP in V'. rewrite FP in V' by lia. cbv zeta in V'.
  rewrite <- !AP in V'. fold i iR in V'. unfold view in V'. cbn [fst snd] in V'.
  destruct (l <? nTR)%Z; apply pair_equal_spec in V'; exact V'.
Qed.

(** Reflection (theta, phi) -> (-theta, -phi) of the grid. *)
Definition rk (k : Z) : Z := ((nZeta - k) mod nZeta)%Z.
Definition rl (l : Z) : Z := ((nT - l) mod nT)%Z.
Lemma rk_range k : (0 <= rk k < nZeta)%Z.
Proof. assert (Z1 := so_nZeta s OK). apply Z.mod_pos_bound. lia. Qed.
Lemma nT_pos : (2 <= nT)%Z.
Proof. assert (HT := so_nT s OK). assert (H2 := so_nTR s OK). lia. Qed.
Lemma rl_range l : (0 <= rl l < nT)%Z.
Proof. assert (HT := nT_pos). apply Z.mod_pos_bound. lia. Qed.
Lemma rr N k : (0 < N)%Z -> (0 <= k < N)%Z -> ((N - (N - k) mod N) mod N = k)%Z.
Proof.
  intros HN Hk. destruct (Z.eq_dec k 0) as [->|K0].
  - rewrite Z.sub_0_r, Z.mod_same by lia. rewrite Z.sub_0_r. apply Z.mod_same. lia.
  - rewrite (Z.mod_small (N - k)) by lia. replace (N - (N - k))%Z with k by lia. apply Z.mod_small. lia.
Qed.
Definition full (g : Z -> Z -> R) : R := zsum 0 nZeta (fun k => zsum 0 nT (fun l => g k l)).
Lemma full_refl g : full (fun k l => g (rk k) (rl l)) = full g.
Proof.
  assert (Z1 := so_nZeta s OK). assert (HT := nT_pos). unfold full, rk, rl.
  rewrite (zsum_refl nZeta (fun k => zsum 0 nT (fun l => g k ((nT - l) mod nT)%Z))) by lia.
  apply zsum_ext. intros k _. apply (zsum_refl nT (fun l => g k l)). lia.
Qed.
Lemma full_lin a b f g : full (fun k l => a * f k l + b * g k l) = a * full f + b * full g.
Proof.
  unfold full. rewrite <- !zsum_scale, <- zsum_plus. apply zsum_ext. intros k _.
  rewrite <- !zsum_scale, <- zsum_plus. reflexivity.
Qed.
Lemma full_ext f g : (forall k l, (0 <= k < nZeta)%Z -> (0 <= l < nT)%Z -> f k l = g k l) -> full f = full g.
Proof. intros H. apply zsum_ext. intros k Hk. apply zsum_ext. intros l Hl. apply H; lia. Qed.

(** weighted half-range sum of a reflection-even integrand = half the full sum *)
Lemma red_even g : (forall k l, (0 <= k < nZeta)%Z -> (0 <= l < nT)%Z -> g (rk k) (rl l) = g k l) ->
  red_avg s g = norm_ s / 2 * full g.
Proof.
  intros Hg. assert (Z1 := so_nZeta s OK). assert (HT := so_nT s OK). assert (H2 := so_nTR s OK).
  set (col := fun l => zsum 0 nZeta (fun k => g k l)).
  assert (F : full g = zsum 0 nT col) by (unfold full; rewrite zsum_swap; reflexivity).
  assert (CR : forall l, (0 <= l < nT)%Z -> col (rl l) = col l).
  { intros l Hl. unfold col. rewrite <- (zsum_refl nZeta (fun k => g k (rl l))) by lia. apply zsum_ext. intros k Hk.
    apply Hg; lia. }
  assert (RD : red_avg s g = zsum 0 nTR (fun l => wred s l * col l)).
  { unfold red_avg. rewrite zsum_swap. apply zsum_ext. intros l _. unfold col. rewrite <- zsum_scale. reflexivity. }
  rewrite RD, F.
  rewrite (zsum_cons 0 nTR) by lia. change (0 + 1)%Z with 1%Z.
  replace nTR with (nTR - 1 + 1)%Z at 1 by lia. rewrite (zsum_snoc 1 (nTR - 1)) by lia.
  rewrite (zsum_cons 0 nT) by lia. change (0 + 1)%Z with 1%Z.
  rewrite (zsum_split 1 (nTR - 1) nT) by lia. rewrite (zsum_cons (nTR - 1) nT) by lia.
  replace (nTR - 1 + 1)%Z with nTR by lia.
  assert (U : zsum nTR nT col = zsum 1 (nTR - 1) col).
  { replace (zsum nTR nT col) with (zsum (nTR - nTR + nTR) (nT - nTR + nTR) col) by (f_equal; lia).
    rewrite zsum_rev. replace (nT - nTR + nTR)%Z with nT by lia. replace (nTR - nTR + nTR)%Z with nTR by lia.
    replace (zsum nTR nT (fun j => col (nTR + nT - 1 - j)%Z)) with (zsum (1 + (nTR - 1)) (nTR - 1 + (nTR - 1)) (fun j => col (nTR + nT - 1 - j)%Z)) by (f_equal; lia).
    rewrite zsum_shift. apply zsum_ext. intros j Hj.
    replace (nTR + nT - 1 - (j + (nTR - 1)))%Z with (nT - j)%Z by lia. rewrite <- (CR j) by lia. unfold rl. rewrite Z.mod_small by lia. reflexivity. }
  rewrite U.
  assert (M : zsum 1 (nTR - 1) (fun l => wred s l * col l) = norm_ s * zsum 1 (nTR - 1) col).
  { rewrite <- zsum_scale. apply zsum_ext. intros l Hl. unfold wred, half_end.
    destruct (Z.eqb_spec l 0); destruct (Z.eqb_spec l (nTR - 1)); try lia. reflexivity. }
  rewrite M. unfold wred, half_end. rewrite !Z.eqb_refl. cbn [orb]. rewrite orb_true_r. field.
Qed.

Lemma grid_full g : grid_avg s g = norm_ s / 2 * full g.
Proof.
  assert (Z1 := so_nZeta s OK). assert (HT := so_nT s OK). assert (H2 := so_nTR s OK). assert (E := la_nTE s OK LA).
  unfold grid_avg, full. rewrite E, <- zsum_scale. apply zsum_ext. intros k _. rewrite <- zsum_scale. apply zsum_ext. intros l Hl.
  rewrite (so_wInt s OK), wint_at by lia. rewrite LA. cbn [negb andb]. apply (f_equal2 Rmult); [|reflexivity].
  unfold dnorm3, norm_, intNorm. rewrite HT, ?mult_IZR. field. split; apply not_0_IZR; lia.
Qed.

(** the part of [f] of parity [sg], against a function of parity [sg] *)
Lemma red_part sg (f ph : Z -> Z -> R) (h : Z -> Z -> R) : sg * sg = 1 ->
  (forall k l, (0 <= k < nZeta)%Z -> (0 <= l < nT)%Z -> ph (rk k) (rl l) = sg * ph k l) ->
  (forall k l, (0 <= k < nZeta)%Z -> (0 <= l < nTR)%Z -> h k l = 1 / 2 * (f k l + sg * f (rk k) (rl l)) * ph k l) ->
  red_avg s h = grid_avg s (fun k l => f k l * ph k l).
Proof.
  intros S1 Hp Hh. assert (Z1 := so_nZeta s OK). assert (HT := so_nT s OK). assert (H2 := so_nTR s OK).
  set (g := fun k l => 1 / 2 * (f k l + sg * f (rk k) (rl l)) * ph k l).
  assert (E1 : red_avg s h = red_avg s g).
  { unfold red_avg. apply zsum_ext. intros k Hk. apply zsum_ext. intros l Hl. rewrite Hh by lia. reflexivity. }
  rewrite E1, red_even.
  - rewrite grid_full. apply f_equal.
    transitivity (full (fun k l => 1 / 2 * (f k l * ph k l) + 1 / 2 * (f (rk k) (rl l) * ph (rk k) (rl l)))).
    + apply full_ext. intros k l Hk Hl. unfold g. rewrite Hp by lia. ring.
    + rewrite full_lin. rewrite (full_refl (fun k l => f k l * ph k l)). field.
  - intros k l Hk Hl. unfold g. rewrite Hp by lia.
    assert (RK : rk (rk k) = k) by (apply rr; lia). assert (RL : rl (rl l) = l) by (apply rr; lia).
    rewrite RK, RL. transitivity (1 / 2 * (sg * f (rk k) (rl l) + sg * sg * f k l) * ph k l); [ring|]. rewrite S1. ring.
Qed.
End Fold.

Section Final.
Variable s : sizes.
Hypothesis OK : sz_ok s.
Variable b0 : basis_tables.
Variable p : rpart.
Variable xmpq : Z -> R.
Variables (ns : Z) (lfreeb vacuum_on : bool).
Hypothesis SH : sz_lthreed s = true \/ sz_nZeta s = 1%Z.
Hypothesis P0 : (0 <= nsMinF p)%Z.
Local Notation t := (tab s b0).
Local Notation mpol := (sz_mpol s).
Local Notation ntor := (sz_ntor s).
Local Notation nfp := (sz_nfp s).
Local Notation nZeta := (sz_nZeta s).
Local Notation nTR := (sz_nThetaReduced s).
Local Notation nTE := (sz_nThetaEff s).
Local Notation nT := (sz_nThetaEven s).
Local Notation jMax := (f_jMaxRZ p ns lfreeb vacuum_on).
Hypothesis JL : (1 <= jMax)%Z.
Hypothesis JI : (nsMinF p <= jMax)%Z.
Hypothesis JM : (jMax <= nsMaxFIncludingLcfs p)%Z.
Local Notation on__ := (on_ s p ns lfreeb vacuum_on).

Lemma red_grid g : sz_lasym s = false -> red_avg s g = grid_avg s g.
Proof.
  intros LA. unfold red_avg, grid_avg. assert (TE : nTE = nTR) by (rewrite (so_nTE s OK), LA; reflexivity).
  assert (Z1 := so_nZeta s OK). assert (H2 := so_nTR s OK). assert (HT := so_nT s OK).
  rewrite TE. apply zsum_ext. intros k _. apply zsum_ext. intros l Hl.
  rewrite (so_wInt s OK), wint_at by lia. rewrite LA. cbn [negb andb]. unfold wred, half_end.
  apply (f_equal2 Rmult); [|reflexivity].
  assert (N : dnorm3 false nZeta nTR nT = norm_ s) by reflexivity. rewrite N. reflexivity.
Qed.
Lemma red_lin a b f g : red_avg s (fun k l => a * f k l + b * g k l) = a * red_avg s f + b * red_avg s g.
Proof.
  unfold red_avg. rewrite <- !zsum_scale, <- zsum_plus. apply zsum_ext. intros k _.
  rewrite <- !zsum_scale, <- zsum_plus. apply zsum_ext. intros; ring.
Qed.
Lemma grid_lin a b f g : grid_avg s (fun k l => a * f k l + b * g k l) = a * grid_avg s f + b * grid_avg s g.
Proof.
  unfold grid_avg. rewrite <- !zsum_scale, <- zsum_plus. apply zsum_ext. intros k _.
  rewrite <- !zsum_scale, <- zsum_plus. apply zsum_ext. intros; ring.
Qed.
Lemma red_ext f g : (forall k l, (0 <= k < nZeta)%Z -> (0 <= l < nTR)%Z -> f k l = g k l) -> red_avg s f = red_avg s g.
Proof. intros H. apply zsum_ext. intros k Hk. apply zsum_ext. intros l Hl. rewrite H by lia. reflexivity. Qed.
Lemma grid_ext f g : (forall k l, (0 <= k < nZeta)%Z -> (0 <= l < nTE)%Z -> f k l = g k l) -> grid_avg s f = grid_avg s g.
Proof. intros H. apply zsum_ext. intros k Hk. apply zsum_ext. intros l Hl. rewrite H by lia. reflexivity. Qed.

Definition sgn_q (asy : bool) (q : fq) : R := if xorb asy (std_q q) then 1 else -1.
Definition dpart (asy : bool) (d da : forces) : forces := if asy then snd (symforce s p d da) else fst (symforce s p d da).
Lemma sgn_sq asy q : sgn_q asy q * sgn_q asy q = 1.
Proof. unfold sgn_q. destruct (xorb asy (std_q q)); ring. Qed.

Lemma piece asy d da q e j ph : sz_lasym s = true -> negb (is_c q) || sz_lthreed s = true ->
  (nsMinF p <= j < (if lam_q q then nsMaxFIncludingLcfs p else nsMaxF p))%Z ->
  (forall k l, (0 <= k < nZeta)%Z -> (0 <= l < nT)%Z -> ph (rk s k) (rl s l) = sgn_q asy q * ph k l) ->
  red_avg s (fun k l => dpart asy d da q e (at_pt s (j - nsMinF p) k l) * ph k l) =
  grid_avg s (fun k l => d q e (at_pt s (j - nsMinF p) k l) * ph k l).
Proof.
  intros LA Hq Hj Hp. assert (H2 := so_nTR s OK). assert (HT := so_nT s OK).
  apply (red_part s OK LA (sgn_q asy q) (fun k l => d q e (at_pt s (j - nsMinF p) k l)) ph); [apply sgn_sq|exact Hp|].
  intros k l Hk Hl. apply (f_equal2 Rmult); [|reflexivity].
  destruct (fold1_at s OK LA p (std_q q) (nsMinF p) (if lam_q q then nsMaxFIncludingLcfs p else nsMaxF p) (d q e) (da q e) j k l) as [A B]; [lia|lia|lia|].
  destruct (Z.ltb_spec l nTR); [|lia].
  unfold dpart, symforce, sgn_q. destruct asy; cbn [fst snd xorb]; rewrite Hq.
  - rewrite B. unfold hpart, rk, rl. destruct (std_q q); cbn [negb]; ring.
  - rewrite A. unfold hpart, rk, rl. destruct (std_q q); cbn [negb]; field.
Qed.

Lemma Phi_refl asy c b m n k l : In b (pkinds asy c) -> (0 <= k < nZeta)%Z -> (0 <= l < nT)%Z ->
  (c <> cL -> Phi nfp b m n (theta_pt s (rl s l)) (phi_pt s (rk s k)) = sgn_q asy (c_A c) * Phi nfp b m n (theta_pt s l) (phi_pt s k)) /\
  Phi_theta nfp b m n (theta_pt s (rl s l)) (phi_pt s (rk s k)) = sgn_q asy (c_B c) * Phi_theta nfp b m n (theta_pt s l) (phi_pt s k) /\
  Phi_phi nfp b m n (theta_pt s (rl s l)) (phi_pt s (rk s k)) = sgn_q asy (c_C c) * Phi_phi nfp b m n (theta_pt s l) (phi_pt s k).
Proof.
  intros Hb Hk Hl.
  assert (T0 : (0 < nT)%Z) by (pose proof (so_nT s OK); pose proof (so_nTR s OK); lia).
  assert (Z0 : (0 < nZeta)%Z) by (pose proof (so_nZeta s OK); lia).
  destruct (refl_trig_mod nT l m T0 Hl) as [C1 S1]. destruct (refl_trig_mod nZeta k n Z0 Hk) as [C2 S2].
  unfold rk, rl, sgn_q.
  destruct asy, c; cbn in Hb; repeat (destruct Hb as [<-|Hb]; try contradiction);
  unfold Phi, Phi_theta, Phi_phi; cbn [in_theta in_zeta d_in_theta d_in_zeta];
  rewrite ?(phi_ang s OK), ?theta_pt_ang, ?C1, ?S1, ?C2, ?S2; cbn [xorb std_q negb c_A c_B c_C];
  (split; [intros ?; try congruence; ring|split; ring]).
Qed.

Lemma fterm_part asy d da c b j m n : sz_lasym s = true -> In b (pkinds asy c) ->
  (0 <= m < mpol)%Z -> (0 <= n <= ntor)%Z ->
  (nsMinF p <= j < (if isL c then nsMaxFIncludingLcfs p else nsMaxF p))%Z ->
  red_avg s (fterm s xmpq (dpart asy d da) (j - nsMinF p) m n c b) = grid_avg s (fterm s xmpq d (j - nsMinF p) m n c b).
Proof.
  intros LA Hb Hm Hn Hj. set (J := (j - nsMinF p)%Z). set (e := Z.even m).
  set (P := fun k l => Phi nfp b m n (theta_pt s l) (phi_pt s k)).
  set (Pt := fun k l => Phi_theta nfp b m n (theta_pt s l) (phi_pt s k)).
  set (Pp := fun k l => Phi_phi nfp b m n (theta_pt s l) (phi_pt s k)).
  assert (HB : red_avg s (fun k l => dpart asy d da (c_B c) e (at_pt s J k l) * Pt k l) = grid_avg s (fun k l => d (c_B c) e (at_pt s J k l) * Pt k l)).
  { apply piece; [exact LA|destruct c; reflexivity|destruct c; cbn [c_B lam_q isL] in *; lia|].
    intros k l Hk Hl. unfold Pt. apply (Phi_refl asy c b m n k l Hb Hk Hl). }
  assert (HC : red_avg s (fun k l => dpart asy d da (c_C c) e (at_pt s J k l) * Pp k l) = grid_avg s (fun k l => d (c_C c) e (at_pt s J k l) * Pp k l)).
  { case_eq (sz_lthreed s); intros H3.
    - apply piece; [exact LA|rewrite H3; apply orb_true_r|destruct c; cbn [c_C lam_q isL] in *; lia|].
      intros k l Hk Hl. unfold Pp. apply (Phi_refl asy c b m n k l Hb Hk Hl).
    - assert (N0 := ntor2 s OK H3). assert (n = 0)%Z by lia. subst n.
      assert (Z0 : forall k l, Pp k l = 0) by (intros; unfold Pp, Phi_phi; rewrite Z.mul_0_l; ring).
      unfold red_avg, grid_avg. rewrite zsum_zero; [rewrite zsum_zero; [reflexivity|]|]; intros k _; apply zsum_zero; intros l _; rewrite Z0; ring. }
  destruct (isL c) eqn:EL.
  - transitivity (1 * red_avg s (fun k l => dpart asy d da (c_B c) e (at_pt s J k l) * Pt k l) + (-1) * red_avg s (fun k l => dpart asy d da (c_C c) e (at_pt s J k l) * Pp k l)).
    + rewrite <- red_lin. apply red_ext. intros k l _ _. unfold fterm, fA. cbv zeta. rewrite EL. fold e. unfold Pt, Pp. ring.
    + rewrite HB, HC, <- grid_lin. apply grid_ext. intros k l _ _. unfold fterm, fA. cbv zeta. rewrite EL. fold e. unfold Pt, Pp. ring.
  - assert (NL : c <> cL) by (intros ->; discriminate EL).
    assert (HA : red_avg s (fun k l => dpart asy d da (c_A c) e (at_pt s J k l) * P k l) = grid_avg s (fun k l => d (c_A c) e (at_pt s J k l) * P k l)).
    { apply piece; [exact LA|destruct c; reflexivity|destruct c; cbn [c_A lam_q isL] in *; try congruence; lia|].
      intros k l Hk Hl. unfold P. apply (Phi_refl asy c b m n k l Hb Hk Hl). exact NL. }
    assert (HF : red_avg s (fun k l => dpart asy d da (c_con c) e (at_pt s J k l) * P k l) = grid_avg s (fun k l => d (c_con c) e (at_pt s J k l) * P k l)).
    { apply piece; [exact LA|destruct c; reflexivity|destruct c; cbn [c_con lam_q isL] in *; try congruence; lia|].
      intros k l Hk Hl. unfold P. replace (sgn_q asy (c_con c)) with (sgn_q asy (c_A c)) by (destruct c; reflexivity).
      apply (Phi_refl asy c b m n k l Hb Hk Hl). exact NL. }
    transitivity (1 * (1 * red_avg s (fun k l => dpart asy d da (c_B c) e (at_pt s J k l) * Pt k l) + (-1) * red_avg s (fun k l => dpart asy d da (c_C c) e (at_pt s J k l) * Pp k l)) +
      1 * (1 * red_avg s (fun k l => dpart asy d da (c_A c) e (at_pt s J k l) * P k l) + xmpq m * red_avg s (fun k l => dpart asy d da (c_con c) e (at_pt s J k l) * P k l))).
    + rewrite <- !red_lin. apply red_ext. intros k l _ _. unfold fterm, fA. cbv zeta. rewrite EL. fold e. unfold P, Pt, Pp. ring.
    + rewrite HA, HB, HC, HF, <- !grid_lin. apply grid_ext. intros k l _ _. unfold fterm, fA. cbv zeta. rewrite EL. fold e. unfold P, Pt, Pp. ring.
Qed.

Theorem forces_at d da c b j m n : In b (kinds (sz_lasym s) c) -> (0 <= m < mpol)%Z -> (0 <= n <= ntor)%Z -> (0 <= j)%Z ->
  forcesToFourier s t p xmpq ns lfreeb vacuum_on d da c b (at_mn s (j - nsMinF p) m n) =
  if on__ c j m then grid_avg s (fterm s xmpq d (j - nsMinF p) m n c b) else 0.
Proof.
  intros Hb Hm Hn Hj. set (zero := (fun _ _ _ => 0) : coefs).
  assert (EF : forcesToFourier s t p xmpq ns lfreeb vacuum_on d da =
    if sz_lasym s then FF s b0 p xmpq ns lfreeb vacuum_on (dpart true d da) (fun c b => negb (sym_kind c b)) (FF s b0 p xmpq ns lfreeb vacuum_on (dpart false d da) sym_kind zero)
    else FF s b0 p xmpq ns lfreeb vacuum_on d sym_kind zero).
  { unfold forcesToFourier, FF, dpart. destruct (sz_lasym s).
    - destruct (symforce s p d da) as [d1 d2]. destruct (sz_lthreed s); reflexivity.
    - destruct (sz_lthreed s); reflexivity. }
  rewrite EF. clear EF. case_eq (sz_lasym s); intros LA; rewrite LA in Hb.
  - rewrite !(FF_at s OK b0 p xmpq ns lfreeb vacuum_on SH JL JI JM) by lia. change (zero c b _) with 0.
    case_eq (on__ c j m); intros ON; [|rewrite !andb_false_r; lra]. rewrite !andb_true_r.
    assert (JR : (nsMinF p <= j < (if isL c then nsMaxFIncludingLcfs p else nsMaxF p))%Z).
    { unfold on_, rz_on, l_on2 in ON. destruct (isL c).
      - apply andb_true_iff in ON. destruct ON as [A B]. apply Z.leb_le in A. apply Z.ltb_lt in B. lia.
      - apply andb_true_iff in ON. destruct ON as [ON _]. apply andb_true_iff in ON. destruct ON as [A B]. apply Z.leb_le in A. apply Z.ltb_lt in B.
        assert (jMax <= nsMaxF p)%Z by (unfold f_jMaxRZ; destruct (lfreeb && vacuum_on); lia). lia. }
    destruct (sym_kind c b) eqn:SK; cbn [negb].
    + assert (Hb' : In b (pkinds false c)) by (destruct c, b; try discriminate; cbn; tauto).
      rewrite (fterm_part false d da c b j m n LA Hb' Hm Hn JR). lra.
    + assert (Hb' : In b (pkinds true c)) by (destruct c, b; try discriminate; cbn; tauto).
      rewrite (fterm_part true d da c b j m n LA Hb' Hm Hn JR). lra.
  - rewrite (FF_at s OK b0 p xmpq ns lfreeb vacuum_on SH JL JI JM) by lia. change (zero c b _) with 0.
    assert (SK : sym_kind c b = true) by (destruct c; cbn in Hb; destruct Hb as [<-|[<-|[]]]; reflexivity).
    rewrite SK. cbn [andb]. destruct (on__ c j m); [|lra]. rewrite red_grid by exact LA. lra.
Qed.
End Final.
