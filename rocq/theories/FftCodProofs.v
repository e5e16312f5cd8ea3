(** A routine that passes the check computes the transform. *)
From Coq Require Import ZArith List Bool Reals Lia Lra.
From Verif Require Import Base BaseLemmas SumLemmas FluxProofs FftSpec FftLang FftBall FftSim FftCodSpec FftCheck.
Import ListNotations.
Open Scope Z_scope.

(** Trigonometric tables at products of indices. *)
Lemma turn_mod N j k : 0 < N -> 0 <= j -> 0 <= k ->
  cos (turn N j k) = cos (angle N ((j * k) mod N)) /\ sin (turn N j k) = sin (angle N ((j * k) mod N)).
Proof.
  intros HN Hj Hk. pose proof (Z.div_mod (j * k) N ltac:(lia)) as D. assert (Q : 0 <= j * k / N) by (apply Z.div_pos; nia).
  assert (NZ : IZR N <> 0%R) by (apply not_0_IZR; lia).
  assert (A : (turn N j k = angle N ((j * k) mod N) + 2 * INR (Z.to_nat (j * k / N)) * PI)%R).
  { unfold turn, angle. rewrite INR_IZR_INZ, Z2Nat.id by exact Q.
    assert (HR : (IZR j * IZR k = IZR N * IZR (j * k / N) + IZR ((j * k) mod N))%R) by (rewrite <- !mult_IZR, <- plus_IZR; f_equal; exact D).
    replace (2 * PI * IZR j * IZR k / IZR N)%R with (2 * PI * (IZR j * IZR k) / IZR N)%R by (unfold Rdiv; ring).
    rewrite HR. field. exact NZ. }
  rewrite A, cos_period, sin_period. split; reflexivity.
Qed.
Section Trig.
Variable N : Z.
Hypothesis HN : 8 <= N.
Lemma bturn_ok j k : 0 <= j -> 0 <= k -> inb (bturn N (trig_table N) j k fst) (cos (turn N j k)) /\ inb (bturn N (trig_table N) j k snd) (sin (turn N j k)).
Proof.
  intros Hj Hk. destruct (turn_mod N j k ltac:(lia) Hj Hk) as [-> ->]. unfold bturn. apply trig_ok; [exact HN|apply Z.mod_pos_bound; lia].
Qed.
Lemma blit_int z : inb (blit z 1) (IZR z).
Proof. replace (IZR z) with (IZR z / IZR 1)%R by field. apply inb_lit. lia. Qed.
Lemma bcoef_ok inv w b : 0 <= w -> 0 <= b -> inb (bcoef inv N (trig_table N) w b) (rcoef inv N w b).
Proof.
  intros Hw Hb. unfold bcoef, rcoef. assert (B2 : 0 <= b / 2) by (apply Z.div_pos; lia). assert (W2 : 0 <= w / 2) by (apply Z.div_pos; lia).
  destruct inv; cbv zeta.
  - destruct (bturn_ok (b / 2) w B2 Hw) as [C S]. destruct (b mod 2 =? 0), (alone N (b / 2)).
    + exact C.
    + apply inb_mul; [apply (blit_int 2)|exact C].
    + apply inb_exact. ring.
    + apply inb_mul; [apply (blit_int (-2))|exact S].
  - destruct (bturn_ok (w / 2) b W2 Hb) as [C S].
    assert (SC : inb (if w / 2 =? 0 then blit 1 1 else bsqrt2) (if w / 2 =? 0 then 1%R else sqrt 2)) by (destruct (w / 2 =? 0); [exact inb_one|exact inb_sqrt2]).
    destruct (w mod 2 =? 0); [apply inb_mul; assumption|apply inb_neg, inb_mul; assumption].
Qed.
End Trig.

(** Sums over pairs. *)
Lemma zsum_pairs n (f : Z -> R) : 0 <= n -> zsum 0 (2 * n) f = zsum 0 n (fun j => (f (2 * j)%Z + f (2 * j + 1)%Z)%R).
Proof.
  intros Hn. revert n Hn. apply natlike_ind; [reflexivity|]. intros n Hn IH.
  replace (2 * Z.succ n) with (2 * n + 1 + 1) by lia. unfold Z.succ. rewrite !zsum_snoc by lia. rewrite IH. ring.
Qed.
Lemma dot_zsum (c x : Z -> R) n : 0 <= n -> dot (map c (zrange 0 n)) (map x (zrange 0 n)) = zsum 0 n (fun b => (c b * x b)%R).
Proof.
  intros Hn.
  assert (K : forall m lo, dot (map c (zseq lo m)) (map x (zseq lo m)) = zsum lo (lo + Z.of_nat m) (fun b => (c b * x b)%R)).
  { induction m as [|m IH]; intros lo.
    - rewrite zsum_empty by lia. reflexivity.
    - cbn [zseq map dot]. rewrite IH. rewrite (zsum_cons lo) by lia. f_equal. f_equal. lia. }
  unfold zrange. rewrite K. f_equal. lia.
Qed.
Lemma sumabs_zsum (x : Z -> R) n : 0 <= n -> fold_right (fun r s => (Rabs r + s)%R) 0%R (map x (zrange 0 n)) = zsum 0 n (fun b => Rabs (x b)).
Proof.
  intros Hn.
  assert (K : forall m lo, fold_right (fun r s => (Rabs r + s)%R) 0%R (map x (zseq lo m)) = zsum lo (lo + Z.of_nat m) (fun b => Rabs (x b))).
  { induction m as [|m IH]; intros lo.
    - rewrite zsum_empty by lia. reflexivity.
    - cbn [zseq map fold_right]. rewrite IH. rewrite (zsum_cons lo) by lia. f_equal. f_equal. lia. }
  unfold zrange. rewrite K. f_equal. lia.
Qed.
Lemma exact_coefs inv N x w : 8 <= N -> N mod 2 = 0 -> 0 <= w -> exact_out inv N x w = zsum 0 (read_len inv N) (fun b => (rcoef inv N w b * x b)%R).
Proof.
  intros HN H2 Hw. unfold exact_out, read_len, rcoef. destruct inv.
  - unfold signal, spec_len. rewrite zsum_pairs by (unfold half_len; pose proof (Z.div_pos N 2); lia).
    apply zsum_ext. intros j Hj. cbv zeta.
    replace (2 * j / 2) with j by (rewrite Z.mul_comm, Z.div_mul by lia; reflexivity).
    replace ((2 * j + 1) / 2) with j by (rewrite Z.mul_comm, Z.div_add_l by lia; change (1 / 2) with 0; lia).
    replace ((2 * j) mod 2) with 0 by (rewrite Z.mul_comm, Z.mod_mul by lia; reflexivity).
    replace ((2 * j + 1) mod 2) with 1 by (rewrite Z.add_comm, Z.mul_comm, Z.mod_add by lia; reflexivity).
    change (0 =? 0) with true. change (1 =? 0) with false. cbv iota. destruct (alone N j); ring.
  - cbv zeta. destruct (w mod 2 =? 0).
    + rewrite <- zsum_scale. apply zsum_ext. intros b Hb. ring.
    + rewrite <- zsum_scale. replace (- zsum 0 N (fun k => ((if (w / 2 =? 0)%Z then 1 else sqrt 2) * (x k * sin (turn N (w / 2) k)))%R))%R
        with (-1 * zsum 0 N (fun k => ((if (w / 2 =? 0)%Z then 1 else sqrt 2) * (x k * sin (turn N (w / 2) k)))%R))%R by ring.
      rewrite <- zsum_scale. apply zsum_ext. intros b Hb. ring.
Qed.

(** A form near the exact coefficients. *)
Lemma near_ok tol l : forall ex c e x, near tol l ex = true -> Forall2 inb l c -> Forall2 inb ex e -> length ex = length x ->
  (Rabs (dot c x - dot e x) <= IZR tol / IZR unit_ * fold_right (fun r s => (Rabs r + s)%R) 0%R x)%R.
Proof.
  pose proof unit_pos as U.
  assert (ST : forall d y, (Rabs d * IZR unit_ <= IZR tol)%R -> (Rabs (d * y) <= IZR tol / IZR unit_ * Rabs y)%R).
  { intros d y H. rewrite Rabs_mult. apply Rmult_le_compat_r; [apply Rabs_pos|]. apply Rmult_le_reg_r with (IZR unit_); [exact U|].
    replace (IZR tol / IZR unit_ * IZR unit_)%R with (IZR tol) by (field; lra). exact H. }
  induction l as [|b l IH]; intros ex.
  - induction ex as [|e0 ex IHx]; intros c e x HN Hc He Hl; inversion Hc; inversion He; subst; destruct x as [|x0 x]; try discriminate.
    + cbn. rewrite Rminus_0_r, Rabs_R0. lra.
    + cbn [near] in HN. apply andb_true_iff in HN. destruct HN as [G1 G2]. apply Z.leb_le in G1. cbn [dot fold_right].
      replace (0 - (y * x0 + dot l' x))%R with ((- y) * x0 + (0 - dot l' x))%R by ring.
      eapply Rle_trans; [apply Rabs_triang|]. rewrite Rmult_plus_distr_l. apply Rplus_le_compat.
      * apply ST. rewrite Rabs_Ropp. unfold inb in *. apply IZR_le in G1. rewrite plus_IZR, abs_IZR in G1.
        rewrite <- (Rabs_pos_eq (IZR unit_)) at 1 by lra. rewrite <- Rabs_mult.
        replace (y * IZR unit_)%R with ((y * IZR unit_ - IZR (fst e0)) + IZR (fst e0))%R by ring.
        eapply Rle_trans; [apply Rabs_triang|]. lra.
      * apply (IHx [] l' x G2 (Forall2_nil _)); [assumption|cbn in Hl; lia].
  - destruct ex as [|e0 ex]; intros c e x HN Hc He Hl; [discriminate|]. inversion Hc; inversion He; subst. destruct x as [|x0 x]; [discriminate|].
    cbn [near] in HN. apply andb_true_iff in HN. destruct HN as [G1 G2]. apply Z.leb_le in G1. cbn [dot fold_right].
    replace (y * x0 + dot l' x - (y0 * x0 + dot l'0 x))%R with ((y - y0) * x0 + (dot l' x - dot l'0 x))%R by ring.
    eapply Rle_trans; [apply Rabs_triang|]. rewrite Rmult_plus_distr_l. apply Rplus_le_compat.
    + apply ST. unfold inb in *. apply IZR_le in G1. rewrite !plus_IZR, abs_IZR, minus_IZR in G1.
      rewrite <- (Rabs_pos_eq (IZR unit_)) at 1 by lra. rewrite <- Rabs_mult.
      replace ((y - y0) * IZR unit_)%R with ((y * IZR unit_ - IZR (fst b)) + ((IZR (fst b) - IZR (fst e0)) + - (y0 * IZR unit_ - IZR (fst e0))))%R by ring.
      eapply Rle_trans; [apply Rabs_triang|]. eapply Rle_trans; [apply Rplus_le_compat_l, Rabs_triang|]. rewrite (Rabs_Ropp (y0 * _ - _)). lra.
    + apply (IH ex); try assumption. cbn in Hl. lia.
Qed.

Lemma mem_Z_In a l : mem_Z a l = true <-> In a l.
Proof.
  unfold mem_Z. rewrite existsb_exists. split; [intros (b & I & E); apply Z.eqb_eq in E; subst; exact I|intros I; exists a; split; [exact I|apply Z.eqb_refl]].
Qed.

Lemma rl_pos inv N : 8 <= N -> 0 < read_len inv N.
Proof. intros H. unfold read_len, spec_len, half_len. pose proof (Z.div_pos N 2). destruct inv; lia. Qed.
Lemma wl_pos inv N : 8 <= N -> 0 < write_len inv N.
Proof. intros H. unfold write_len, spec_len, half_len. pose proof (Z.div_pos N 2). destruct inv; lia. Qed.

Section Sound.
Variable tol : Z.
Variable inv : bool.
Variable cd : codelet.
Local Notation N := (cd_n cd).
Local Notation sX := (read_len inv N).
Local Notation sY := (write_len inv N).
Variables s0 s1 : ast.
Hypothesis HN : 8 <= N.
Hypothesis H2 : N mod 2 = 0.
Hypothesis EI : init_a cd = Some s0.
Hypothesis EB : body_a inv cd s0 = Some s1.
Hypothesis HG : forall w, 0 <= w < sY -> good_out tol inv N (trig_table N) s1 w = true.

Lemma HT : forall k d, 0 <= k < N ->
  inb (fst (nth (Z.to_nat k) (trig_table N) d)) (cos (angle N k)) /\ inb (snd (nth (Z.to_nat k) (trig_table N) d)) (sin (angle N k)).
Proof. intros k d Hk. apply trig_ok; assumption. Qed.

Lemma empty_sim str t x st : sim str t x st empty_a.
Proof. constructor; intros *; discriminate. Qed.
(** The init function succeeds whatever the state. *)
Lemma init_runs st : exists st1, cd_start cd st = Some st1 /\ forall x a k f, a_mem s0 a k = Some f -> exists r, c_mem st1 a k = Some r /\ holds x f r.
Proof.
  assert (HL : forall a k, 0 <= k < lens cd 0 0 a -> 0 <= 0 * 0 + k < lens cd 0 0 a) by (intros; lia).
  destruct (aexec_ok (fun _ => 0) (lens cd 0 0) (fun a => 2 <=? a) N (trig_table N) (lens cd 0 0) 0 [] HL HN HT (cd_init cd) st empty_a s0 (empty_sim _ _ _ _) EI) as (st1 & E & _ & _).
  exists st1. split; [exact E|]. intros x.
  destruct (aexec_ok (fun _ => 0) (lens cd 0 0) (fun a => 2 <=? a) N (trig_table N) (lens cd 0 0) 0 x HL HN HT (cd_init cd) st empty_a s0 (empty_sim _ _ _ _) EI) as (st1' & E' & S' & _).
  rewrite E in E'. inversion E'. subst st1'. intros a k f Hf. destruct (sim_m _ _ _ _ _ S' a k f Hf) as (r & R1 & R2). exists r. split; [exact R1|exact R2].
Qed.
Lemma ready_tables st : ready cd st -> forall x a k f, 2 <= a -> ~ In a (cd_local cd) -> a_mem s0 a k = Some f -> exists r, c_mem st a k = Some r /\ holds x f r.
Proof.
  intros (st0 & st1 & E & EQ) x a k f Ha Hl Hf. destruct (init_runs st0) as (st1' & E' & K). rewrite E in E'. inversion E'. subst st1'.
  rewrite EQ by assumption. apply K. exact Hf.
Qed.

(** One transform. *)
Variable cnt : Z.
Variable X : Z -> R.
Definition slot (t : Z) : list R := map (fun b => X (sX * t + b)) (zrange 0 sX).
Lemma zrange_length lo hi : length (zrange lo hi) = Z.to_nat (hi - lo).
Proof. unfold zrange. generalize (Z.to_nat (hi - lo)). intros n. revert lo. induction n as [|n IH]; intros lo; cbn; [reflexivity|]. rewrite IH. reflexivity. Qed.
Lemma zrange_nth lo hi n d : (n < Z.to_nat (hi - lo))%nat -> nth n (zrange lo hi) d = lo + Z.of_nat n.
Proof.
  unfold zrange. generalize (Z.to_nat (hi - lo)). intros m. revert lo n. induction m as [|m IH]; intros lo n H; [lia|]. cbn [zseq]. destruct n as [|n]; cbn [nth]; [lia|].
  rewrite IH by lia. lia.
Qed.
Lemma slot_nth t k : 0 <= k < sX -> nth (Z.to_nat k) (slot t) 0%R = X (sX * t + k).
Proof.
  intros Hk. unfold slot. rewrite (nth_indep _ 0%R (X (sX * t + 0))) by (rewrite map_length, zrange_length; lia).
  rewrite (map_nth (fun b => X (sX * t + b)) (zrange 0 sX) 0). f_equal. f_equal. rewrite zrange_nth by lia. lia.
Qed.
Lemma body_ok t st : 0 <= t < cnt -> ready cd st -> input_is X (cnt * sX) st ->
  exists st', exec (lens cd (cnt * sX) (cnt * sY)) (cd_body cd) (set_iv st 0 (Some t)) = Some st' /\ ready cd st' /\ input_is X (cnt * sX) st' /\
    (forall w, 0 <= w < sY -> exists y, c_mem st' 1 (sY * t + w) = Some y /\
       (Rabs (y - exact_out inv N (fun b => X (sX * t + b)%Z) w) <= IZR tol / IZR unit_ * zsum 0 sX (fun b => Rabs (X (sX * t + b)%Z)))%R) /\
    (forall k, ~ (sY * t <= k < sY * t + sY) -> c_mem st' 1 k = c_mem st 1 k) /\ (forall k, c_mem st' 0 k = c_mem st 0 k).
Proof.
  intros Ht HR HX. pose proof (rl_pos inv N HN) as PX. pose proof (wl_pos inv N HN) as PY.
  assert (HL : forall a k, 0 <= k < lens cd sX sY a -> 0 <= b_str inv N a * t + k < lens cd (cnt * sX) (cnt * sY) a).
  { intros a k. unfold lens, b_str. destruct (a =? 0); [nia|]. destruct (a =? 1); [nia|]. lia. }
  assert (S : sim (b_str inv N) t (slot t) (set_iv st 0 (Some t)) (body_start inv cd s0)).
  { constructor; cbn [body_start a_iv a_dv a_mem set_iv c_iv c_dv c_mem].
    - intros v p. rewrite !upd_cases. destruct (v =? 0); [|discriminate]. intros E. inversion E. cbn [fst snd]. f_equal. lia.
    - intros; discriminate.
    - intros a k f. destruct (Z.eqb_spec a 0) as [->|N0].
      + destruct (inside sX k) eqn:I; [|discriminate]. apply inside_spec in I. intros E. inversion E.
        exists (X (sX * t + k)). change (b_str inv N 0) with sX. split; [apply HX; nia|]. rewrite <- slot_nth by exact I.
        apply holds_unit. unfold slot. rewrite map_length, zrange_length. lia.
      + destruct ((2 <=? a) && negb (mem_Z a (cd_local cd))) eqn:B; [|discriminate].
        rewrite andb_true_iff, Z.leb_le, negb_true_iff in B. destruct B as [B1 B2].
        intros E. replace (b_str inv N a * t + k) with k.
        * apply (ready_tables st HR); [exact B1| |exact E]. intros I. apply mem_Z_In in I. congruence.
        * unfold b_str. destruct (Z.eqb_spec a 0); [lia|]. destruct (Z.eqb_spec a 1); lia. }
  destruct (aexec_ok _ _ (b_wr cd) N (trig_table N) _ t (slot t) HL HN HT (cd_body cd) _ _ s1 S EB) as (st' & E & S' & F).
  assert (F0 : forall k, c_mem st' 0 k = c_mem st 0 k).
  { intros k. etransitivity; [apply F; intros [W _]; discriminate W|reflexivity]. }
  exists st'. split; [exact E|]. split; [|split; [|split; [|split]]].
  - destruct HR as (q0 & q1 & E1 & EQ). exists q0, q1. split; [exact E1|]. intros a Ha Hl k. rewrite <- EQ by assumption.
    etransitivity; [apply F|reflexivity]. intros [W _]. unfold b_wr in W. apply orb_true_iff in W. destruct W as [W|W]; [apply Z.eqb_eq in W; lia|].
    apply andb_true_iff in W. destruct W as [_ W]. apply mem_Z_In in W. contradiction.
  - intros k Hk. rewrite F0. apply HX. exact Hk.
  - intros w Hw. specialize (HG w Hw). unfold good_out in HG. destruct (a_mem s1 1 w) as [f|] eqn:EF; [|discriminate].
    apply andb_true_iff in HG. destruct HG as [BZ NR]. destruct (sim_m _ _ _ _ _ S' 1 w f EF) as (y & Y1 & (c & l & C & L & ->)).
    exists (c + dot l (slot t))%R. split; [exact Y1|]. rewrite (inb_zero _ _ BZ C), Rplus_0_l.
    assert (HE : Forall2 inb (map (bcoef inv N (trig_table N) w) (zrange 0 sX)) (map (rcoef inv N w) (zrange 0 sX))).
    { assert (P : forall b, In b (zrange 0 sX) -> 0 <= b) by (intros b I; apply zrange_In in I; lia).
      revert P. generalize (zrange 0 sX). induction l0 as [|b l0 IH]; intros P; constructor.
      - apply bcoef_ok; [exact HN|lia|]. apply P. left. reflexivity.
      - apply IH. intros b' I. apply P. right. exact I. }
    pose proof (near_ok _ _ _ _ _ (slot t) NR L HE ltac:(unfold slot; rewrite !map_length; reflexivity)) as G.
    unfold slot in G at 2 3. rewrite dot_zsum, sumabs_zsum in G by lia. rewrite exact_coefs by (lia || assumption). exact G.
  - intros k Hk. etransitivity; [apply F|reflexivity]. intros [_ W]. change (b_str inv N 1) with sY in W. change (lens cd sX sY 1) with sY in W. lia.
  - exact F0.
Qed.

(** All transforms of a call. *)
Lemma loop_ok : forall n k st, Z.of_nat n + k = cnt -> 0 <= k -> ready cd st -> input_is X (cnt * sX) st ->
  exists st', repeat_opt n k (fun k st => exec (lens cd (cnt * sX) (cnt * sY)) (cd_body cd) (set_iv st 0 (Some k))) st = Some st' /\
    ready cd st' /\ input_is X (cnt * sX) st' /\
    (forall i w, k <= i < cnt -> 0 <= w < sY -> exists y, c_mem st' 1 (sY * i + w) = Some y /\
       (Rabs (y - exact_out inv N (fun b => X (sX * i + b)%Z) w) <= IZR tol / IZR unit_ * zsum 0 sX (fun b => Rabs (X (sX * i + b)%Z)))%R) /\
    (forall j, ~ (sY * k <= j < sY * cnt) -> c_mem st' 1 j = c_mem st 1 j) /\ (forall j, c_mem st' 0 j = c_mem st 0 j).
Proof.
  pose proof (wl_pos inv N HN) as PY.
  induction n as [|n IH]; intros k st Hn Hk HR HX; cbn [repeat_opt].
  - exists st. split; [reflexivity|]. split; [exact HR|]. split; [exact HX|]. split; [intros; lia|]. split; reflexivity.
  - destruct (body_ok k st ltac:(lia) HR HX) as (st1 & -> & R1 & X1 & O1 & F1 & G1). cbn [bind].
    destruct (IH (k + 1) st1 ltac:(lia) ltac:(lia) R1 X1) as (st' & E & R' & X' & O' & F' & G').
    exists st'. split; [exact E|]. split; [exact R'|]. split; [exact X'|]. split; [|split].
    + intros i w Hi Hw. destruct (Z.eq_dec i k) as [->|NE]; [|apply O'; lia].
      destruct (O1 w Hw) as (y & Y1 & Y2). exists y. split; [|exact Y2]. rewrite F' by nia. exact Y1.
    + intros j Hj. rewrite F' by nia. apply F1. nia.
    + intros j. rewrite G'. apply G1.
Qed.
End Sound.

Theorem check_sound tol inv cd : check tol inv cd = true ->
  (forall st, exists st1, cd_start cd st = Some st1) /\
  (forall cnt X st, 0 <= cnt -> ready cd st -> input_is X (cnt * read_len inv (cd_n cd)) st ->
    exists st' Y, cd_run cd cnt (cnt * read_len inv (cd_n cd)) (cnt * write_len inv (cd_n cd)) st = Some st' /\
      (forall k, 0 <= k < cnt * write_len inv (cd_n cd) -> c_mem st' 1 k = Some (Y k)) /\
      transforms (IZR tol / IZR unit_) inv (cd_n cd) cnt X Y /\
      (forall k, ~ (0 <= k < cnt * write_len inv (cd_n cd)) -> c_mem st' 1 k = c_mem st 1 k) /\
      (forall k, c_mem st' 0 k = c_mem st 0 k) /\ ready cd st').
Proof.
  intros C. unfold check in C. rewrite !andb_true_iff, Z.leb_le, Z.eqb_eq in C. destruct C as [[HN H2] C].
  destruct (init_a cd) as [s0|] eqn:EI; [|discriminate]. destruct (body_a inv cd s0) as [s1|] eqn:EB; [|discriminate]. cbv zeta in C.
  assert (HG : forall w, 0 <= w < write_len inv (cd_n cd) -> good_out tol inv (cd_n cd) (trig_table (cd_n cd)) s1 w = true).
  { intros w Hw. rewrite forallb_forall in C. apply C. apply zrange_In. exact Hw. }
  pose proof (rl_pos inv _ HN) as PX. pose proof (wl_pos inv _ HN) as PY.
  split; [intros st; destruct (init_runs cd s0 HN EI st) as (st1 & E & _); exists st1; exact E|].
  intros cnt X st Hc HR HX.
  destruct (loop_ok tol inv cd s0 s1 HN H2 EI EB HG cnt X (Z.to_nat (cnt - 1 + 1)) 0 st ltac:(lia) ltac:(lia) HR HX) as (st' & E & R' & X' & O & F & G).
  exists st', (fun k => match c_mem st' 1 k with Some y => y | None => 0%R end). split; [exact E|]. split; [|split; [|split; [|split]]].
  - intros k Hk. assert (D : k = write_len inv (cd_n cd) * (k / write_len inv (cd_n cd)) + k mod write_len inv (cd_n cd)) by (apply Z.div_mod; lia).
    assert (Q : 0 <= k / write_len inv (cd_n cd) < cnt) by (split; [apply Z.div_pos; lia|apply Z.div_lt_upper_bound; lia]).
    destruct (O _ _ Q (Z.mod_pos_bound k _ PY)) as (y & Y1 & _). rewrite <- D in Y1. rewrite Y1. reflexivity.
  - intros i w Hi Hw. destruct (O i w Hi Hw) as (y & -> & Y2). exact Y2.
  - intros k Hk. apply F. lia.
  - exact G.
  - exact R'.
Qed.
