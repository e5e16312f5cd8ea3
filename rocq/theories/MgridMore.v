(** Linearity, bounds, continuity; what loading does to the provider. *)
From Coq Require Import ZArith Reals List Bool Lia Lra Psatz.
From Verif Require Import Base BaseLemmas GridLemmas Num MgridModel MgridSpec MgridProofs.
Import ListNotations.
Open Scope Z_scope.

Section Any.
  Context {K : num}.

  (** Two grids that agree on the sizes and on plane [k]. *)
  Definition same_plane (k : Z) (g g' : mgrid K) : Prop :=
    numR g = numR g' /\ minR g = minR g' /\ maxR g = maxR g' /\ deltaR g = deltaR g' /\
    numZ g = numZ g' /\ minZ g = minZ g' /\ maxZ g = maxZ g' /\ deltaZ g = deltaZ g' /\
    numPhi g = numPhi g' /\ len g = len g' /\
    (forall j i, 0 <= j < numZ g -> 0 <= i < numR g ->
       let l := at_ (numZ g) (numR g) k j i in bR g l = bR g' l /\ bP g l = bP g' l /\ bZ g l = bZ g' l).

  Lemma point_plane (g g' : mgrid K) k rL zL ir jz :
    floor_int (ndiv (nsub (crop (minR g) (maxR g) rL) (minR g)) (deltaR g)) = Some ir ->
    floor_int (ndiv (nsub (crop (minZ g) (maxZ g) zL) (minZ g)) (deltaZ g)) = Some jz ->
    0 <= ir < numR g -> 0 <= jz < numZ g -> 0 <= k < numPhi g -> len g = numPhi g * numZ g * numR g ->
    same_plane k g g' -> interpolate_point g' k rL zL = interpolate_point g k rL zL.
  Proof.
    intros E1 E2 Hi Hj Hk Hl (A1 & A2 & A3 & A4 & A5 & A6 & A7 & A8 & A9 & A10 & Hb).
    rewrite (point_some g k rL zL ir jz E1 E2 Hi Hj Hk Hl).
    rewrite (point_some g' k rL zL ir jz).
    - f_equal. unfold combine_. rewrite <- A1, <- A2, <- A3, <- A4, <- A5, <- A6, <- A7, <- A8.
      destruct (Hb jz ir Hj Hi) as (R1 & P1 & Z1).
      destruct (Hb (Z.min (numZ g - 1) (jz + 1)) ir ltac:(lia) Hi) as (R2 & P2 & Z2).
      destruct (Hb jz (Z.min (numR g - 1) (ir + 1)) Hj ltac:(lia)) as (R3 & P3 & Z3).
      destruct (Hb (Z.min (numZ g - 1) (jz + 1)) (Z.min (numR g - 1) (ir + 1)) ltac:(lia) ltac:(lia)) as (R4 & P4 & Z4).
      rewrite R1, R2, R3, R4, P1, P2, P3, P4, Z1, Z2, Z3, Z4. reflexivity.
    - rewrite <- A2, <- A3, <- A4. exact E1.
    - rewrite <- A6, <- A7, <- A8. exact E2.
    - lia.
    - lia.
    - lia.
    - rewrite <- A10, <- A9, <- A5, <- A1. exact Hl.
  Qed.

  (** LoadFields and LoadFile do not depend on what was loaded before. *)
  Lemma point_ext (g g' : mgrid K) k r z :
    numR g = numR g' -> minR g = minR g' -> maxR g = maxR g' -> deltaR g = deltaR g' ->
    numZ g = numZ g' -> minZ g = minZ g' -> maxZ g = maxZ g' -> deltaZ g = deltaZ g' ->
    len g = len g' -> (forall l, 0 <= l < len g -> bR g l = bR g' l /\ bP g l = bP g' l /\ bZ g l = bZ g' l) ->
    interpolate_point g k r z = interpolate_point g' k r z.
  Proof.
    intros A1 A2 A3 A4 A5 A6 A7 A8 A9 Hb. unfold interpolate_point.
    rewrite <- A1, <- A2, <- A3, <- A4, <- A5, <- A6, <- A7, <- A8, <- A9.
    assert (R : forall l, rd (len g) (bR g) l = rd (len g) (bR g') l /\ rd (len g) (bP g) l = rd (len g) (bP g') l /\ rd (len g) (bZ g) l = rd (len g) (bZ g') l).
    { intros l. unfold rd. destruct ((0 <=? l) && (l <? len g)) eqn:E; [|auto].
      apply andb_prop in E. destruct E as (E1 & E2). apply Z.leb_le in E1. apply Z.ltb_lt in E2.
      destruct (Hb l ltac:(lia)) as (-> & -> & ->). auto. }
    destruct (floor_int _) as [ir|]; [|reflexivity]. cbn [bind].
    destruct (floor_int _) as [jz|]; [|reflexivity]. cbn [bind].
    rewrite !(fun l => proj1 (R l)), !(fun l => proj1 (proj2 (R l))), !(fun l => proj2 (proj2 (R l))). reflexivity.
  Qed.

  Definition sized_by (t : table K) (g : mgrid K) : Prop :=
    numR g = t_numR t /\ minR g = t_minR t /\ maxR g = t_maxR t /\
    numZ g = t_numZ t /\ minZ g = t_minZ t /\ maxZ g = t_maxZ t /\ numPhi g = t_numPhi t /\
    deltaR g = delta (t_minR t) (t_maxR t) (t_numR t) /\ deltaZ g = delta (t_minZ t) (t_maxZ t) (t_numZ t) /\
    len g = t_numPhi t * t_numZ t * t_numR t /\ has_mgrid_loaded g = true /\ has_fixed_field g = false.

  Lemma load_fields (t : table K) ncur I g :
    ncur = t_rows t -> 0 <= ncur -> 0 <= t_numPhi t -> 0 <= t_numZ t -> 0 <= t_numR t ->
    exists g', LoadFields t ncur I g = (true, g') /\ sized_by t g' /\
      (forall l, 0 <= l < t_numPhi t * t_numZ t * t_numR t ->
         bR g' l = superposed ncur (fun i => t_br t i l) I /\
         bP g' l = superposed ncur (fun i => t_bp t i l) I /\
         bZ g' l = superposed ncur (fun i => t_bz t i l) I).
  Proof.
    intros E Hc Hp Hz Hr. unfold LoadFields. rewrite (proj2 (Z.eqb_eq _ _) E). cbn [negb].
    eexists. split; [reflexivity|]. split; [repeat split; reflexivity|].
    intros l Hl. cbn [bR bP bZ]. repeat split; apply accumulate_linear_spec; lia || nia.
  Qed.

  (** A file with the contents of a table. *)
  Definition file_of (t : table K) : mgrid_file K :=
    let c (b : Z -> Z -> K) i := Some (fun p j r => b i (at_ (t_numZ t) (t_numR t) p j r)) in
    mkFile (t_numR t) (t_minR t) (t_maxR t) (t_numZ t) (t_minZ t) (t_maxZ t) (t_numPhi t) (t_rows t)
           (c (t_br t)) (c (t_bp t)) (c (t_bz t)).

  Lemma load_file (t : table K) ncur I g :
    ncur = t_rows t -> 0 <= ncur -> 0 <= t_numPhi t -> 0 <= t_numZ t -> 0 <= t_numR t ->
    exists g', LoadFile (file_of t) ncur I g = (true, g') /\ sized_by t g' /\
      (forall p j i, 0 <= p < t_numPhi t -> 0 <= j < t_numZ t -> 0 <= i < t_numR t ->
         let l := at_ (t_numZ t) (t_numR t) p j i in
         bR g' l = superposed ncur (fun c => t_br t c l) I /\
         bP g' l = superposed ncur (fun c => t_bp t c l) I /\
         bZ g' l = superposed ncur (fun c => t_bz t c l) I).
  Proof.
    intros E Hc Hp Hz Hr. unfold LoadFile, file_of. cbn [f_numR f_minR f_maxR f_numZ f_minZ f_maxZ f_numPhi f_nextcur f_br f_bp f_bz].
    rewrite (proj2 (Z.eqb_eq _ _) E). cbn [negb].
    set (loop := for_up 0 (t_rows t) _ _).
    assert (P : exists br bp bz, loop = (true, (br, bp, bz)) /\
      forall p j i, 0 <= p < t_numPhi t -> 0 <= j < t_numZ t -> 0 <= i < t_numR t ->
         let l := at_ (t_numZ t) (t_numR t) p j i in
         br l = superposed (t_rows t) (fun c => t_br t c l) I /\
         bp l = superposed (t_rows t) (fun c => t_bp t c l) I /\
         bz l = superposed (t_rows t) (fun c => t_bz t c l) I).
    { unfold loop.
      apply (for_up_ind (fun m s => exists br bp bz, s = (true, (br, bp, bz)) /\
        forall p j i, 0 <= p < t_numPhi t -> 0 <= j < t_numZ t -> 0 <= i < t_numR t ->
         let l := at_ (t_numZ t) (t_numR t) p j i in
         br l = superposed m (fun c => t_br t c l) I /\
         bp l = superposed m (fun c => t_bp t c l) I /\
         bz l = superposed m (fun c => t_bz t c l) I)); [lia| |].
      - do 3 eexists. split; [reflexivity|]. intros. cbv zeta. repeat split; reflexivity.
      - intros m s Hm (br & bp & bz & -> & A). do 3 eexists. split; [reflexivity|].
        intros p j i H1 H2 H3. cbv zeta. destruct (A p j i H1 H2 H3) as (A1 & A2 & A3). cbv zeta in A1, A2, A3.
        assert (L : at_ (t_numZ t) (t_numR t) p j i = (p * t_numZ t + j) * t_numR t + i) by (unfold at_; ring).
        rewrite L in *.
        rewrite !add_contribution_spec by assumption. rewrite A1, A2, A3, L.
        unfold superposed. rewrite !fold_zrange_snoc by lia. auto. }
    destruct P as (br & bp & bz & -> & B).
    eexists. split; [reflexivity|]. split; [repeat split; try reflexivity; rewrite E; reflexivity|].
    intros p j i H1 H2 H3. cbn [bR bP bZ]. rewrite E. apply B; assumption.
  Qed.
End Any.

(** ** Exact arithmetic. *)
Lemma superposed_linear ncur (f I J : Z -> R) a b : 0 <= ncur ->
  superposed (K := num_R) ncur f (fun i => (a * I i + b * J i)%R)
  = (a * superposed (K := num_R) ncur f I + b * superposed (K := num_R) ncur f J)%R.
Proof.
  unfold superposed. intros H. pattern ncur. revert ncur H. apply natlike_ind.
  - cbn. ring.
  - intros n Hn IH. change (Z.succ n) with (n + 1). rewrite !fold_zrange_snoc by lia. rewrite IH.
    cbn [nadd nmul num_R]. match goal with |- @eq _ ?x ?y => change (@eq R x y) end. ring.
Qed.

Lemma grid_ok_loaded (t : table num_R) (g : mgrid num_R) :
  sized_by t g -> 2 <= t_numR t < 2 ^ 31 -> 2 <= t_numZ t < 2 ^ 31 -> 1 <= t_numPhi t ->
  (t_minR t < t_maxR t)%R -> (t_minZ t < t_maxZ t)%R -> grid_ok g.
Proof.
  intros (A1 & A2 & A3 & A4 & A5 & A6 & A7 & A8 & A9 & A10 & _) HR HZ HP HmR HmZ.
  unfold grid_ok. rewrite A1, A2, A3, A4, A5, A6, A7, A8, A9, A10.
  repeat split; try assumption; try lia; unfold delta; cbn [ndiv nsub nZ num_R]; rewrite minus_IZR; reflexivity.
Qed.

Section Lin.
  Context (g : mgrid num_R).
  Lemma blend_lin k ir jz p q (b b1 b2 : Z -> R) x y :
    (forall j i, 0 <= j < numZ g -> 0 <= i < numR g -> let l := at_ (numZ g) (numR g) k j i in b l = (x * b1 l + y * b2 l)%R) ->
    0 <= ir < numR g -> 0 <= jz < numZ g ->
    blend g k ir jz p q b = (x * blend g k ir jz p q b1 + y * blend g k ir jz p q b2)%R.
  Proof. intros H Hi Hj. unfold blend. rewrite !H by lia. ring. Qed.

  Lemma blend_bound k ir jz p q (b : Z -> R) lo hi :
    (forall j i, 0 <= j < numZ g -> 0 <= i < numR g -> (lo <= b (at_ (numZ g) (numR g) k j i) <= hi)%R) ->
    0 <= ir < numR g -> 0 <= jz < numZ g -> (0 <= p < 1)%R -> (0 <= q < 1)%R ->
    (lo <= blend g k ir jz p q b <= hi)%R.
  Proof.
    intros H Hi Hj Hp Hq. unfold blend. cbv zeta.
    pose proof (H jz ir Hj Hi) as B1.
    pose proof (H (Z.min (numZ g - 1) (jz + 1)) ir ltac:(lia) Hi) as B2.
    pose proof (H jz (Z.min (numR g - 1) (ir + 1)) Hj ltac:(lia)) as B3.
    pose proof (H (Z.min (numZ g - 1) (jz + 1)) (Z.min (numR g - 1) (ir + 1)) ltac:(lia) ltac:(lia)) as B4.
    set (w1 := ((1 - p) * (1 - q))%R). set (w2 := ((1 - p) * q)%R). set (w3 := (p * (1 - q))%R). set (w4 := (p * q)%R).
    assert (W1 : (0 <= w1)%R) by (apply Rmult_le_pos; lra). assert (W2 : (0 <= w2)%R) by (apply Rmult_le_pos; lra).
    assert (W3 : (0 <= w3)%R) by (apply Rmult_le_pos; lra). assert (W4 : (0 <= w4)%R) by (apply Rmult_le_pos; lra).
    assert (W : (w1 + w2 + w3 + w4 = 1)%R) by (unfold w1, w2, w3, w4; ring).
    clearbody w1 w2 w3 w4. nra.
  Qed.
End Lin.

(** ** Piecewise linear interpolation has no jumps. *)
Section OneD.
  Context (n : Z) (f : Z -> R) (L : R).
  Hypothesis Hn : 1 <= n.
  Hypothesis HL : forall i, 0 <= i < n - 1 -> (Rabs (f (i + 1)%Z - f i) <= L)%R.

  Definition pl (i : Z) (p : R) : R := ((1 - p) * f i + p * f (Z.min (n - 1) (i + 1))%Z)%R.

  Lemma L_pos : 2 <= n -> (0 <= L)%R.
  Proof. intros H. pose proof (HL 0 ltac:(lia)). pose proof (Rabs_pos (f (0 + 1)%Z - f 0%Z)). lra. Qed.

  Lemma far i j : 0 <= i -> i <= j -> j < n -> (Rabs (f j - f i) <= L * IZR (j - i)%Z)%R.
  Proof.
    intros Hi Hij Hj. assert (H : 0 <= j - i) by lia. assert (E : j = i + (j - i)) by ring.
    revert H E. generalize (j - i). intros m H ->. clear Hij. revert Hj. pattern m. revert m H. apply natlike_ind.
    - intros _. rewrite Z.add_0_r. unfold Rminus. rewrite Rplus_opp_r, Rabs_R0. lra.
    - intros m Hm IH H2. specialize (IH ltac:(lia)).
      replace (i + Z.succ m) with (i + m + 1) by lia. rewrite succ_IZR.
      replace (f (i + m + 1)%Z - f i)%R with ((f (i + m + 1)%Z - f (i + m)%Z) + (f (i + m)%Z - f i))%R by ring.
      eapply Rle_trans; [apply Rabs_triang|]. pose proof (HL (i + m) ltac:(lia)). lra.
  Qed.

  (** [i + p], [j + q] positions with integer part and remainder. *)
  Lemma pl_lip i p j q : 0 <= i < n -> 0 <= j < n -> (0 <= p < 1)%R -> (0 <= q < 1)%R ->
    (i = n - 1 -> p = 0%R) -> (j = n - 1 -> q = 0%R) -> (IZR i + p <= IZR j + q)%R ->
    (Rabs (pl j q - pl i p) <= L * ((IZR j + q) - (IZR i + p)))%R.
  Proof.
    intros Hi Hj Hp Hq Li Lj Le.
    assert (Hij : i <= j). { apply Z.lt_succ_r. apply lt_IZR. rewrite succ_IZR. lra. }
    destruct (Z.eq_dec i j) as [->|Nij].
    - destruct (Z.eq_dec j (n - 1)) as [E|E].
      + rewrite (Li E), (Lj E). rewrite Rminus_diag_eq, Rabs_R0 by reflexivity. lra.
      + unfold pl. rewrite Z.min_r by lia.
        replace ((1 - q) * f j + q * f (j + 1)%Z - ((1 - p) * f j + p * f (j + 1)%Z))%R with ((q - p) * (f (j + 1)%Z - f j))%R by ring.
        rewrite Rabs_mult, (Rabs_pos_eq (q - p)) by lra. pose proof (HL j ltac:(lia)).
        replace (L * (IZR j + q - (IZR j + p)))%R with ((q - p) * L)%R by ring. apply Rmult_le_compat_l; lra.
    - assert (Hlt : i + 1 <= j) by lia.
      assert (A : (Rabs (f (i + 1)%Z - pl i p) <= L * (1 - p))%R).
      { unfold pl. rewrite Z.min_r by lia.
        replace (f (i + 1)%Z - ((1 - p) * f i + p * f (i + 1)%Z))%R with ((1 - p) * (f (i + 1)%Z - f i))%R by ring.
        rewrite Rabs_mult, (Rabs_pos_eq (1 - p)) by lra. pose proof (HL i ltac:(lia)). rewrite Rmult_comm. apply Rmult_le_compat_r; lra. }
      assert (B : (Rabs (pl j q - f j) <= L * q)%R).
      { destruct (Z.eq_dec j (n - 1)) as [E|E].
        - unfold pl. rewrite (Lj E). replace ((1 - 0) * f j + 0 * f (Z.min (n - 1) (j + 1))%Z - f j)%R with 0%R by ring. rewrite Rabs_R0. lra.
        - unfold pl. rewrite Z.min_r by lia. replace ((1 - q) * f j + q * f (j + 1)%Z - f j)%R with (q * (f (j + 1)%Z - f j))%R by ring.
          rewrite Rabs_mult, (Rabs_pos_eq q) by lra. pose proof (HL j ltac:(lia)). rewrite Rmult_comm. apply Rmult_le_compat_r; lra. }
      pose proof (far (i + 1) j ltac:(lia) Hlt ltac:(lia)) as C.
      replace (pl j q - pl i p)%R with ((pl j q - f j) + ((f j - f (i + 1)%Z) + (f (i + 1)%Z - pl i p)))%R by ring.
      eapply Rle_trans; [apply Rabs_triang|]. pose proof (Rabs_triang (f j - f (i + 1)%Z) (f (i + 1)%Z - pl i p)).
      rewrite minus_IZR, plus_IZR in C. lra.
  Qed.

  Lemma pl_lip_abs i p j q : 0 <= i < n -> 0 <= j < n -> (0 <= p < 1)%R -> (0 <= q < 1)%R ->
    (i = n - 1 -> p = 0%R) -> (j = n - 1 -> q = 0%R) ->
    (Rabs (pl j q - pl i p) <= L * Rabs ((IZR j + q) - (IZR i + p)))%R.
  Proof.
    intros Hi Hj Hp Hq Li Lj. destruct (Rle_dec (IZR i + p) (IZR j + q)) as [H|H].
    - rewrite (Rabs_pos_eq (IZR j + q - (IZR i + p))) by lra. apply pl_lip; assumption.
    - rewrite Rabs_minus_sym, (Rabs_minus_sym (IZR j + q)). rewrite (Rabs_pos_eq (IZR i + p - (IZR j + q))) by lra. apply pl_lip; try assumption. lra.
  Qed.
End OneD.

Section Cont.
  Context (g : mgrid num_R) (Hg : grid_ok g).

  Lemma blend_pl k ir jz p q b :
    blend g k ir jz p q b = pl (numZ g) (fun j => pl (numR g) (fun i => b (at_ (numZ g) (numR g) k j i)) ir p) jz q.
  Proof. unfold blend, pl. ring. Qed.

  Lemma blend_pl' k ir jz p q b :
    blend g k ir jz p q b = pl (numR g) (fun i => pl (numZ g) (fun j => b (at_ (numZ g) (numR g) k j i)) jz q) ir p.
  Proof. unfold blend, pl. ring. Qed.

  (** Neighbouring grid values differ by at most [L]: the interpolated value
      changes by at most [L] per cell. *)
  Lemma blend_lip k ir jz p q ir' jz' p' q' b L :
    (forall j i, 0 <= j < numZ g -> 0 <= i < numR g - 1 -> (Rabs (b (at_ (numZ g) (numR g) k j (i + 1)%Z) - b (at_ (numZ g) (numR g) k j i)) <= L)%R) ->
    (forall j i, 0 <= j < numZ g - 1 -> 0 <= i < numR g -> (Rabs (b (at_ (numZ g) (numR g) k (j + 1)%Z i) - b (at_ (numZ g) (numR g) k j i)) <= L)%R) ->
    0 <= ir < numR g -> 0 <= jz < numZ g -> 0 <= ir' < numR g -> 0 <= jz' < numZ g ->
    (0 <= p < 1)%R -> (0 <= q < 1)%R -> (0 <= p' < 1)%R -> (0 <= q' < 1)%R ->
    (ir = numR g - 1 -> p = 0%R) -> (jz = numZ g - 1 -> q = 0%R) ->
    (ir' = numR g - 1 -> p' = 0%R) -> (jz' = numZ g - 1 -> q' = 0%R) ->
    (Rabs (blend g k ir' jz' p' q' b - blend g k ir jz p q b)
     <= L * (Rabs ((IZR ir' + p') - (IZR ir + p)) + Rabs ((IZR jz' + q') - (IZR jz + q))))%R.
  Proof.
    intros HR HZ I J I' J' P Q P' Q' Li Lj Li' Lj'.
    destruct Hg as (NR & NZ & _).
    assert (mix : forall (s : R) x y z w, (0 <= s < 1)%R -> (Rabs (x - y) <= L)%R -> (Rabs (z - w) <= L)%R ->
      (Rabs (((1 - s) * x + s * z) - ((1 - s) * y + s * w)) <= L)%R).
    { intros s x y z w Hs Hx Hz. replace ((1 - s) * x + s * z - ((1 - s) * y + s * w))%R with ((1 - s) * (x - y) + s * (z - w))%R by ring.
      eapply Rle_trans; [apply Rabs_triang|]. rewrite !Rabs_mult, (Rabs_pos_eq (1 - s)), (Rabs_pos_eq s) by lra. nra. }
    assert (A : (Rabs (blend g k ir' jz' p' q' b - blend g k ir jz' p q' b) <= L * Rabs ((IZR ir' + p') - (IZR ir + p)))%R).
    { rewrite !blend_pl'. apply pl_lip_abs; try assumption; try lia.
      intros i Hi. unfold pl. apply mix; [exact Q'| |]; apply HR; lia. }
    assert (B : (Rabs (blend g k ir jz' p q' b - blend g k ir jz p q b) <= L * Rabs ((IZR jz' + q') - (IZR jz + q)))%R).
    { rewrite !blend_pl. apply pl_lip_abs; try assumption; try lia.
      intros j Hj. unfold pl. apply mix; [exact P| |]; apply HZ; lia. }
    replace (blend g k ir' jz' p' q' b - blend g k ir jz p q b)%R
      with ((blend g k ir' jz' p' q' b - blend g k ir jz' p q' b) + (blend g k ir jz' p q' b - blend g k ir jz p q b))%R by ring.
    eapply Rle_trans; [apply Rabs_triang|]. lra.
  Qed.
End Cont.
