(** The axis guess: Fourier coefficients of the plane positions, and what the search finds. *)
From Coq Require Import ZArith List Bool Reals Lia Lra.
From Verif Require Import Base BaseLemmas SumLemmas TrigSums SizesModel FourierModel FourierSpec FourierProofs DftTables BoundaryModel BoundarySpec BoundaryProofs AxisModel AxisSpec AxisProofs AxisSearch.
Import ListNotations.
Open Scope R_scope.

Section Fou.
  Context (s : sizes) (OK : sz_ok s) (b0 : basis_tables).
  Local Notation t := (tab s b0).
  Local Notation ntor := (sz_ntor s).
  Local Notation nZ := (sz_nZeta s).
  Local Notation N := (IZR nZ).

  Lemma N_pos : 0 < N. Proof using OK. apply IZR_lt. pose proof (so_nZeta s OK). lia. Qed.

  Lemma accumulate_at sg tb u x n : (0 <= n <= ntor)%Z ->
    (forall k, (0 <= k < nZ)%Z -> tb (k * (sz_nnyq2 s + 1) + n)%Z = u k * s2 n) ->
    accumulate s sg tb x n = sg * (2 / N) * zsum 0 nZ (fun k => x k * u k).
  Proof using OK.
    intros Hn Hu. unfold accumulate. pose proof (so_nZeta s OK) as HZ.
    pose proof (for_up_ind (fun j a => a n = sg * (2 / N) * zsum 0 j (fun k => x k * u k))
      (fun k a => for_up 0 (ntor + 1) (fun n a => upd a n (a n + sg * (2 / N * tb (k * (sz_nnyq2 s + 1) + n)%Z * x k / nscale n))) a) 0 nZ (fun _ => 0) ltac:(lia)) as G.
    apply G; clear G.
    - rewrite zsum_empty by lia. ring.
    - intros k a Hk E. rewrite zsum_snoc by lia.
      set (v := fun n => sg * (2 / N * tb (k * (sz_nnyq2 s + 1) + n)%Z * x k / nscale n)).
      pose proof (for_up_ind (fun j a' => a' n = if (n <? j)%Z then a n + v n else a n) (fun n a => upd a n (a n + v n)) 0 (ntor + 1) a ltac:(lia)) as G.
      cbv beta in G. etransitivity; [apply G; clear G|].
      + destruct (Z.ltb_spec n 0); [lia|reflexivity].
      + intros j a' Hj K. unfold upd. destruct (Z.eqb_spec n j) as [<-|].
        * rewrite K. destruct (Z.ltb_spec n n); [lia|]. destruct (Z.ltb_spec n (n + 1)); [reflexivity|lia].
        * rewrite K. destruct (Z.ltb_spec n j), (Z.ltb_spec n (j + 1)); try lia; reflexivity.
      + destruct (Z.ltb_spec n (ntor + 1)); [|lia]. rewrite E. unfold v. rewrite Hu by exact Hk. change (nscale n) with (s2 n).
        pose proof (s2_pos n). pose proof N_pos. field. split; lra.
  Qed.

  Lemma tor_lt : (ntor = 0 \/ ntor < Z.quot nZ 2)%Z -> forall n, (0 <= n <= ntor)%Z -> (n = 0 \/ 2 * n < nZ)%Z.
  Proof using OK.
    intros [E|E] n Hn; [lia|]. right. pose proof (so_nZeta s OK). assert (Q := Z.quot_rem' nZ 2). assert (Rm := Z.rem_bound_pos nZ 2 ltac:(lia) ltac:(lia)). lia.
  Qed.

  Lemma cos_coeff x n : (ntor = 0 \/ ntor < Z.quot nZ 2)%Z -> (0 <= n <= ntor)%Z ->
    fixup s (accumulate s 1 (bt_cosnv t) x) n = (if (n =? 0)%Z then 1 else 2) / N * zsum 0 nZ (fun k => x k * cos (IZR n * ang nZ k)).
  Proof using OK.
    intros HT Hn. unfold fixup.
    assert (E : ((ntor >? 0)%Z && (ntor >=? Z.quot nZ 2)%Z)%bool = false).
    { rewrite Z.gtb_ltb, Z.geb_leb. destruct (Z.ltb_spec 0 ntor), (Z.leb_spec (Z.quot nZ 2) ntor); try reflexivity. lia. }
    rewrite E. unfold upd. destruct (Z.eqb_spec n 0) as [->|NZ0].
    - rewrite (accumulate_at 1 (bt_cosnv t) (fun k => cos (IZR 0 * ang nZ k)) x 0 Hn); [pose proof N_pos; field; lra|].
      intros k Hk. apply t_cosnv; assumption.
    - rewrite (accumulate_at 1 (bt_cosnv t) (fun k => cos (IZR n * ang nZ k)) x n Hn); [ring|].
      intros k Hk. apply t_cosnv; assumption.
  Qed.
  Lemma sin_coeff x n : (0 <= n <= ntor)%Z ->
    accumulate s (-1) (bt_sinnv t) x n = - (2 / N) * zsum 0 nZ (fun k => x k * sin (IZR n * ang nZ k)).
  Proof using OK.
    intros Hn. rewrite (accumulate_at (-1) (bt_sinnv t) (fun k => sin (IZR n * ang nZ k)) x n Hn); [ring|].
    intros k Hk. apply t_sinnv; assumption.
  Qed.

  (** The two halves of the fit. *)
  Definition cpart (c : Z -> R) (ze : R) : R := zsum 0 (ntor + 1) (fun n => c n * cos (IZR n * ze)).
  Definition spart (c : Z -> R) (ze : R) : R := zsum 0 (ntor + 1) (fun n => - c n * sin (IZR n * ze)).

  Hypothesis HT : (ntor = 0 \/ ntor < Z.quot nZ 2)%Z.

  Lemma ab_lt a c : (0 <= a <= ntor)%Z -> (0 <= c <= ntor)%Z -> (a + c < nZ)%Z.
  Proof using OK HT. intros A C. pose proof (so_nZeta s OK). destruct (tor_lt HT a A), (tor_lt HT c C); lia. Qed.

  Lemma proj_cc c m : (0 <= m <= ntor)%Z ->
    zsum 0 nZ (fun k => cpart c (ang nZ k) * cos (IZR m * ang nZ k)) = c m * (if (m =? 0)%Z then N else N / 2).
  Proof using OK HT.
    intros Hm. pose proof (so_nZeta s OK) as HZ. unfold cpart.
    rewrite (zsum_ext _ _ _ (fun k => zsum 0 (ntor + 1) (fun n => c n * (cos (IZR n * ang nZ k) * cos (IZR m * ang nZ k))))).
    2:{ intros k _. rewrite <- zsum_scale_r. apply zsum_ext. intros. ring. }
    rewrite zsum_swap. rewrite (zsum_single _ _ m).
    - rewrite zsum_scale, (orth_cc nZ ltac:(lia) m m) by (try apply ab_lt; lia). rewrite Z.eqb_refl. reflexivity.
    - lia.
    - intros n Hn NM. rewrite zsum_scale, (orth_cc nZ ltac:(lia) n m) by (try apply ab_lt; lia). destruct (Z.eqb_spec n m); [contradiction|ring].
  Qed.
  Lemma proj_ss c m : (0 <= m <= ntor)%Z ->
    zsum 0 nZ (fun k => spart c (ang nZ k) * sin (IZR m * ang nZ k)) = - c m * (if (m =? 0)%Z then 0 else N / 2).
  Proof using OK HT.
    intros Hm. pose proof (so_nZeta s OK) as HZ. unfold spart.
    rewrite (zsum_ext _ _ _ (fun k => zsum 0 (ntor + 1) (fun n => - c n * (sin (IZR n * ang nZ k) * sin (IZR m * ang nZ k))))).
    2:{ intros k _. rewrite <- zsum_scale_r. apply zsum_ext. intros. ring. }
    rewrite zsum_swap. rewrite (zsum_single _ _ m).
    - rewrite zsum_scale, (orth_ss nZ ltac:(lia) m m) by (try apply ab_lt; lia). rewrite Z.eqb_refl. reflexivity.
    - lia.
    - intros n Hn NM. rewrite zsum_scale, (orth_ss nZ ltac:(lia) n m) by (try apply ab_lt; lia). destruct (Z.eqb_spec n m); [contradiction|ring].
  Qed.
  Lemma proj_sc c m : (0 <= m <= ntor)%Z -> zsum 0 nZ (fun k => spart c (ang nZ k) * cos (IZR m * ang nZ k)) = 0.
  Proof using OK HT.
    intros Hm. pose proof (so_nZeta s OK) as HZ. unfold spart.
    rewrite (zsum_ext _ _ _ (fun k => zsum 0 (ntor + 1) (fun n => - c n * (sin (IZR n * ang nZ k) * cos (IZR m * ang nZ k))))).
    2:{ intros k _. rewrite <- zsum_scale_r. apply zsum_ext. intros. ring. }
    rewrite zsum_swap. apply zsum_zero. intros n Hn. rewrite zsum_scale, (orth_sc nZ ltac:(lia) n m) by (try apply ab_lt; lia). ring.
  Qed.
  Lemma proj_cs c m : (0 <= m <= ntor)%Z -> zsum 0 nZ (fun k => cpart c (ang nZ k) * sin (IZR m * ang nZ k)) = 0.
  Proof using OK HT.
    intros Hm. pose proof (so_nZeta s OK) as HZ. unfold cpart.
    rewrite (zsum_ext _ _ _ (fun k => zsum 0 (ntor + 1) (fun n => c n * (cos (IZR n * ang nZ k) * sin (IZR m * ang nZ k))))).
    2:{ intros k _. rewrite <- zsum_scale_r. apply zsum_ext. intros. ring. }
    rewrite zsum_swap. apply zsum_zero. intros n Hn. rewrite zsum_scale, (orth_cs nZ ltac:(lia) n m) by (try apply ab_lt; lia). ring.
  Qed.

  Section Fit.
    Context (x : Z -> R) (a : bool) (p : bool).
    (** [p] chooses the cosine part as present, [a] the sine part *)
    Local Notation c1 := (fixup s (accumulate s 1 (bt_cosnv t) x)).
    Local Notation c2 := (accumulate s (-1) (bt_sinnv t) x).
    Definition fit (c d : Z -> R) (ze : R) : R := (if p then cpart c ze else 0) + (if a then spart d ze else 0).

    Lemma res_cos m : p = true -> (0 <= m <= ntor)%Z -> zsum 0 nZ (fun k => (x k - fit c1 c2 (ang nZ k)) * cos (IZR m * ang nZ k)) = 0.
    Proof using OK HT.
      intros P Hm. unfold fit. rewrite P.
      rewrite (zsum_ext _ _ _ (fun k => x k * cos (IZR m * ang nZ k) - (cpart c1 (ang nZ k) * cos (IZR m * ang nZ k) + (if a then 1 else 0) * (spart c2 (ang nZ k) * cos (IZR m * ang nZ k))))) by (intros; destruct a; ring).
      rewrite zsum_minus, zsum_plus, zsum_scale, proj_cc, proj_sc by exact Hm. rewrite cos_coeff by assumption. pose proof N_pos. destruct (Z.eqb_spec m 0); field; lra.
    Qed.
    Lemma res_sin m : a = true -> (0 <= m <= ntor)%Z -> zsum 0 nZ (fun k => (x k - fit c1 c2 (ang nZ k)) * sin (IZR m * ang nZ k)) = 0.
    Proof using OK HT.
      intros A Hm. unfold fit. rewrite A.
      rewrite (zsum_ext _ _ _ (fun k => x k * sin (IZR m * ang nZ k) - ((if p then 1 else 0) * (cpart c1 (ang nZ k) * sin (IZR m * ang nZ k)) + spart c2 (ang nZ k) * sin (IZR m * ang nZ k)))) by (intros; destruct p; ring).
      rewrite zsum_minus, zsum_plus, zsum_scale, proj_ss, proj_cs by exact Hm. rewrite sin_coeff by assumption. pose proof N_pos.
      destruct (Z.eqb_spec m 0) as [->|]; [|field; lra].
      rewrite (zsum_zero 0 nZ (fun k => x k * sin (IZR 0 * ang nZ k))); [ring|]. intros k _. rewrite Rmult_0_l, sin_0. ring.
    Qed.
    Lemma res_fit c d : zsum 0 nZ (fun k => (x k - fit c1 c2 (ang nZ k)) * fit c d (ang nZ k)) = 0.
    Proof using OK HT.
      set (r := fun k => x k - fit c1 c2 (ang nZ k)).
      assert (RC : p = true -> zsum 0 nZ (fun k => r k * cpart c (ang nZ k)) = 0).
      { intros P. unfold cpart. rewrite (zsum_ext _ _ _ (fun k => zsum 0 (ntor + 1) (fun n => c n * (r k * cos (IZR n * ang nZ k))))).
        2:{ intros k _. rewrite <- zsum_scale. apply zsum_ext. intros. ring. }
        rewrite zsum_swap. apply zsum_zero. intros n Hn. rewrite zsum_scale. unfold r. rewrite res_cos by (try assumption; lia). ring. }
      assert (RS : a = true -> zsum 0 nZ (fun k => r k * spart d (ang nZ k)) = 0).
      { intros P. unfold spart. rewrite (zsum_ext _ _ _ (fun k => zsum 0 (ntor + 1) (fun n => - d n * (r k * sin (IZR n * ang nZ k))))).
        2:{ intros k _. rewrite <- zsum_scale. apply zsum_ext. intros. ring. }
        rewrite zsum_swap. apply zsum_zero. intros n Hn. rewrite zsum_scale. unfold r. rewrite res_sin by (try assumption; lia). ring. }
      rewrite (zsum_ext _ _ _ (fun k => r k * (if p then cpart c (ang nZ k) else 0) + r k * (if a then spart d (ang nZ k) else 0))).
      2:{ intros k _. unfold r. unfold fit at 2. ring. }
      rewrite zsum_plus. destruct p, a; rewrite ?RC, ?RS by reflexivity; rewrite ?(zsum_zero 0 nZ (fun k => r k * 0)) by (intros; ring); ring.
    Qed.
    (** Least squares. *)
    Lemma best_fit c d : zsum 0 nZ (fun k => (x k - fit c1 c2 (ang nZ k)) ^ 2) <= zsum 0 nZ (fun k => (x k - fit c d (ang nZ k)) ^ 2).
    Proof using OK HT.
      set (r := fun k => x k - fit c1 c2 (ang nZ k)). set (g := fun k => fit c1 c2 (ang nZ k) - fit c d (ang nZ k)).
      assert (E : zsum 0 nZ (fun k => (x k - fit c d (ang nZ k)) ^ 2) = zsum 0 nZ (fun k => r k ^ 2) + zsum 0 nZ (fun k => g k ^ 2)).
      { rewrite (zsum_ext _ _ _ (fun k => (r k ^ 2 + g k ^ 2) + 2 * (r k * fit c1 c2 (ang nZ k) - r k * fit c d (ang nZ k)))) by (intros; unfold r, g; ring).
        rewrite zsum_plus, zsum_plus, zsum_scale, zsum_minus. unfold r at 2 3. rewrite !res_fit. ring. }
      rewrite E. change (fun k => (x k - fit c1 c2 (ang nZ k)) ^ 2) with (fun k => r k ^ 2).
      assert (0 <= zsum 0 nZ (fun k => g k ^ 2)); [|lra].
      unfold zsum. generalize (zrange 0 nZ) as L. induction L as [|k L IH]; [cbn; lra|]. cbn [rsum]. pose proof (pow2_ge_0 (g k)). lra.
    Qed.
    Lemma exact_fit c d : (forall k, (0 <= k < nZ)%Z -> x k = fit c d (ang nZ k)) -> forall k, (0 <= k < nZ)%Z -> fit c1 c2 (ang nZ k) = x k.
    Proof using OK HT.
      intros E k Hk. pose proof (best_fit c d) as B.
      rewrite (zsum_zero 0 nZ (fun k => (x k - fit c d (ang nZ k)) ^ 2)) in B by (intros j Hj; rewrite (E j Hj); ring).
      assert (Q : (x k - fit c1 c2 (ang nZ k)) ^ 2 <= 0).
      { eapply Rle_trans; [|exact B]. clear B. unfold zsum. assert (I : In k (zrange 0 nZ)) by (apply zrange_In; lia). revert I.
        set (h := fun k => (x k - fit c1 c2 (ang nZ k)) ^ 2). change ((x k - fit c1 c2 (ang nZ k)) ^ 2) with (h k).
        assert (P : forall k, 0 <= h k) by (intros; apply pow2_ge_0).
        assert (PL : forall L, 0 <= rsum L h) by (induction L as [|j L IH]; [cbn; lra|]; cbn [rsum]; pose proof (P j); lra).
        generalize (zrange 0 nZ) as L. induction L as [|j L IH]; [intros []|]. cbn [rsum]. intros [->|I].
        - pose proof (PL L). lra.
        - pose proof (IH I). pose proof (P j). lra. }
      pose proof (pow2_ge_0 (x k - fit c1 c2 (ang nZ k))). assert (Z0 : (x k - fit c1 c2 (ang nZ k)) ^ 2 = 0) by lra.
      cbn [pow] in Z0. rewrite Rmult_1_r in Z0.
      apply Rmult_integral in Z0. assert (x k - fit c1 c2 (ang nZ k) = 0) by tauto. lra.
    Qed.
  End Fit.
End Fou.
