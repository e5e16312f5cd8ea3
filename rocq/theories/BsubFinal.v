From Coq Require Import ZArith List Bool Reals Lia Lra.
From Verif Require Import Base BaseLemmas SumLemmas SizesModel DftTables BsubModel BsubSpec BsubProofs.
Open Scope R_scope.

Section B.
Variable s : sizes.
Hypothesis OK : sz_ok s.
Local Notation nZnT := (sz_nZnT s).
Local Notation nTE := (sz_nThetaEff s).
Local Notation nz := (sz_nZeta s).

Lemma kl_in k l : (0 <= k < nz)%Z -> (0 <= l < nTE)%Z -> (0 <= k * nTE + l < nZnT)%Z.
Proof. intros Hk Hl. rewrite (so_nZnT s OK). nia. Qed.

Lemma average_surf a j : average s (row s a j) = surfSum s a j.
Proof. rewrite (surfSum_sum s OK). rewrite (surf_rows s OK (fun kl => a (j * nZnT + kl)%Z)). reflexivity. Qed.
Lemma average_const c : average s (fun _ _ => c) = c.
Proof.
  pose proof (surf_const s OK c) as H. rewrite (surf_rows s OK (fun _ => c)) in H. exact H.
Qed.
Lemma average_ext f g : (forall k l, (0 <= k < nz)%Z -> (0 <= l < nTE)%Z -> f k l = g k l) -> average s f = average s g.
Proof. intros H. apply zsum_ext. intros k Hk. apply zsum_ext. intros l Hl. rewrite H by assumption. reflexivity. Qed.
Lemma average_lin a b f g : average s (fun k l => a * f k l + b * g k l) = a * average s f + b * average s g.
Proof.
  unfold average. rewrite <- !zsum_scale, <- zsum_plus. apply zsum_ext. intros k _.
  rewrite <- !zsum_scale, <- zsum_plus. apply zsum_ext. intros l _. ring.
Qed.

Variable ns : Z.
Variables bsubvF bsubv bvcoH : Z -> R.
Hypothesis Hns : (2 <= ns)%Z.

Lemma output_bsubv : 
  let b := outputBSubV s ns bsubvF bsubv bvcoH in
  (forall j, (0 <= j < ns - 1)%Z -> average s (row s b j) = bvcoH j) /\
  (forall k l, (0 <= k < nz)%Z -> (0 <= l < nTE)%Z -> variation s b (ns - 2) k l = variation s bsubv (ns - 2) k l) /\
  (forall j k l, (0 <= j < ns - 2)%Z -> (0 <= k < nz)%Z -> (0 <= l < nTE)%Z ->
     (variation s b j k l + variation s b (j + 1) k l) / 2 = variation s bsubvF (j + 1) k l).
Proof.
  intros b. split; [|split].
  - intros j Hj. rewrite average_surf. apply (out_avg s OK). exact Hj.
  - intros k l Hk Hl. destruct (out_edge s OK ns bsubvF bsubv bvcoH Hns) as (c & E). fold b in E.
    unfold variation. rewrite (average_ext (row s b (ns - 2)) (fun k l => 1 * row s bsubv (ns - 2) k l + 1 * (fun _ _ => c) k l)).
    + rewrite average_lin, average_const. unfold row at 1 3. rewrite E by (apply kl_in; assumption). ring.
    + intros k' l' Hk' Hl'. unfold row. rewrite E by (apply kl_in; assumption). ring.
  - intros j k l Hj Hk Hl. destruct (out_mean s OK ns bsubvF bsubv bvcoH j Hj) as (c & E). fold b in E.
    assert (A : average s (row s b j) + average s (row s b (j + 1)) = 2 * average s (row s bsubvF (j + 1)) + 2 * c).
    { transitivity (average s (fun k l => 1 * row s b j k l + 1 * row s b (j + 1) k l)); [rewrite average_lin; ring|].
      rewrite (average_ext _ (fun k l => 2 * row s bsubvF (j + 1) k l + 2 * (fun _ _ => c) k l)).
      - rewrite average_lin, average_const. ring.
      - intros k' l' Hk' Hl'. pose proof (E (k' * nTE + l')%Z (kl_in k' l' Hk' Hl')) as E'. unfold row. lra. }
    pose proof (E (k * nTE + l)%Z (kl_in k l Hk Hl)) as E'. unfold variation. unfold row at 1 3 5. lra.
Qed.

Lemma unique b' :
  (forall j, (0 <= j < ns - 1)%Z -> average s (row s b' j) = bvcoH j) ->
  (forall k l, (0 <= k < nz)%Z -> (0 <= l < nTE)%Z -> variation s b' (ns - 2) k l = variation s bsubv (ns - 2) k l) ->
  (forall j k l, (0 <= j < ns - 2)%Z -> (0 <= k < nz)%Z -> (0 <= l < nTE)%Z ->
     (variation s b' j k l + variation s b' (j + 1) k l) / 2 = variation s bsubvF (j + 1) k l) ->
  forall j k l, (0 <= j < ns - 1)%Z -> (0 <= k < nz)%Z -> (0 <= l < nTE)%Z ->
    row s b' j k l = row s (outputBSubV s ns bsubvF bsubv bvcoH) j k l.
Proof.
  intros A1 A2 A3 j k l Hj Hk Hl. destruct output_bsubv as (B1 & B2 & B3). set (b := outputBSubV s ns bsubvF bsubv bvcoH) in *.
  assert (V : forall i, (0 <= i)%Z -> (i <= ns - 2)%Z -> variation s b' (ns - 2 - i) k l = variation s b (ns - 2 - i) k l).
  { intros i Hi. pattern i. revert i Hi. apply natlike_ind.
    - intros _. rewrite Z.sub_0_r, A2, B2 by assumption. reflexivity.
    - intros i Hi IH Hi2. specialize (IH ltac:(lia)). unfold Z.succ in *.
      pose proof (A3 (ns - 2 - (i + 1))%Z k l ltac:(lia) Hk Hl) as X. pose proof (B3 (ns - 2 - (i + 1))%Z k l ltac:(lia) Hk Hl) as Y.
      replace (ns - 2 - (i + 1) + 1)%Z with (ns - 2 - i)%Z in X, Y by lia. lra. }
  specialize (V (ns - 2 - j)%Z ltac:(lia) ltac:(lia)). replace (ns - 2 - (ns - 2 - j))%Z with j in V by lia.
  unfold variation in V. rewrite A1, B1 in V by exact Hj. lra.
Qed.
End B.
