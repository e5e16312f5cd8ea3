(** Property theorem C94: the toroidal covariant field of the output. *)
From Coq Require Import ZArith List Bool Reals Lia Lra.
From Verif Require Import Base BaseLemmas SumLemmas SizesModel DftTables SingSumFinal BsubModel BsubSpec BsubProofs BsubFinal.
Open Scope R_scope.

(** C94: on every half-grid surface the average of the field that goes to the
    output is the poloidal current function of the force balance; its variation
    over the surface is that of the solver at the outermost surface, and further
    inward the mean of two neighbouring surfaces varies as the full-grid field
    between them. These three determine it. *)
Theorem C94_bsubv lasym nfp mpol ntor ntheta nzeta mg ng s ns bsubvF bsubv bvcoH :
  make_sizes lasym nfp mpol ntor ntheta nzeta mg ng = Some s -> (2 <= ns)%Z ->
  let b := outputBSubV s ns bsubvF bsubv bvcoH in
  (forall j, (0 <= j < ns - 1)%Z -> average s (row s b j) = bvcoH j) /\
  (forall k l, (0 <= k < sz_nZeta s)%Z -> (0 <= l < sz_nThetaEff s)%Z ->
     variation s b (ns - 2) k l = variation s bsubv (ns - 2) k l) /\
  (forall j k l, (0 <= j < ns - 2)%Z -> (0 <= k < sz_nZeta s)%Z -> (0 <= l < sz_nThetaEff s)%Z ->
     (variation s b j k l + variation s b (j + 1) k l) / 2 = variation s bsubvF (j + 1) k l).
Proof. intros HS Hns. exact (output_bsubv s (make_sizes_ok _ _ _ _ _ _ _ _ _ HS) ns bsubvF bsubv bvcoH Hns). Qed.
Print Assumptions C94_bsubv.
Theorem C94_unique lasym nfp mpol ntor ntheta nzeta mg ng s ns bsubvF bsubv bvcoH b' :
  make_sizes lasym nfp mpol ntor ntheta nzeta mg ng = Some s -> (2 <= ns)%Z ->
  (forall j, (0 <= j < ns - 1)%Z -> average s (row s b' j) = bvcoH j) ->
  (forall k l, (0 <= k < sz_nZeta s)%Z -> (0 <= l < sz_nThetaEff s)%Z ->
     variation s b' (ns - 2) k l = variation s bsubv (ns - 2) k l) ->
  (forall j k l, (0 <= j < ns - 2)%Z -> (0 <= k < sz_nZeta s)%Z -> (0 <= l < sz_nThetaEff s)%Z ->
     (variation s b' j k l + variation s b' (j + 1) k l) / 2 = variation s bsubvF (j + 1) k l) ->
  forall j k l, (0 <= j < ns - 1)%Z -> (0 <= k < sz_nZeta s)%Z -> (0 <= l < sz_nThetaEff s)%Z ->
    row s b' j k l = row s (outputBSubV s ns bsubvF bsubv bvcoH) j k l.
Proof. intros HS Hns. exact (unique s (make_sizes_ok _ _ _ _ _ _ _ _ _ HS) ns bsubvF bsubv bvcoH Hns b'). Qed.
Print Assumptions C94_unique.
(** The average is one: a constant field is its own average. *)
Theorem C94_average lasym nfp mpol ntor ntheta nzeta mg ng s c :
  make_sizes lasym nfp mpol ntor ntheta nzeta mg ng = Some s -> average s (fun _ _ => c) = c.
Proof. intros HS. exact (average_const s (make_sizes_ok _ _ _ _ _ _ _ _ _ HS) c). Qed.
Print Assumptions C94_average.
Example C94_case : exists s, make_sizes false 5 4 3 0 9 0 0 = Some s /\ (1 < sz_nZeta s)%Z /\ (1 < sz_nThetaEff s)%Z.
Proof. eexists. split; [reflexivity|]. cbn. lia. Qed.
