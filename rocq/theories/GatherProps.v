(** Property theorems C93: the data collected for the output. *)
From Coq Require Import ZArith List Bool Reals Lia Lra.
From Verif Require Import Base BaseLemmas Num PartModel PartProofs ReduceProps SizesModel DftModel DftSpec DftProps
  GatherModel GatherSpec GatherFinal.
Open Scope Z_scope.

(** C93: whatever the number of threads, every surface is collected, from the
    thread that advances it, at the right place, with no read outside the arrays
    of the thread; so two runs whose threads hold shares of the same plasma give
    the same output, bit for bit. *)
Theorem C93_collected (K : num) lthreed lasym ns mpol ntor nZnT nThetaEff nThetaReduced (lamscale : K) T lfreeb r x (P : plasma K) :
  is_partition ns T lfreeb r -> (forall t, 0 <= t < T -> holds lthreed lasym mpol ntor nZnT P (r t) (x t)) ->
  0 <= nZnT -> 0 <= mpol -> 0 <= ntor ->
  collected lthreed lasym ns mpol ntor nZnT nThetaEff nThetaReduced lamscale P
    (gather lthreed lasym ns mpol ntor nZnT nThetaEff nThetaReduced lamscale T r x).
Proof. exact (gather_ok lthreed lasym ns mpol ntor nZnT nThetaEff nThetaReduced lamscale T lfreeb r x P). Qed.
Print Assumptions C93_collected.

(** In runs without stellarator symmetry the toroidal field on full surfaces is
    recovered from the two parts into which the force transform has split it. *)
Theorem C93_restored nfp mpol ntor ntheta nzeta mg ng T th ns lfreeb s p (d da : forces) j k l :
  setting true nfp mpol ntor ntheta nzeta mg ng T th ns lfreeb s p -> supported s ->
  nsMinF p <= j < nsMaxFIncludingLcfs p -> 0 <= k < sz_nZeta s -> 0 <= l < sz_nThetaReduced s ->
  let i := at_pt s (j - nsMinF p) k l in
  (fst (symforce s p d da) F_bl true i + snd (symforce s p d da) F_bl true i = d F_bl true i)%R.
Proof.
  intros HS SU Hj Hk Hl i.
  destruct (C26_forces nfp mpol ntor ntheta nzeta mg ng T th ns lfreeb s p d da F_bl true j k l HS SU) as (E & _); try assumption.
  cbn. discriminate.
Qed.
Print Assumptions C93_restored.

(** Two threads, five surfaces and a plasma whose values tell the surfaces apart. *)
Definition C93_part (t : Z) : rpart :=
  match adjustRadialPartitioning 2 t 5 true with Some r => r | None => mk_rpart 0 0 0 0 0 0 0 0 0 end.
Definition C93_plasma : plasma num_R :=
  mkPlasma num_R (fun _ j => IZR j) (fun _ j i => IZR (3 * j + i)) (fun _ j => IZR (- j)) (fun _ j m n => IZR (j + m + n))
    (fun _ j i => IZR (5 * j + i)) (fun _ j i => IZR (j - i)) (fun j i => IZR (j * i)) (fun j i => 0%R) 2%R.
Definition C93_share (t : Z) : share num_R :=
  let r := C93_part t in
  let F1 := nsMaxF1 r - nsMinF1 r in let F := nsMaxFIncludingLcfs r - nsMinF r in let H := nsMaxH r - nsMinH r in
  @mkShare num_R (fun _ => @mkArr num_R (H * 1) (fun i => IZR (i + nsMinH r)))
    (fun _ => @mkArr num_R (H * 3) (fun i => IZR (3 * nsMinH r + i)))
    (fun _ => @mkArr num_R (F1 * 1) (fun i => IZR (- (i + nsMinF1 r))))
    (fun _ => @mkArr num_R (F1 * (2 * (0 + 1))) (fun i => IZR (nsMinF1 r + i / 2 + i mod 2)))
    (fun _ => @mkArr num_R (F1 * 3) (fun i => IZR (5 * (nsMinF1 r + i / 3) + i mod 3)))
    (fun _ => @mkArr num_R (F * 3) (fun i => IZR (nsMinF r + i / 3 - i mod 3)))
    (@mkArr num_R (F * 3) (fun i => IZR ((nsMinF r + i / 3) * (i mod 3)))) (@mkArr num_R 0 (fun _ => 0%R)) 2%R.
Example C93_case : is_partition 5 2 true C93_part /\
  forall t, 0 <= t < 2 -> holds false false 2 0 3 C93_plasma (C93_part t) (C93_share t).
Proof.
  split.
  { split; [lia|]. split; [lia|]. intros t Ht. assert (t = 0 \/ t = 1) as [-> | ->] by lia; reflexivity. }
  intros t Ht.
  assert (D : forall a b i, 0 <= i < b -> (a * b + i) / b = a) by (intros; rewrite Z.div_add_l, Z.div_small by lia; lia).
  assert (M : forall a b i, 0 <= i < b -> (a * b + i) mod b = i) by (intros; rewrite Z.add_comm, Z.mod_add, Z.mod_small by lia; lia).
  unfold holds, C93_share, rows. cbv zeta. cbn [s_hp s_hf s_fp s_co s_ff s_of s_blmn s_blmn_asym s_currv len at_ p_hp p_hf p_fp p_co p_ff p_of p_blmn p_blmn_asym p_currv C93_plasma].
  repeat match goal with |- _ /\ _ => split end; try reflexivity; intros; try discriminate;
    repeat match goal with |- _ /\ _ => split end; try reflexivity; intros; try (rewrite !D, !M by lia); f_equal; try lia.
  assert (n = 0) by lia. subst n. replace (0 + 1) with 1 by lia.
  replace (((j - nsMinF1 (C93_part t)) * 2 + m) * 1 + 0) with ((j - nsMinF1 (C93_part t)) * 2 + m) by lia. rewrite D, M by lia. lia.
Qed.
