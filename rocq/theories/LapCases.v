From Coq Require Import ZArith List Bool Reals Lia Lra Permutation.
From Verif Require Import Base BaseLemmas SumLemmas PartModel PartSpec PartProofs SizesModel FourierModel FourierSpec TrigSums DftSpec DftTables VacTables
  DftForces SingSumSpec LapModel LapSpec LapEnd.
Import ListNotations.
Open Scope R_scope.

(** Local arrays cut out of a global kernel. *)
Definition cut (lo : Z -> Z) (P : Z) (K : Z -> Z -> R) : Z -> Z -> R := fun t i => K (i mod P)%Z (lo t + i / P)%Z.
Lemma cut_holds lo hi T P K : holds_kernel lo hi T P (cut lo P K) K.
Proof.
  intros t klp kl Ht Hk Hkl. unfold cut. rewrite (Z.add_comm _ kl), Z.mod_add, Z.mod_small by lia.
  rewrite Z.div_add, Z.div_small by lia. f_equal. lia.
Qed.
Lemma zero_modes lo hi T mf nf : holds_modes lo hi T mf nf (fun _ _ => 0) (fun _ _ _ => 0).
Proof. intros t m n klp _ _ _ _. reflexivity. Qed.

Definition point (a b : Z) : Z -> Z -> R := fun kl klp => if ((kl =? a) && (klp =? b))%Z%bool then 1 else 0.
Lemma field_point trig P a b klp m n : (0 <= a < P)%Z ->
  field_mode trig P 1 (fun kl => point a b kl klp) m n = (if (klp =? b)%Z then trig (mode_phase P 1 m n a) else 0) / (IZR P * 1).
Proof.
  intros Ha. unfold field_mode. f_equal. rewrite Z.mul_1_r. rewrite (zsum_single 0 P a); [|lia|].
  - unfold point. rewrite Z.eqb_refl. cbn [andb]. destruct (klp =? b)%Z; ring.
  - intros kl _ Ne. unfold point. destruct (Z.eqb_spec kl a); [contradiction|]. cbn [andb]. ring.
Qed.
Lemma galerkin_point trig trig' P w N a b m n m' n' : (0 <= a < P)%Z -> (0 <= N)%Z ->
  galerkin trig trig' P 1 1 w N (point a b) (fun _ _ _ => 0) m n m' n' =
  if ((0 <=? b) && (b <? N))%Z%bool then w b * (trig (mode_phase P 1 m n a) / IZR P) * trig' (mode_phase P 1 m' n' b) else 0.
Proof.
  intros Ha HN. unfold galerkin, system_kernel. 
  rewrite (zsum_ext _ _ _ (fun klp => if (klp =? b)%Z then w b * (trig (mode_phase P 1 m n a) / IZR P) * trig' (mode_phase P 1 m' n' b) else 0)).
  - destruct (Z.leb_spec 0 b), (Z.ltb_spec b N); cbn [andb].
    + rewrite (zsum_single 0 N b); [rewrite Z.eqb_refl; reflexivity|lia|]. intros k _ Ne. destruct (Z.eqb_spec k b); [contradiction|reflexivity].
    + apply zsum_zero. intros k Hk. destruct (Z.eqb_spec k b); [lia|reflexivity].
    + apply zsum_zero. intros k Hk. destruct (Z.eqb_spec k b); [lia|reflexivity].
    + apply zsum_zero. intros k Hk. destruct (Z.eqb_spec k b); [lia|reflexivity].
  - intros klp Hk. rewrite field_point by assumption. rewrite Z.div_1_r. destruct (Z.eqb_spec klp b) as [->|]; unfold Rdiv; rewrite ?Rmult_1_r; ring.
Qed.
Lemma sin_quarter : sin (mode_phase 8 1 1 0 2) = 1.
Proof.
  unfold mode_phase. change (2 / 1)%Z with 2%Z. change (2 mod 1)%Z with 0%Z.
  replace (1 * (2 * PI * 2 / 8) - 0 * (2 * PI * 0 / 1)) with (PI / 2) by field. apply sin_PI2.
Qed.
Lemma sin_three_quarter : sin (mode_phase 8 1 1 0 6) = -1.
Proof.
  unfold mode_phase. change (6 / 1)%Z with 6%Z. change (6 mod 1)%Z with 0%Z.
  replace (1 * (2 * PI * 6 / 8) - 0 * (2 * PI * 0 / 1)) with (3 * (PI / 2)) by field. apply sin_3PI2.
Qed.

Lemma sizes8 lasym : exists s, make_sizes lasym 1 1 0 0 0 0 0 = Some s /\ sz_nThetaEven s = 8%Z /\ sz_nThetaReduced s = 5%Z /\ sz_nZeta s = 1%Z /\
  sz_nZnT s = (if lasym then 8 else 5)%Z.
Proof. destruct lasym; eexists; (split; [reflexivity|]); repeat split; reflexivity. Qed.

Lemma matrix_case : exists s, make_sizes false 1 1 0 0 0 0 0 = Some s /\
  let lo t := fst (tangential_range (sz_nZnT s) 2 t) in
  let hi t := snd (tangential_range (sz_nZnT s) 2 t) in
  let g := cut lo (sz_nThetaEven s * sz_nZeta s) (point 2 2) in
  holds_kernel lo hi 2 (sz_nThetaEven s * sz_nZeta s) g (point 2 2) /\ holds_modes lo hi 2 1 0 (fun _ _ => 0) (fun _ _ _ => 0) /\
  Permutation [1%Z; 0%Z] (zrange 0 2) /\ lo 1%Z = 3%Z /\
  forall b0 share,
  build_matrix s 1 0 (map (fun t => thread_part s (vtab s b0) 1 0 (lo t) (hi t) (g t) (fun _ => 0) (fun _ => 0) (fun _ => 0)
     ((fun _ => 0), (fun _ => 0)) ((fun _ => 0), (fun _ => 0))) [1%Z; 0%Z]) share (mode_at 1 0 1 0 + mode_at 1 0 1 0 * 2)%Z = 1 / 2 + 1 / 32.
Proof.
  destruct (sizes8 false) as (s & MK & E1 & E2 & E3 & E4). exists s. split; [exact MK|]. cbv zeta.
  split; [apply cut_holds|]. split; [apply zero_modes|]. split; [change (zrange 0 2) with [0%Z; 1%Z]; apply perm_swap|]. split; [rewrite E4; reflexivity|].
  intros b0 share.
  pose proof (symmetric_matrix false 1 1 0 0 0 0 0 s MK b0 1 0 2 ltac:(lia) ltac:(lia) ltac:(lia)
    (cut (fun t => fst (tangential_range (sz_nZnT s) 2 t)) (sz_nThetaEven s * sz_nZeta s) (point 2 2)) (fun _ _ => 0) (fun _ _ => 0) (fun _ _ => 0)
    (fun _ => ((fun _ => 0), (fun _ => 0))) (fun _ => ((fun _ => 0), (fun _ => 0))) (point 2 2) (fun _ _ _ => 0) (fun _ _ _ => 0) [1%Z; 0%Z] share 1 0 1 0 eq_refl
    (cut_holds _ _ _ _ _) (zero_modes _ _ _ _ _) (perm_swap 0%Z 1%Z []) ltac:(lia) ltac:(lia) ltac:(lia) ltac:(lia)) as V.
  change ((1 + 1) * (2 * 0 + 1))%Z with 2%Z in V. cbv beta in V. rewrite V. clear V. change (redundant 1 0) with false. cbn [Z.eqb Pos.eqb andb].
  rewrite E1, E3, E4. rewrite galerkin_point by lia. cbn [Z.leb Z.ltb Z.compare Pos.compare Pos.compare_cont andb].
  rewrite sin_quarter. pose proof (make_sizes_ok _ _ _ _ _ _ _ _ _ MK) as OK. rewrite (so_wInt s OK).
  assert (E5 : sz_nThetaEff s = 5%Z). { pose proof (so_nZnT s OK). rewrite E3, E4 in H. lia. }
  assert (E6 : sz_lasym s = false) by (destruct (SurfFinal.make_sizes_nfp _ _ _ _ _ _ _ _ _ MK) as (Q & _); exact Q).
  rewrite wint_at by lia. rewrite E6, E2, E3. cbn [negb andb orb Z.eqb Pos.eqb Z.sub Z.add Z.opp Z.pos_sub Pos.pred_double]. unfold dnorm3. rewrite mult_IZR. change (5 - 1)%Z with 4%Z. cbn [IZR IPR]. lra.
Qed.

Lemma sine_rows_wrong : exists s, make_sizes true 1 1 0 0 0 0 0 = Some s /\
  let lo t := fst (tangential_range (sz_nZnT s) 1 t) in
  let hi t := snd (tangential_range (sz_nZnT s) 1 t) in
  exists g K, holds_kernel lo hi 1 (sz_nThetaEven s * sz_nZeta s) g K /\ holds_modes lo hi 1 1 0 (fun _ _ => 0) (fun _ _ _ => 0) /\
  forall b0 share,
  build_matrix s 1 0 (map (fun t => thread_part s (vtab s b0) 1 0 (lo t) (hi t) (g t) (fun _ => 0) (fun _ => 0) (fun _ => 0)
     ((fun _ => 0), (fun _ => 0)) ((fun _ => 0), (fun _ => 0))) (zrange 0 1)) share (mode_at 1 0 1 0 + mode_at 1 0 1 0 * 4)%Z <>
  galerkin sin sin (sz_nThetaEven s) (sz_nZeta s) 1 (sz_wInt s) (sz_nZnT s) K (fun _ _ _ => 0) 1 0 1 0 + 1 / 2.
Proof.
  destruct (sizes8 true) as (s & MK & E1 & E2 & E3 & E4). exists s. split; [exact MK|]. cbv zeta.
  exists (cut (fun t => fst (tangential_range (sz_nZnT s) 1 t)) (sz_nThetaEven s * sz_nZeta s) (point 2 6)), (point 2 6).
  split; [apply cut_holds|]. split; [apply zero_modes|]. intros b0 share.
  pose proof (sine_rows true 1 1 0 0 0 0 0 s MK b0 1 0 1 ltac:(lia) ltac:(lia) ltac:(lia)
    (cut (fun t => fst (tangential_range (sz_nZnT s) 1 t)) (sz_nThetaEven s * sz_nZeta s) (point 2 6)) (fun _ _ => 0) (fun _ _ => 0) (fun _ _ => 0)
    (fun _ => ((fun _ => 0), (fun _ => 0))) (fun _ => ((fun _ => 0), (fun _ => 0))) (point 2 6) (fun _ _ _ => 0) (fun _ _ _ => 0) (zrange 0 1) share false 1 0 1 0 eq_refl
    (cut_holds _ _ _ _ _) (zero_modes _ _ _ _ _) (zero_modes _ _ _ _ _) (Permutation_refl _) ltac:(lia) ltac:(lia) ltac:(lia) ltac:(lia)) as V.
  change (2 * ((1 + 1) * (2 * 0 + 1)))%Z with 4%Z in V. cbv beta iota in V. rewrite Z.add_0_r in V. rewrite V. clear V.
  change (redundant 1 0) with false. cbn [negb andb Z.eqb Pos.eqb].
  rewrite E1, E2, E3, E4. rewrite !galerkin_point by lia. cbn [Z.leb Z.ltb Z.compare Pos.compare Pos.compare_cont andb Z.mul Pos.mul].
  rewrite sin_quarter, sin_three_quarter. pose proof (make_sizes_ok _ _ _ _ _ _ _ _ _ MK) as OK.
  assert (E6 : sz_lasym s = true) by (destruct (SurfFinal.make_sizes_nfp _ _ _ _ _ _ _ _ _ MK) as (Q & _); exact Q).
  rewrite <- (LapThreads.wcos_wInt s OK 6) by (assumption || lia). rewrite E1, E3. change (6 <? Z.pos (1 + 4))%Z with false. cbv iota. lra.
Qed.

Lemma solution_case : forall b0, exists s x, make_sizes false 1 1 0 0 0 0 0 = Some s /\ x 1%Z = 2 /\
  let part := thread_part s (vtab s b0) 1 0 0 (sz_nZnT s) (fun _ => 0) (fun _ => 0) (fun _ => 0) (fun _ => 0)
     ((fun _ => 0), (fun _ => 0)) ((fun _ => 0), (fun _ => 0)) in
  let A := build_matrix s 1 0 [part] (fun _ => 0) in
  let b := build_rhs s 1 0 [(part, ((fun i => IZR i), (fun _ => 0)))] (fun _ => 0) in
  forall r, (0 <= r < 2)%Z -> zsum 0 2 (fun c => A (r + c * 2)%Z * x c) = b r.
Proof.
  intros b0. destruct (sizes8 false) as (s & MK & E1 & E2 & E3 & E4). exists s, (fun i => 2 * IZR i). split; [exact MK|]. split; [lra|]. cbv zeta. intros r Hr.
  assert (TR : tangential_range (sz_nZnT s) 1 0 = (0%Z, sz_nZnT s)) by (rewrite E4; reflexivity).
  assert (PZ : Permutation [0%Z] (zrange 0 1)) by apply Permutation_refl.
  pose proof (fun n m Hn Hm => symmetric_matrix false 1 1 0 0 0 0 0 s MK b0 1 0 1 ltac:(lia) ltac:(lia) ltac:(lia)
    (fun _ _ => 0) (fun _ _ => 0) (fun _ _ => 0) (fun _ _ => 0)
    (fun _ => ((fun _ => 0), (fun _ => 0))) (fun _ => ((fun _ => 0), (fun _ => 0))) (fun _ _ => 0) (fun _ _ _ => 0) (fun _ _ _ => 0) [0%Z] (fun _ => 0) m 0 n 0 eq_refl
    (fun _ _ _ _ _ _ => eq_refl) (zero_modes _ _ _ _ _) PZ Hm ltac:(lia) Hn ltac:(lia)) as V.
  pose proof (fun m Hm => source_vector false 1 1 0 0 0 0 0 s MK b0 1 0 1 ltac:(lia) ltac:(lia)
    (fun _ _ => 0) (fun _ _ => 0) (fun _ _ => 0) (fun _ _ => 0)
    (fun _ => ((fun _ => 0), (fun _ => 0))) (fun _ => ((fun _ => 0), (fun _ => 0))) [0%Z] (fun _ => 0) (fun _ i => IZR i) (fun _ _ => 0) m 0 PZ Hm ltac:(lia)) as W.
  cbn [map] in V, W. rewrite TR in V, W. cbn [fst snd] in V, W. cbv zeta in W.
  change ((1 + 1) * (2 * 0 + 1))%Z with 2%Z in V.
  assert (MA : forall m, mode_at 1 0 m 0 = m) by (intros; unfold mode_at; ring).
  assert (Z0 : forall N trig trig' P Q w m n m' n', galerkin trig trig' P Q 1 w N (fun _ _ => 0) (fun _ _ _ => 0) m n m' n' = 0).
  { intros. unfold galerkin, system_kernel. apply zsum_zero. intros. unfold field_mode. rewrite zsum_zero by (intros; ring). unfold Rdiv. ring. }
  assert (F0 : forall trig P Q m n, field_mode trig P Q (fun _ => zsum 0 1 (fun _ => 0)) m n = 0).
  { intros. unfold field_mode. rewrite (zsum_zero 0 1) by reflexivity. rewrite zsum_zero by (intros; ring). unfold Rdiv. ring. }
  rewrite (zsum_cons 0 2), (zsum_cons (0 + 1) 2), (zsum_empty (0 + 1 + 1) 2) by lia.
  pose proof (V 0%Z r ltac:(lia) ltac:(lia)) as V0. pose proof (V 1%Z r ltac:(lia) ltac:(lia)) as V1. destruct (W r ltac:(lia)) as [W0 _].
  rewrite (MA r), (MA 0%Z) in V0. rewrite (MA r), (MA 1%Z) in V1. rewrite !(MA r) in W0. rewrite Z0 in V0, V1. rewrite F0 in W0. change (0 + 1)%Z with 1%Z. rewrite V0, V1, W0.
  rewrite (zsum_cons 0 1), zsum_empty by lia. change (redundant r 0) with ((r =? 0) && false)%Z%bool. rewrite andb_false_r.
  assert (r = 0 \/ r = 1)%Z as [->| ->] by lia; cbn [Z.eqb andb Pos.eqb]; lra.
Qed.

Lemma partner_case :
  let K kl klp := if (kl =? klp)%Z then 1 else 0 in
  forall kl klp, (0 <= kl < 8 * 1)%Z -> (0 <= klp < 8 * 1)%Z -> K (partner 8 1 kl) (partner 8 1 klp) = K kl klp.
Proof.
  cbv zeta. intros kl klp H1 H2.
  assert (E : forall a, (0 <= a < 8)%Z -> partner 8 1 a = ((8 - a) mod 8)%Z).
  { intros a Ha. unfold partner. rewrite Z.div_1_r, !Z.mod_1_r. lia. }
  rewrite !E by lia. destruct (Z.eqb_spec kl klp) as [->|Ne]; [rewrite Z.eqb_refl; reflexivity|].
  destruct (Z.eqb_spec ((8 - kl) mod 8) ((8 - klp) mod 8)) as [E2|]; [|reflexivity]. exfalso.
  destruct (Z.eq_dec kl 0) as [->|N1]; destruct (Z.eq_dec klp 0) as [->|N2]; try lia.
  - rewrite (Z.mod_small (8 - klp)) in E2 by lia. change ((8 - 0) mod 8)%Z with 0%Z in E2. lia.
  - rewrite (Z.mod_small (8 - kl)) in E2 by lia. change ((8 - 0) mod 8)%Z with 0%Z in E2. lia.
  - rewrite !Z.mod_small in E2 by lia. lia.
Qed.
