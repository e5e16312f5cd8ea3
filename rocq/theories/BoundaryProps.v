(** Property theorems C18, C19, C20, C22 and C53. *)
From Coq Require Import ZArith List Bool Reals Lra Lia.
From Verif Require Import Base BaseLemmas SumLemmas FourierModel FourierProofs BoundaryModel BoundarySpec BoundaryProofs.
Open Scope R_scope.

(** C18: the coefficients handed to the solver, with the m = 1 rotation undone
    (which the solver does when it reads them, ideal_mhd_model.cc:583), describe
    the input surface at tau(theta) = theta + delta, or pi - theta + delta when
    the orientation had to be reversed.  [sj] is the required sign of the
    Jacobian, [b0] the previous contents of the arrays. *)
Theorem C18_surface (lasym : bool) (mpol ntor : Z) (id : indata_bdy) (sj : Z) (b0 : bdy) :
  (2 <= mpol)%Z -> (0 <= ntor)%Z ->
  let lthreed := (0 <? ntor)%Z in
  let '(flipped, b) := setupFromIndata lasym lthreed mpol ntor id sj b0 in
  let b1 := ensureM1Constrained lasym lthreed ntor 1 b in
  forall theta zeta, let tau := (if flipped then PI - theta else theta) + shift_delta lasym ntor id in
  R_internal lasym lthreed mpol ntor b1 theta zeta = R_input lasym mpol ntor id tau zeta /\
  Z_internal lasym lthreed mpol ntor b1 theta zeta = Z_input lasym mpol ntor id tau zeta.
Proof. exact (setup_surface lasym mpol ntor id sj b0). Qed.
Print Assumptions C18_surface.
(** Stellarator-symmetric input in the right orientation: same surface at the same angles. *)
Theorem C18_symmetric (mpol ntor : Z) (id : indata_bdy) (b0 : bdy) theta zeta :
  (2 <= mpol)%Z -> (0 <= ntor)%Z ->
  let b := parseToInternalArrays false (0 <? ntor)%Z mpol ntor id b0 in
  R_internal false (0 <? ntor)%Z mpol ntor b theta zeta = R_input false mpol ntor id theta zeta /\
  Z_internal false (0 <? ntor)%Z mpol ntor b theta zeta = Z_input false mpol ntor id theta zeta.
Proof.
  intros M N b. assert (E : theta = theta + dl false ntor id) by (unfold dl, shift_delta; ring).
  split; rewrite E at 2; [apply parse_R|apply parse_Z]; auto; lia.
Qed.
Print Assumptions C18_symmetric.

(** C19: the shift is a re-parametrisation theta -> theta + delta and makes
    R_sin(1,0) = Z_cos(1,0). *)
Theorem C19_shift (mpol ntor : Z) (id : indata_bdy) (b0 : bdy) :
  (2 <= mpol)%Z -> (0 <= ntor)%Z ->
  let b := parseToInternalArrays true (0 <? ntor)%Z mpol ntor id b0 in
  rbsc b (ntor + 1)%Z = zbcc b (ntor + 1)%Z /\
  forall theta zeta,
  R_internal true (0 <? ntor)%Z mpol ntor b theta zeta = R_input true mpol ntor id (theta + shift_delta true ntor id) zeta /\
  Z_internal true (0 <? ntor)%Z mpol ntor b theta zeta = Z_input true mpol ntor id (theta + shift_delta true ntor id) zeta.
Proof.
  intros M N b. split.
  - replace (ntor + 1)%Z with (1 * (ntor + 1) + 0)%Z by lia. apply (shift_m1 true (0 <? ntor)%Z mpol ntor ltac:(lia) N id b0 eq_refl M).
  - intros theta zeta. split; [apply parse_R|apply parse_Z]; auto; lia.
Qed.
Print Assumptions C19_shift.
(** A boundary that already has equal coefficients (and a positive sum of the
    symmetric ones) is not shifted again. *)
Theorem C19_no_repeat (ntor : Z) (id : indata_bdy) :
  in_rbs id 1 ntor = in_zbc id 1 ntor -> 0 < in_rbc id 1 ntor + in_zbs id 1 ntor -> shift_delta true ntor id = 0.
Proof.
  intros E H. unfold shift_delta. rewrite Z.add_0_r, E, Rminus_diag_eq by reflexivity. apply atan2_pos0; auto.
Qed.
Print Assumptions C19_no_repeat.

(** C20 *)
Theorem C20_flip (lasym : bool) (mpol ntor : Z) (b : bdy) : (2 <= mpol)%Z -> (0 <= ntor)%Z ->
  let lthreed := (0 <? ntor)%Z in
  let b' := flipTheta lasym lthreed mpol ntor b in
  (forall theta zeta,
    R_internal lasym lthreed mpol ntor b' theta zeta = R_internal lasym lthreed mpol ntor b (PI - theta) zeta /\
    Z_internal lasym lthreed mpol ntor b' theta zeta = Z_internal lasym lthreed mpol ntor b (PI - theta) zeta) /\
  orientation ntor b' = - orientation ntor b.
Proof.
  intros M N lthreed b'. split; [|apply flip_negates; auto].
  intros. apply flip_series.
Qed.
Print Assumptions C20_flip.
(** The flip happens exactly when the orientation sum has the sign of the
    Jacobian, and afterwards it never has. *)
Theorem C20_orientation (lasym lthreed : bool) (mpol ntor : Z) (id : indata_bdy) (sj : Z) (b0 : bdy) :
  (2 <= mpol)%Z -> (0 <= ntor)%Z ->
  (fst (setupFromIndata lasym lthreed mpol ntor id sj b0) = true <->
     0 < orientation ntor (parseToInternalArrays lasym lthreed mpol ntor id b0) * IZR sj) /\
  checkSignOfJacobian ntor sj (snd (setupFromIndata lasym lthreed mpol ntor id sj b0)) = false.
Proof.
  intros M N. split; [rewrite setup_flag; apply check_orientation|apply setup_orientation; auto].
Qed.
Print Assumptions C20_orientation.

(** C22: boundary arrays and all surfaces of a coefficient set (with an optional
    upper surface limit [jMax]). *)
Theorem C22_boundary (lasym lthreed : bool) (mpol ntor : Z) (b : bdy) : (2 <= mpol)%Z -> (0 <= ntor)%Z ->
  forall m n, (0 <= m < mpol)%Z -> (0 <= n <= ntor)%Z ->
  let i := (m * (ntor + 1) + n)%Z in
  let once := ensureM1Constrained lasym lthreed ntor (1 / 2) b in
  same_at i (ensureM1Constrained lasym lthreed ntor 1 once) b /\ (m <> 1%Z -> same_at i once b).
Proof. exact (bdy_m1_undo lasym lthreed mpol ntor b). Qed.
Print Assumptions C22_boundary.
Theorem C22_surfaces (lasym lthreed : bool) (mpol ntor nsMin nsMax : Z) (jMax : option Z) (b : bdy) :
  (2 <= mpol)%Z -> (0 <= ntor)%Z ->
  forall j m n, (nsMin <= j)%Z -> (0 <= m < mpol)%Z -> (0 <= n <= ntor)%Z ->
  let i := (((j - nsMin) * mpol + m) * (ntor + 1) + n)%Z in
  let once := m1Constraint lasym lthreed mpol ntor nsMin nsMax (1 / 2) jMax b in
  same_at i (m1Constraint lasym lthreed mpol ntor nsMin nsMax 1 jMax once) b /\
  (m <> 1%Z -> same_at i once b).
Proof. exact (m1_undo lasym lthreed mpol ntor nsMin nsMax jMax b). Qed.
Print Assumptions C22_surfaces.

(** C53: the constrained m = 1, n = 0 combination of an asymmetric boundary
    vanishes when the orientation was right ... *)
Theorem C53_constrained_unflipped_partial (mpol ntor : Z) (id : indata_bdy) (sj : Z) (b0 : bdy) :
  (2 <= mpol)%Z -> (0 <= ntor)%Z ->
  fst (setupFromIndata true (0 <? ntor)%Z mpol ntor id sj b0) = false ->
  zbcc (snd (setupFromIndata true (0 <? ntor)%Z mpol ntor id sj b0)) (ntor + 1)%Z = 0.
Proof. intros M N. exact (setup_m1_zero true mpol ntor id sj b0 M N eq_refl). Qed.
Print Assumptions C53_constrained_unflipped_partial.

(** ... but not when it had to be reversed: for the asymmetric torus
    R = 3 + 2 cos th + sin th, Z = cos th - sin th the flip turns
    R_sin = Z_cos into R_sin = - Z_cos. *)
Definition C53_id : indata_bdy := mkIn
  (fun m _ => if (m =? 0)%Z then 3 else if (m =? 1)%Z then 2 else 0)
  (fun m _ => if (m =? 1)%Z then -1 else 0)
  (fun m _ => if (m =? 1)%Z then 1 else 0)
  (fun m _ => if (m =? 1)%Z then 1 else 0).
Definition zero_bdy : bdy := let z := fun _ : Z => 0 in mkBdy z z z z z z z z.
Theorem C53_constrained_refuted : exists (mpol ntor : Z) (id : indata_bdy) (b0 : bdy),
  (2 <= mpol)%Z /\ (0 <= ntor)%Z /\
  zbcc (snd (setupFromIndata true (0 <? ntor)%Z mpol ntor id (-1) b0)) (ntor + 1)%Z <> 0.
Proof.
  exists 2%Z, 0%Z, C53_id, zero_bdy. split; [lia|]. split; [lia|].
  unfold setupFromIndata. cbv zeta. cbn [snd].
  assert (D : shift_delta true 0 C53_id = 0).
  { apply (C19_no_repeat 0 C53_id); cbn; lra. }
  set (p := parseToInternalArrays true (0 <? 0)%Z 2 0 C53_id zero_bdy).
  assert (P : rbcc p 1 = 2 /\ zbsc p 1 = -1 /\ rbsc p 1 = 1 /\ zbcc p 1 = 1).
  { unfold p, parseToInternalArrays. rewrite D.
    assert (Q : req 0 0 = true) by (apply req_true; reflexivity).
    unfold for_up. change (zrange 0 2) with (0 :: 1 :: nil)%Z%list. change (zrange (- (0)) (0 + 1)) with (0 :: nil)%Z%list.
    cbn [fold_left].
    unfold parse_mode. rewrite Q. cbv zeta. cbn -[IZR Rmult Rplus Ropp Rminus fill0]. unfold clear_bdy, upd. cbn -[IZR Rmult Rplus Ropp Rminus fill0].
    rewrite !fill0_at by lia. repeat split; lra. }
  destruct P as (P1 & P2 & P3 & P4).
  assert (F : checkSignOfJacobian 0 (-1) p = true).
  { apply check_orientation. unfold orientation, zsum. change (zrange 0 (0 + 1)) with (0 :: nil)%Z%list. cbn -[IZR Rmult Rplus Ropp Rminus p]. rewrite P1, P2. lra. }
  rewrite F.
  pose proof (ensureM1_at true (0 <? 0)%Z 2 0 (1 / 2) (flipTheta true (0 <? 0)%Z 2 0 p) ltac:(lia) ltac:(lia) 1 0 ltac:(lia) ltac:(lia)) as V.
  pose proof (flip_proj true (0 <? 0)%Z 2 0 p 1 0 ltac:(lia) ltac:(lia)) as FP. cbv zeta in FP.
  change (1 * (0 + 1) + 0)%Z with 1%Z in *. destruct FP as (_ & _ & _ & FP). destruct (FP eq_refl) as (E1 & E2 & _).
  unfold par in E1, E2. cbn -[IZR Rmult Rplus Ropp Rminus p flipTheta] in E1, E2. rewrite P3 in E1. rewrite P4 in E2.
  change (1 =? 1)%Z with true in V. unfold view, m1_view in V.
  assert (E := f_equal (fun v => snd (fst (fst v))) V). cbn [fst snd] in E.
  change (0 <? 0)%Z with false in *. change (0 + 1)%Z with 1%Z. rewrite E, E1, E2. lra.
Qed.
Print Assumptions C53_constrained_refuted.

(** Concrete cases of the hypotheses: an unflipped and a flipped symmetric
    torus R = 3 + cos, Z = +-sin; required Jacobian sign -1. *)
Example C20_case : forall b, rbcc b 1%Z = 2 -> zbsc b 1%Z = -1 -> orientation 0 b = -2 /\ checkSignOfJacobian 0 (-1) b = true.
Proof.
  intros b E1 E2. assert (O : orientation 0 b = -2) by (unfold orientation, zsum; change (zrange 0 (0 + 1)) with (0 :: nil)%Z%list; cbn -[IZR Rmult Rplus]; rewrite E1, E2; lra).
  split; [exact O|]. apply check_orientation. rewrite O. lra.
Qed.
Example C22_case : let b := mkBdy (fun i => 0) (fun i => 0) (fun i => IZR i) (fun i => 2 * IZR i) (fun i => 0) (fun i => 0) (fun i => 0) (fun i => 0) in
  rbss (ensureM1Constrained false true 1 (1 / 2) b) 3 = 9 / 2 /\ zbcs (ensureM1Constrained false true 1 (1 / 2) b) 3 = - (3 / 2) /\
  rbss (ensureM1Constrained false true 1 1 (ensureM1Constrained false true 1 (1 / 2) b)) 3 = 3.
Proof. cbv zeta. unfold ensureM1Constrained, for_up. change (zrange 0 (1 + 1)) with (0 :: 1 :: nil)%Z%list. cbn -[IZR Rmult Rplus Rminus Rdiv]. unfold upd. cbn -[IZR Rmult Rplus Rminus Rdiv]. repeat split; lra. Qed.
