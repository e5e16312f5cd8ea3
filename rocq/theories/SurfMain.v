From Coq Require Import ZArith List Bool Reals Lia Lra.
From Coquelicot Require Import Coquelicot.
From Verif Require Import Base BaseLemmas SumLemmas SizesModel FourierModel FourierSpec TrigSums DftSpec DftTables VacTables
  SurfModel SurfSpec SurfProofs SurfMirror.
Import ListNotations.
Open Scope R_scope.

(** Derivatives of the series. *)
Lemma is_derive_zsum lo hi (f : Z -> R -> R) (g : Z -> R) x :
  (forall j, (lo <= j < hi)%Z -> is_derive (f j) x (g j)) ->
  is_derive (fun y => zsum lo hi (fun j => f j y)) x (zsum lo hi g).
Proof.
  intros H. unfold zsum.
  assert (K : forall l, (forall j, In j l -> (lo <= j < hi)%Z) ->
     is_derive (fun y => rsum l (fun j => f j y)) x (rsum l g)).
  { induction l as [|j l IH]; intros Hl; cbn [rsum].
    - apply (is_derive_const (K := R_AbsRing) (V := R_NormedModule)).
    - apply (is_derive_plus (K := R_AbsRing) (V := R_NormedModule)).
      + apply H. apply Hl. left; auto.
      + apply IH. intros; apply Hl; right; auto. }
  apply K. intros j. apply zrange_In.
Qed.
Lemma bas_derive c o w x : (o = 0 \/ o = 1)%Z -> is_derive (fun x => bas c o w (w * x)) x (bas c (o + 1) w (w * x)).
Proof.
  intros [->| ->]; destruct c; unfold bas; cbn [Z.add Pos.add Pos.succ]; auto_derive; auto; ring.
Qed.

Lemma lin4 (f g : R -> R) f' g' x k a b c d u v :
  is_derive f x f' -> is_derive g x g' ->
  is_derive (fun y => k * (a * f y * u + b * g y * v + c * g y * u + d * f y * v)) x
            (k * (a * f' * u + b * g' * v + c * g' * u + d * f' * v)).
Proof.
  intros Df Dg. auto_derive.
  - repeat split; auto; eexists; eassumption.
  - replace (Derive (fun y => f y) x) with f' by (symmetry; exact (is_derive_unique _ _ _ Df)).
    replace (Derive (fun y => g y) x) with g' by (symmetry; exact (is_derive_unique _ _ _ Dg)). ring.
Qed.

Lemma lin4p (f g : R -> R) f' g' x k a b c d u v :
  is_derive f x f' -> is_derive g x g' ->
  is_derive (fun y => k * (a * u * f y + b * v * g y + c * v * f y + d * u * g y)) x
            (k * (a * u * f' + b * v * g' + c * v * f' + d * u * g')).
Proof.
  intros Df Dg. auto_derive.
  - repeat split; auto; eexists; eassumption.
  - replace (Derive (fun y => f y) x) with f' by (symmetry; exact (is_derive_unique _ _ _ Df)).
    replace (Derive (fun y => g y) x) with g' by (symmetry; exact (is_derive_unique _ _ _ Dg)). ring.
Qed.

Section Ser.
Variables nfp mpol ntor : Z.
Variables cc ss sc cs : Z -> Z -> R.
Definition serD (i j : Z) (t p : R) : R :=
  zsum 0 (ntor + 1) (fun n => zsum 0 mpol (fun m => s2 m * s2 n *
    (cc m n * bas true i (IZR m) (IZR m * t) * bas true j (IZR (n * nfp)) (IZR (n * nfp) * p)
     + ss m n * bas false i (IZR m) (IZR m * t) * bas false j (IZR (n * nfp)) (IZR (n * nfp) * p)
     + sc m n * bas false i (IZR m) (IZR m * t) * bas true j (IZR (n * nfp)) (IZR (n * nfp) * p)
     + cs m n * bas true i (IZR m) (IZR m * t) * bas false j (IZR (n * nfp)) (IZR (n * nfp) * p)))).
Lemma serD_series t p : series nfp mpol ntor cc ss sc cs t p = serD 0 0 t p.
Proof. reflexivity. Qed.
Lemma scal_is (k a : R) : scal (K := R_AbsRing) (V := R_NormedModule) k a = k * a. Proof. reflexivity. Qed.
Lemma serD_t i j t p : (i = 0 \/ i = 1)%Z -> is_derive (fun t => serD i j t p) t (serD (i + 1) j t p).
Proof.
  intros Hi. unfold serD. apply is_derive_zsum. intros n _. apply is_derive_zsum. intros m _.
  apply (lin4 (fun x => bas true i (IZR m) (IZR m * x)) (fun x => bas false i (IZR m) (IZR m * x))); apply bas_derive; exact Hi.
Qed.
Lemma serD_p i j t p : (j = 0 \/ j = 1)%Z -> is_derive (fun p => serD i j t p) p (serD i (j + 1) t p).
Proof.
  intros Hj. unfold serD. apply is_derive_zsum. intros n _. apply is_derive_zsum. intros m _.
  apply (lin4p (fun x => bas true j (IZR (n * nfp)) (IZR (n * nfp) * x)) (fun x => bas false j (IZR (n * nfp)) (IZR (n * nfp) * x))); apply bas_derive; exact Hj.
Qed.
End Ser.

(** Partial derivatives of the surface in terms of those of R and Z. *)
Section Vec.
Variables (r z : Z -> Z -> R -> R -> R).
Hypothesis rt : forall i j t p, (i = 0 \/ i = 1)%Z -> is_derive (fun t => r i j t p) t (r (i + 1)%Z j t p).
Hypothesis rp : forall i j t p, (j = 0 \/ j = 1)%Z -> is_derive (fun p => r i j t p) p (r i (j + 1)%Z t p).
Hypothesis zt : forall i j t p, (i = 0 \/ i = 1)%Z -> is_derive (fun t => z i j t p) t (z (i + 1)%Z j t p).
Hypothesis zp : forall i j t p, (j = 0 \/ j = 1)%Z -> is_derive (fun p => z i j t p) p (z i (j + 1)%Z t p).
Local Notation F := (surface (r 0 0)%Z (z 0 0)%Z).

Lemma dv_mul_const f f' c x : is_derive f x f' -> Derive (fun u => f u * c) x = f' * c.
Proof.
  intros H. apply is_derive_unique. auto_derive; [eexists; eassumption|].
  replace (Derive (fun y => f y) x) with f' by (symmetry; exact (is_derive_unique _ _ _ H)). ring.
Qed.
Lemma dv_cos f f' x : is_derive f x f' -> is_derive (fun u => f u * cos u) x (f' * cos x - f x * sin x).
Proof. intros H. auto_derive; [repeat split; auto; eexists; eassumption|]. replace (Derive (fun y => f y) x) with f' by (symmetry; exact (is_derive_unique _ _ _ H)). ring. Qed.
Lemma dv_sin f f' x : is_derive f x f' -> is_derive (fun u => f u * sin u) x (f' * sin x + f x * cos x).
Proof. intros H. auto_derive; [repeat split; auto; eexists; eassumption|]. replace (Derive (fun y => f y) x) with f' by (symmetry; exact (is_derive_unique _ _ _ H)). ring. Qed.

Lemma F_t t p : d_t F t p = mkVec (r 1 0 t p * cos p) (r 1 0 t p * sin p) (z 1 0 t p).
Proof.
  unfold d_t, surface. cbn [vx vy vz]. f_equal.
  - apply dv_mul_const. apply (rt 0 0 t p). auto.
  - apply dv_mul_const. apply (rt 0 0 t p). auto.
  - apply is_derive_unique. apply (zt 0 0 t p). auto.
Qed.
Lemma F_p t p : d_p F t p = mkVec (r 0 1 t p * cos p - r 0 0 t p * sin p) (r 0 1 t p * sin p + r 0 0 t p * cos p) (z 0 1 t p).
Proof.
  unfold d_p, surface. cbn [vx vy vz]. f_equal.
  - apply is_derive_unique; apply (dv_cos _ _ _ (rp 0%Z 0%Z t p ltac:(auto))).
  - apply is_derive_unique; apply (dv_sin _ _ _ (rp 0%Z 0%Z t p ltac:(auto))).
  - apply is_derive_unique. apply (zp 0 0 t p). auto.
Qed.
Lemma F_tt t p : d_t (d_t F) t p = mkVec (r 2 0 t p * cos p) (r 2 0 t p * sin p) (z 2 0 t p).
Proof.
  unfold d_t at 1. f_equal.
  - rewrite (Derive_ext _ (fun u => r 1%Z 0%Z u p * cos p)) by (intros u; rewrite F_t; reflexivity).
    apply dv_mul_const. apply (rt 1 0 t p). auto.
  - rewrite (Derive_ext _ (fun u => r 1%Z 0%Z u p * sin p)) by (intros u; rewrite F_t; reflexivity).
    apply dv_mul_const. apply (rt 1 0 t p). auto.
  - rewrite (Derive_ext _ (fun u => z 1%Z 0%Z u p)) by (intros u; rewrite F_t; reflexivity).
    apply is_derive_unique. apply (zt 1 0 t p). auto.
Qed.
Lemma F_tp t p : d_p (d_t F) t p = mkVec (r 1 1 t p * cos p - r 1 0 t p * sin p) (r 1 1 t p * sin p + r 1 0 t p * cos p) (z 1 1 t p).
Proof.
  unfold d_p at 1. f_equal.
  - rewrite (Derive_ext _ (fun u => r 1%Z 0%Z t u * cos u)) by (intros u; rewrite F_t; reflexivity).
    apply is_derive_unique; apply (dv_cos _ _ _ (rp 1%Z 0%Z t p ltac:(auto))).
  - rewrite (Derive_ext _ (fun u => r 1%Z 0%Z t u * sin u)) by (intros u; rewrite F_t; reflexivity).
    apply is_derive_unique; apply (dv_sin _ _ _ (rp 1%Z 0%Z t p ltac:(auto))).
  - rewrite (Derive_ext _ (fun u => z 1%Z 0%Z t u)) by (intros u; rewrite F_t; reflexivity).
    apply is_derive_unique. apply (zp 1 0 t p). auto.
Qed.
Lemma F_pp t p : d_p (d_p F) t p = mkVec
  (r 0 2 t p * cos p - 2 * r 0 1 t p * sin p - r 0 0 t p * cos p)
  (r 0 2 t p * sin p + 2 * r 0 1 t p * cos p - r 0 0 t p * sin p) (z 0 2 t p).
Proof.
  unfold d_p at 1. f_equal.
  - rewrite (Derive_ext _ (fun u => r 0%Z 1%Z t u * cos u - r 0%Z 0%Z t u * sin u)) by (intros u; rewrite F_p; reflexivity).
    apply is_derive_unique.
    evar_last; [apply (is_derive_minus (K := R_AbsRing) (V := R_NormedModule)); [apply dv_cos, (rp 0%Z 1%Z t p); auto|apply dv_sin, (rp 0%Z 0%Z t p); auto]|].
    unfold minus, plus, opp; cbn. ring.
  - rewrite (Derive_ext _ (fun u => r 0%Z 1%Z t u * sin u + r 0%Z 0%Z t u * cos u)) by (intros u; rewrite F_p; reflexivity).
    apply is_derive_unique.
    evar_last; [apply (is_derive_plus (K := R_AbsRing) (V := R_NormedModule)); [apply dv_sin, (rp 0%Z 1%Z t p); auto|apply dv_cos, (rp 0%Z 0%Z t p); auto]|].
    unfold plus; cbn. ring.
  - rewrite (Derive_ext _ (fun u => z 0%Z 1%Z t u)) by (intros u; rewrite F_p; reflexivity).
    apply is_derive_unique. apply (zp 0 1 t p). auto.
Qed.

Lemma cs1 p : cos p * cos p + sin p * sin p = 1.
Proof. pose proof (sin2_cos2 p) as H. unfold Rsqr in H. lra. Qed.

(** Cylindrical components. *)
Lemma normal_comp sg t p :
  dot (normal sg F t p) (e_R p) = (sg * r 0 0 t p * z 1 0 t p) /\
  dot (normal sg F t p) (e_phi p) = (sg * (r 1 0 t p * z 0 1 t p - z 1 0 t p * r 0 1 t p)) /\
  dot (normal sg F t p) e_Z = (- sg * r 0 0 t p * r 1 0 t p).
Proof.
  unfold normal. rewrite F_t, F_p. unfold dot, scale, cross, e_R, e_phi, e_Z. cbn [vx vy vz].
  pose proof (cs1 p) as H. set (C := cos p) in *. set (S' := sin p) in *.
  set (R0 := r 0%Z 0%Z t p). set (Rt := r 1%Z 0%Z t p). set (Rp := r 0%Z 1%Z t p). set (Zt := z 1%Z 0%Z t p). set (Zp := z 0%Z 1%Z t p).
  split; [|split].
  - transitivity (sg * R0 * Zt * (C * C + S' * S')); [ring|rewrite H; ring].
  - transitivity (sg * (Rt * Zp - Zt * Rp) * (C * C + S' * S')); [ring|rewrite H; ring].
  - transitivity (- sg * R0 * Rt * (C * C + S' * S')); [ring|rewrite H; ring].
Qed.
Lemma metric_comp t p :
  dot (d_t F t p) (d_t F t p) = (r 1 0 t p * r 1 0 t p + z 1 0 t p * z 1 0 t p) /\
  dot (d_t F t p) (d_p F t p) = (r 1 0 t p * r 0 1 t p + z 1 0 t p * z 0 1 t p) /\
  dot (d_p F t p) (d_p F t p) = (r 0 1 t p * r 0 1 t p + r 0 0 t p * r 0 0 t p + z 0 1 t p * z 0 1 t p).
Proof.
  rewrite F_t, F_p. unfold dot. cbn [vx vy vz].
  pose proof (cs1 p) as H. set (C := cos p) in *. set (S' := sin p) in *.
  set (R0 := r 0%Z 0%Z t p). set (Rt := r 1%Z 0%Z t p). set (Rp := r 0%Z 1%Z t p). set (Zt := z 1%Z 0%Z t p). set (Zp := z 0%Z 1%Z t p).
  split; [|split].
  - transitivity (Rt * Rt * (C * C + S' * S') + Zt * Zt); [ring|rewrite H; ring].
  - transitivity (Rt * Rp * (C * C + S' * S') + Zt * Zp); [ring|rewrite H; ring].
  - transitivity ((Rp * Rp + R0 * R0) * (C * C + S' * S') + Zp * Zp); [ring|rewrite H; ring].
Qed.
(** Any vector's product with the normal through its cylindrical components. *)
Lemma dot_cyl a n p : dot a n = dot a (e_R p) * dot n (e_R p) + dot a (e_phi p) * dot n (e_phi p) + dot a e_Z * dot n e_Z.
Proof.
  unfold dot, e_R, e_phi, e_Z. cbn [vx vy vz]. pose proof (cs1 p) as H. set (C := cos p) in *. set (S' := sin p) in *.
  transitivity (((vx a * vx n + vy a * vy n) * (C * C + S' * S')) * (C * C + S' * S') + vz a * vz n); [rewrite H; ring|].
  transitivity ((vx a * vx n + vy a * vy n) * (C * C + S' * S') + vz a * vz n); [rewrite H; ring|ring].
Qed.
Lemma curv_comp t p :
  (dot (d_t (d_t F) t p) (e_R p) = r 2%Z 0%Z t p /\ dot (d_t (d_t F) t p) (e_phi p) = 0 /\ dot (d_t (d_t F) t p) e_Z = z 2%Z 0%Z t p) /\
  (dot (d_p (d_t F) t p) (e_R p) = r 1%Z 1%Z t p /\ dot (d_p (d_t F) t p) (e_phi p) = r 1%Z 0%Z t p /\ dot (d_p (d_t F) t p) e_Z = z 1%Z 1%Z t p) /\
  (dot (d_p (d_p F) t p) (e_R p) = r 0%Z 2%Z t p - r 0%Z 0%Z t p /\ dot (d_p (d_p F) t p) (e_phi p) = 2 * r 0%Z 1%Z t p /\ dot (d_p (d_p F) t p) e_Z = z 0%Z 2%Z t p) /\
  (dot (F t p) (e_R p) = r 0%Z 0%Z t p /\ dot (F t p) (e_phi p) = 0 /\ dot (F t p) e_Z = z 0%Z 0%Z t p) /\
  dot (F t p) (F t p) = r 0%Z 0%Z t p * r 0%Z 0%Z t p + z 0%Z 0%Z t p * z 0%Z 0%Z t p.
Proof.
  rewrite F_tt, F_tp, F_pp. unfold surface, dot, e_R, e_phi, e_Z. cbn [vx vy vz].
  pose proof (cs1 p) as H. set (C := cos p) in *. set (S' := sin p) in *.
  set (R0 := r 0%Z 0%Z t p). set (Rt := r 1%Z 0%Z t p). set (Rp := r 0%Z 1%Z t p). set (Z0 := z 0%Z 0%Z t p).
  set (A := r 2%Z 0%Z t p). set (B := r 1%Z 1%Z t p). set (D := r 0%Z 2%Z t p).
  assert (H2 : S' * S' = 1 - C * C) by lra.
  split; [|split; [|split; [|split]]].
  - split; [|split]; [transitivity (A * (C * C + S' * S')); [ring|rewrite H; ring]|ring|ring].
  - split; [|split]; [transitivity (B * (C * C + S' * S')); [ring|rewrite H; ring]|transitivity (Rt * (C * C + S' * S')); [ring|rewrite H; ring]|ring].
  - split; [|split]; [transitivity ((D - R0) * (C * C + S' * S')); [ring|rewrite H; ring]|transitivity (2 * Rp * (C * C + S' * S')); [ring|rewrite H; ring]|ring].
  - split; [|split]; [transitivity (R0 * (C * C + S' * S')); [ring|rewrite H; ring]|ring|ring].
  - transitivity (R0 * R0 * (C * C + S' * S') + Z0 * Z0); [ring|rewrite H; ring].
Qed.
End Vec.
