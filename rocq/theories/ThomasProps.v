(** C04 and C05: the radial preconditioner. *)
From Coq Require Import ZArith List Bool Lia Reals Lra Permutation.
From Verif Require Import Base BaseLemmas Num PartModel PartSpec PartProofs
  ThomasModel ThomasProofs ThomasPar.
Import ListNotations.
Open Scope Z_scope.

(** ** C05 *)

(** Pivots of Gaussian elimination without pivoting on rows jMin..jMax-1. *)
Definition pivots (jMin jMax : Z) (a d b p : Z -> R) : Prop :=
  p jMin = d jMin /\
  (forall j, jMin < j < jMax -> p j = (d j - a (j - 1)%Z * b j / p (j - 1)%Z)%R) /\
  (forall j, jMin <= j < jMax -> p j <> 0%R).

(** Row j of the system b x_{j-1} + d x_j + a x_{j+1} = c on rows jMin..jMax-1. *)
Definition row_holds (jMin jMax : Z) (a d b c x : Z -> R) (j : Z) : Prop :=
  ((if (j =? jMin)%Z then 0 else b j * x (j - 1)%Z) + d j * x j +
   (if (j =? jMax - 1)%Z then 0 else a j * x (j + 1)%Z) = c j)%R.

(** For every size, first active row, right-hand sides and storage stride: if the
    pivots are not zero, the numbers returned satisfy every equation; rows above
    the first active one become zero; nothing else is touched. *)
Theorem C05_tridiagonal_solve :
  forall (stride jMin jMax nRHS : Z) (q : @tri num_R) (p : Z -> R),
    0 <= jMin < jMax -> jMax <= stride -> 0 <= nRHS ->
    pivots jMin jMax (ta q) (td q) (tb q) p ->
    let x := tc (tridiagonal_solve stride jMin jMax nRHS q) in
    (forall k j, 0 <= k < nRHS -> jMin <= j < jMax ->
       row_holds jMin jMax (ta q) (td q) (tb q) (fun j => tc q (k * stride + j))
         (fun j => x (k * stride + j)) j) /\
    (forall k j, 0 <= k < nRHS -> 0 <= j < jMin -> x (k * stride + j) = 0%R) /\
    (forall k j, 0 <= k < nRHS -> jMax <= j < stride ->
       x (k * stride + j) = tc q (k * stride + j)) /\
    (forall i, ~ (0 <= i < nRHS * stride) -> x i = tc q i).
Proof.
  intros stride jMin jMax nRHS q p HJ HS HN (P1 & P2 & P3). cbv zeta.
  destruct (solve_spec stride jMin jMax nRHS q HJ HS HN) as (a' & E & G & Z0 & U & O).
  split; [|split; [exact Z0|split; [exact U|exact O]]].
  intros k j Hk Hj. destruct (G k Hk) as (g & GG).
  exact (tri_equations jMin jMax (ta q) (td q) (tb q) a' _ g _ p ltac:(lia) P1 P2 P3 E GG j Hj).
Qed.
Print Assumptions C05_tridiagonal_solve.

(** Diagonally dominant systems are always solved. *)
Theorem C05_diagonally_dominant :
  forall (stride jMin jMax nRHS : Z) (q : @tri num_R),
    0 <= jMin < jMax -> jMax <= stride -> 0 <= nRHS ->
    (forall j, jMin <= j < jMax ->
       ((if (j =? jMin)%Z then 0 else Rabs (tb q j)) +
        (if (j =? jMax - 1)%Z then 0 else Rabs (ta q j)) < Rabs (td q j))%R) ->
    let x := tc (tridiagonal_solve stride jMin jMax nRHS q) in
    forall k j, 0 <= k < nRHS -> jMin <= j < jMax ->
       row_holds jMin jMax (ta q) (td q) (tb q) (fun j => tc q (k * stride + j))
         (fun j => x (k * stride + j)) j.
Proof.
  intros stride jMin jMax nRHS q HJ HS HN HD.
  destruct (dominant_pivots jMin jMax (ta q) (td q) (tb q) ltac:(lia) HD) as (p & P1 & P2 & P3).
  destruct (C05_tridiagonal_solve stride jMin jMax nRHS q p HJ HS HN (conj P1 (conj P2 P3))) as (H & _).
  exact H.
Qed.
Print Assumptions C05_diagonally_dominant.

(** Instance: the second-difference matrix -1, 3, -1 on rows 1..4 of storage with
    stride 6, two right-hand sides. *)
Example C05_instance :
  let q := @mkTri num_R (fun _ => -1)%R (fun _ => 3)%R (fun _ => -1)%R (fun i => IZR i) in
  (0 <= 1 < 5) /\ 5 <= 6 /\ 0 <= 2 /\
  forall j, 1 <= j < 5 ->
    ((if (j =? 1)%Z then 0 else Rabs (tb q j)) +
     (if (j =? 5 - 1)%Z then 0 else Rabs (ta q j)) < Rabs (td q j))%R.
Proof.
  cbv zeta. repeat split; try lia. intros j Hj. cbn [ta td tb N num_R].
  rewrite (Rabs_left (-1)%R) by lra. rewrite (Rabs_right 3) by lra.
  destruct (j =? 1); destruct (j =? 5 - 1); lra.
Qed.

(** ** C04 *)

(** Surfaces of thread t, from the radial partitioning. *)
Definition radial_bounds (T ns : Z) (lfreeb : bool) (t : Z) : Z * Z :=
  match adjustRadialPartitioning T t ns lfreeb with
  | Some r => (nsMinF r, nsMaxF r)
  | None => (0, 0)
  end.

(** Last active row: the boundary is advanced only if the vacuum field is on. *)
Definition last_row (ns : Z) (lfreeb vacuum_on : bool) : Z :=
  if lfreeb && vacuum_on then ns else ns - 1.

(** Thread-local arrays [l] hold the part of the global matrix (A, D, B) and
    force (C) that belongs to the thread; index (component, mode, (basis,)
    surface). *)
Definition distributed {K : num} (nmodes nbasis T : Z) (bounds : Z -> Z * Z)
    (A D B : bool -> Z -> Z -> K) (C : bool -> Z -> Z -> Z -> K) (l : Z -> @local K) : Prop :=
  forall t jF mn z, 0 <= t < T -> fst (bounds t) <= jF < snd (bounds t) -> 0 <= mn < nmodes ->
  let idx := (jF - fst (bounds t)) * nmodes + mn in
  la (l t) z idx = A z mn jF /\ ld (l t) z idx = D z mn jF /\ lb (l t) z idx = B z mn jF /\
  forall k, 0 <= k < nbasis -> lc (l t) z k idx = C z mn k jF.

(** For every arithmetic (in particular IEEE doubles), number of surfaces, modes
    and basis functions, boundary mode, and thread count, whatever the order in
    which the threads execute their steps between the barriers and whatever is
    left in the shared arrays from earlier calls: every preconditioned force
    coefficient is the one of the single-threaded run. *)
Theorem C04_preconditioner_thread_independent :
  forall (K : num) (ns nmodes nbasis : Z) (jmin : Z -> Z) (lfreeb vacuum_on : bool) (T : Z)
    (A D B : bool -> Z -> Z -> K) (C : bool -> Z -> Z -> Z -> K)
    (l l1 : Z -> @local K) (h h1 : @shared K)
    (o1 o3 s1 s3 : list (Z * Z * Z)) (o2 s2 : list Z),
    3 <= ns -> 0 <= nmodes -> 0 <= nbasis ->
    (forall mn, 0 <= mn < nmodes -> 0 <= jmin mn <= 1) ->
    1 <= T -> 2 * T <= num_surfaces_to_distribute ns lfreeb ->
    let p := mkShape ns nmodes nbasis jmin (last_row ns lfreeb vacuum_on) in
    let bT := radial_bounds T ns lfreeb in
    let b1 := radial_bounds 1 ns lfreeb in
    distributed nmodes nbasis T bT A D B C l ->
    distributed nmodes nbasis 1 b1 A D B C l1 ->
    Permutation o1 (all_pairs p bT T) -> Permutation o2 (all_modes p T) ->
    Permutation o3 (all_pairs p bT T) ->
    Permutation s1 (all_pairs p b1 1) -> Permutation s2 (all_modes p 1) ->
    Permutation s3 (all_pairs p b1 1) ->
    let out := snd (apply_rz p bT o1 o2 o3 h l) in
    let out1 := snd (apply_rz p b1 s1 s2 s3 h1 l1) in
    (forall j, 0 <= j < num_surfaces_to_distribute ns lfreeb ->
       exists t, 0 <= t < T /\ fst (bT t) <= j < snd (bT t)) /\
    forall t jF mn z k, 0 <= t < T -> fst (bT t) <= jF < snd (bT t) ->
      0 <= mn < nmodes -> 0 <= k < nbasis ->
      lc (out t) z k ((jF - fst (bT t)) * nmodes + mn) = lc (out1 0) z k (jF * nmodes + mn).
Proof.
  intros K ns nmodes nbasis jmin lfreeb vac T A D B C l l1 h h1 o1 o3 s1 s3 o2 s2
    Hns Hm Hb Hj HT HT2 p bT b1 HL HL1 O1 O2 O3 S1 S2 S3 out out1.
  set (n := num_surfaces_to_distribute ns lfreeb) in *.
  assert (Hn : ns - 1 <= n <= ns) by (subst n; unfold num_surfaces_to_distribute; destruct lfreeb; lia).
  assert (Hjm : p_jmax p <= n).
  { subst p n. cbn. unfold last_row, num_surfaces_to_distribute. destruct lfreeb, vac; cbn; lia. }
  assert (Hj0 : 2 <= p_jmax p).
  { subst p. cbn. unfold last_row. destruct (_ && _); lia. }
  assert (BD : forall T', 1 <= T' -> 2 * T' <= n -> forall t, 0 <= t < T' ->
     radial_bounds T' ns lfreeb t = (blk n T' t, blk n T' (t + 1))).
  { intros T' H1 H2 t Ht. unfold radial_bounds. rewrite adjust_closed; [reflexivity| |lia].
    split; [lia|]. apply Z.div_le_lower_bound; lia. }
  assert (DT : forall T', 1 <= T' -> 2 * T' <= n ->
     distributes T' n (fun t => fst (radial_bounds T' ns lfreeb t))
                      (fun t => snd (radial_bounds T' ns lfreeb t))).
  { intros T' H1 H2. pose proof (blk_distributes n T' ltac:(lia) ltac:(lia)) as (X & Y).
    split.
    - intros j Hjj. destruct (X j Hjj) as (t & (Ht & Hbt) & U). exists t.
      rewrite BD by auto. split; [auto|]. intros t' (Ht' & Hb'). apply U.
      rewrite BD in Hb' by auto. auto.
    - intros t j Ht Hjj. rewrite BD in Hjj by auto. apply (Y t); auto. }
  assert (JM : forall mn, 0 <= mn < p_mn p -> 0 <= p_jmin p mn < p_jmax p).
  { intros mn Hmn. specialize (Hj mn Hmn). cbn [p_jmin p]. lia. }
  assert (E1 : b1 0 = (0, n)).
  { subst b1. rewrite BD by lia. change (0 + 1) with 1. rewrite blk_0, blk_T by lia. reflexivity. }
  split.
  { intros j Hjj. destruct (DT T HT HT2) as (X & _). destruct (X j Hjj) as (t & H & _). eauto. }
  intros t jF mn z k Ht HjF Hmn Hk.
  assert (HR : 0 <= jF < n).
  { destruct (DT T HT HT2) as (_ & Y). apply (Y t); auto. }
  pose proof (apply_rz_reference p n Hb Hm JM Hjm ltac:(cbn; lia) A D B C bT T HT (DT T HT HT2) l HL
    o1 o2 o3 h t jF mn z k O1 O2 O3 Ht HjF Hmn Hk) as R1.
  pose proof (apply_rz_reference p n Hb Hm JM Hjm ltac:(cbn; lia) A D B C b1 1 ltac:(lia)
    (DT 1 ltac:(lia) ltac:(lia)) l1 HL1
    s1 s2 s3 h1 0 jF mn z k S1 S2 S3 ltac:(lia) ltac:(rewrite E1; cbn; lia) Hmn Hk) as R2.
  rewrite E1 in R2. cbn [fst] in R2. rewrite Z.sub_0_r in R2.
  exact (eq_trans R1 (eq_sym R2)).
Qed.
Print Assumptions C04_preconditioner_thread_independent.

(** Instance in IEEE doubles: 5 surfaces, fixed boundary, 3 modes, 2 basis
    functions, 2 threads against 1, steps executed in reverse order. *)
Definition c04_A : bool -> Z -> Z -> num_f64 := fun z mn j => nfrac (mn + 1) (j + 3).
Definition c04_D : bool -> Z -> Z -> num_f64 := fun z mn j => nZ (mn + 7 + j).
Definition c04_C : bool -> Z -> Z -> Z -> num_f64 :=
  fun z mn k j => nfrac (mn + 2 * k + 1) (if z then 7 + j else 3 + j).
Definition c04_loc (b : Z -> Z * Z) : Z -> @local num_f64 := fun t =>
  mkLocal (fun z i => c04_A z (i mod 3) (i / 3 + fst (b t)))
          (fun z i => c04_D z (i mod 3) (i / 3 + fst (b t)))
          (fun z i => c04_A z (i mod 3) (i / 3 + fst (b t)))
          (fun z k i => c04_C z (i mod 3) k (i / 3 + fst (b t))).
Definition c04_shape := mkShape 5 3 2 (fun mn => if mn =? 0 then 0 else 1) (last_row 5 false false).
Definition c04_h0 (v : Z) : @shared num_f64 :=
  fun _ _ => mkTri (fun _ => nZ v) (fun _ => nZ v) (fun _ => nZ v) (fun _ => nZ v).
Definition c04_out (T v : Z) : Z -> @local num_f64 :=
  let b := radial_bounds T 5 false in
  snd (apply_rz c04_shape b (rev (all_pairs c04_shape b T)) (rev (all_modes c04_shape T))
         (rev (all_pairs c04_shape b T)) (c04_h0 v) (c04_loc b)).

Example C04_instance :
  distributed 3 2 2 (radial_bounds 2 5 false) c04_A c04_D c04_A c04_C
    (c04_loc (radial_bounds 2 5 false)) /\
  map (fun t => map (fun i => lc (c04_out 2 17 t) true 1 i) (zrange 0 6)) [0; 1] =
  map (fun t => map (fun i => lc (c04_out 1 23 0) true 1 (i + 6 * t)) (zrange 0 6)) [0; 1] /\
  neq (lc (c04_out 2 17 1) true 1 3) (c04_C true 0 1 3) = false.
Proof.
  split; [|split; vm_compute; reflexivity].
  intros t jF mn z Ht Hj Hm idx.
  assert (E1 : idx mod 3 = mn) by (subst idx; rewrite Z.add_comm, Z.mod_add by lia; apply Z.mod_small; lia).
  assert (E2 : idx / 3 + fst (radial_bounds 2 5 false t) = jF)
    by (subst idx; rewrite Z.div_add_l by lia; rewrite Z.div_small by lia; lia).
  cbn [la ld lb lc c04_loc]. rewrite E1, E2. auto.
Qed.
