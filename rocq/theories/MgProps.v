(** C43: refinement of the radial grid. *)
From Coq Require Import ZArith List Bool Lia Reals Lra.
From Verif Require Import Base BaseLemmas Num PartModel PartProofs ReduceModel ReduceProps StepModel
  StepProofs StepTeam MgModel MgSpec MgProofs MgReal.
Import ListNotations.
Open Scope Z_scope.

(** The scaling of the new grid: every thread has its piece of a common
    non-zero table. *)
Definition common_scale {K : num} (T : Z) (r : Z -> rpart) (scalxc : Z -> Z -> K) (sc : Z -> Z -> K) : Prop :=
  forall t j p, 0 <= t < T -> nsMinF1 (r t) <= j < nsMaxF1 (r t) -> 0 <= p < 2 ->
    scalxc t ((j - nsMinF1 (r t)) * 2 + p) = sc j p.

(** C43: whatever the arithmetic, the refined coefficients do not depend on the
    numbers of threads before and after the refinement, and all copies of a
    surface agree. *)
Theorem C43_thread_independent :
  forall (K : num) (nsqrt : K -> K) mpol ntor lthreed lasym sch ns_old ns_new,
    0 <= mpol -> 0 <= ntor -> 3 <= ns_old -> 3 <= ns_new ->
  forall (g : Z -> Z -> Z -> Z -> K) (sc : Z -> Z -> K),
  exists h : Z -> Z -> Z -> Z -> K,
  forall T_old T_new lf_old lf_new r_old r_new scalxc x_old x_new,
    is_partition ns_old T_old lf_old r_old -> is_partition ns_new T_new lf_new r_new ->
    common_scale T_new r_new scalxc sc ->
    holds mpol ntor (coef_sets lthreed lasym) T_old r_old x_old g ->
    holds mpol ntor (coef_sets lthreed lasym) T_new r_new
      (InterpolateToNextMultigridStep nsqrt mpol ntor (coef_sets lthreed lasym) sch ns_new ns_old
         T_old T_new r_old r_new scalxc x_new x_old) h.
Proof.
  intros K nsqrt mpol ntor a b sch ns_old ns_new Hm Hn Ho Hw g sc.
  eexists. intros T_old T_new lf_old lf_new r_old r_new scalxc x_old x_new P1 P2 Hs Hh.
  exact (interpolate_ok nsqrt mpol ntor _ ns_old ns_new T_old T_new lf_old lf_new r_old r_new P1 P2 Ho Hw sch x_old x_new g scalxc sc Hh Hs).
Qed.
Print Assumptions C43_thread_independent.

(** C43: every read is inside the array of a thread that stores that coarse
    surface. *)
Theorem C43_reads_only_coarse_surfaces :
  forall (K : num) (nsqrt : K -> K) mpol ntor sch ns_old ns_new T_old lf_old r_old,
    0 <= mpol -> 0 <= ntor -> 3 <= ns_old -> 3 <= ns_new ->
    is_partition ns_old T_old lf_old r_old ->
  forall jNew j (w : K) m n, 0 <= jNew < ns_new ->
    In (j, w) (stencil nsqrt sch ns_old ns_new jNew) -> 0 <= m < mpol -> 0 <= n <= ntor ->
    let t := source_thread T_old r_old j in
    0 <= j < ns_old /\ 0 <= t < T_old /\
    0 <= idx_fc mpol ntor (r_old t) j m n < (nsMaxF1 (r_old t) - nsMinF1 (r_old t)) * (mpol * (ntor + 1)).
Proof.
  intros K nsqrt mpol ntor sch ns_old ns_new T_old lf r_old Hm Hn Ho Hw Hp jNew j w m n Hj I Hm' Hn' t.
  pose proof (stencil_range nsqrt ns_old ns_new Ho Hw sch jNew (j, w) Hj I) as R. cbn in R.
  pose proof (source_thread_ok mpol ntor ns_old T_old lf r_old Hp j R) as S. cbv zeta in S. fold t in S.
  split; [exact R|]. split; [tauto|]. unfold idx_fc. destruct S as [_ S].
  replace (((j - nsMinF1 (r_old t)) * mpol + m) * (ntor + 1) + n)
    with ((j - nsMinF1 (r_old t)) * (mpol * (ntor + 1)) + (m * (ntor + 1) + n)) by ring.
  apply GridLemmas.flat_bound; [nia|exact S].
Qed.
Print Assumptions C43_reads_only_coarse_surfaces.

(** Exact arithmetic. [g q j m n] is the coefficient on coarse surface [j],
    multiplied by the coarse scaling (its physical value); the physical value on
    the new grid is the stored value times the new scaling. *)
Definition refined (mpol ntor : Z) (lthreed lasym : bool) (sch : scheme) (ns_old ns_new : Z)
    (T_old T_new : Z) (r_old r_new : Z -> rpart) (scalxc : Z -> Z -> R)
    (x_new x_old : Z -> Z -> Z -> R) : Z -> Z -> Z -> R :=
  InterpolateToNextMultigridStep (K := num_R) sqrt mpol ntor (coef_sets lthreed lasym) sch ns_new ns_old
    T_old T_new r_old r_new scalxc x_new x_old.

(** Physical value on surface [j] of the new grid, as stored by any thread. *)
Definition new_value (mpol ntor : Z) (r_new : Z -> rpart) (scalxc : Z -> Z -> R)
    (x : Z -> Z -> Z -> R) (t j q m n : Z) : R :=
  (scalxc t ((j - nsMinF1 (r_new t)) * 2 + m mod 2)%Z * x t q (idx_fc mpol ntor (r_new t) j m n))%R.

Record setting (mpol ntor : Z) (lthreed lasym : bool) (ns_old ns_new T_old T_new : Z)
    (r_old r_new : Z -> rpart) (scalxc sc : Z -> Z -> R) (x_old : Z -> Z -> Z -> R)
    (g : Z -> Z -> Z -> Z -> R) : Prop := {
  set_mpol : 0 <= mpol;
  set_ntor : 0 <= ntor;
  set_old : 3 <= ns_old;
  set_new : 3 <= ns_new;
  set_pold : exists lf, is_partition ns_old T_old lf r_old;
  set_pnew : exists lf, is_partition ns_new T_new lf r_new;
  set_scale : common_scale (K := num_R) T_new r_new scalxc sc;
  set_nz : forall j p, sc j p <> 0%R;
  set_x : holds (K := num_R) mpol ntor (coef_sets lthreed lasym) T_old r_old x_old g }.

Definition stored (mpol ntor : Z) (lthreed lasym : bool) (T_new : Z) (r_new : Z -> rpart) (t j q m n : Z) : Prop :=
  0 <= t < T_new /\ nsMinF1 (r_new t) <= j < nsMaxF1 (r_new t) /\
  In q (coef_sets lthreed lasym) /\ 0 <= m < mpol /\ 0 <= n <= ntor.

Lemma refined_value mpol ntor a b sch ns_old ns_new T_old T_new r_old r_new scalxc sc x_new x_old g :
  setting mpol ntor a b ns_old ns_new T_old T_new r_old r_new scalxc sc x_old g ->
  forall t j q m n, stored mpol ntor a b T_new r_new t j q m n ->
  new_value mpol ntor r_new scalxc
    (refined mpol ntor a b sch ns_old ns_new T_old T_new r_old r_new scalxc x_new x_old) t j q m n
  = if Z.odd m && (j =? 0) then 0%R
    else mg_value sch ns_old ns_new j (axis_line (Z.odd m) (fun i => g q i m n)).
Proof.
  intros [Hm Hn Ho Hw (lf1 & P1) (lf2 & P2) Hs Hz Hx] t j q m n (Ht & Hj & Hq & Hm' & Hn').
  unfold new_value, refined.
  pose proof (interpolate_ok (K := num_R) sqrt mpol ntor _ ns_old ns_new T_old T_new lf1 lf2 r_old r_new P1 P2
    Ho Hw sch x_old x_new g scalxc sc Hx Hs) as H.
  rewrite (H t j q m n Ht Hj Hq Hm' Hn'). cbv beta.
  rewrite (Hs t j (m mod 2) Ht Hj (Z.mod_pos_bound m 2 ltac:(lia))).
  destruct (Z.odd m && (j =? 0)); [apply Rmult_0_r|].
  unfold fine. cbn [nadd nmul ndiv nZ num_R].
  assert (E : forall l v, fold_left (fun (v : R) jw => (v + snd jw * gax (K := num_R) g q (fst jw) m n)%R) l v
      = fold_left (fun v jw => (v + snd jw * axis_line (Z.odd m) (fun i => g q i m n) (fst jw))%R) l v).
  { intros l. apply fold_ext'. intros v jw _. unfold gax, axis_line. cbn. reflexivity. }
  rewrite E. unfold mg_value. field. apply Hz.
Qed.

(** C43: the boundary is unchanged. *)
Theorem C43_boundary_unchanged :
  forall mpol ntor lthreed lasym sch ns_old ns_new T_old T_new r_old r_new scalxc sc x_new x_old g,
    setting mpol ntor lthreed lasym ns_old ns_new T_old T_new r_old r_new scalxc sc x_old g ->
  forall t q m n, stored mpol ntor lthreed lasym T_new r_new t (ns_new - 1) q m n ->
    new_value mpol ntor r_new scalxc
      (refined mpol ntor lthreed lasym sch ns_old ns_new T_old T_new r_old r_new scalxc x_new x_old)
      t (ns_new - 1) q m n
    = g q (ns_old - 1) m n.
Proof.
  intros mpol ntor a b sch ns_old ns_new T_old T_new r_old r_new scalxc sc x_new x_old g H t q m n Hst.
  rewrite (refined_value _ _ _ _ _ _ _ _ _ _ _ _ _ _ _ _ H _ _ _ _ _ Hst).
  destruct H. replace (ns_new - 1 =? 0) with false by (symmetry; apply Z.eqb_neq; lia).
  rewrite andb_false_r.
  rewrite (coincide ns_old ns_new set_old0 set_new0 sch (ns_new - 1) (ns_old - 1)) by lia.
  unfold axis_line. replace (ns_old - 1 =? 0) with false by (symmetry; apply Z.eqb_neq; lia).
  rewrite andb_false_r. reflexivity.
Qed.
Print Assumptions C43_boundary_unchanged.

(** C43: at radial positions common to both grids the coarse values are
    reproduced (off the axis for odd m). *)
Theorem C43_coincident_surfaces :
  forall mpol ntor lthreed lasym sch ns_old ns_new T_old T_new r_old r_new scalxc sc x_new x_old g,
    setting mpol ntor lthreed lasym ns_old ns_new T_old T_new r_old r_new scalxc sc x_old g ->
  forall t j i q m n, stored mpol ntor lthreed lasym T_new r_new t j q m n ->
    0 <= i < ns_old -> pos ns_new j = pos ns_old i -> (Z.even m = true \/ 0 < i) ->
    new_value mpol ntor r_new scalxc
      (refined mpol ntor lthreed lasym sch ns_old ns_new T_old T_new r_old r_new scalxc x_new x_old) t j q m n
    = g q i m n.
Proof.
  intros mpol ntor a b sch ns_old ns_new T_old T_new r_old r_new scalxc sc x_new x_old g H t j i q m n Hst Hi Hp Hor.
  rewrite (refined_value _ _ _ _ _ _ _ _ _ _ _ _ _ _ _ _ H _ _ _ _ _ Hst).
  destruct H as [Hm Hn Ho Hw (lf1 & P1) (lf2 & P2) Hs Hz Hx].
  assert (E : j * (ns_old - 1) = i * (ns_new - 1)).
  { apply eq_IZR. rewrite !mult_IZR. unfold pos in Hp.
    pose proof (o1 ns_old Ho) as A. pose proof (n1 ns_new Hw) as B.
    assert (Q : (IZR j / IZR (ns_new - 1) * (IZR (ns_new - 1) * IZR (ns_old - 1))
                 = IZR i / IZR (ns_old - 1) * (IZR (ns_new - 1) * IZR (ns_old - 1)))%R) by (rewrite Hp; reflexivity).
    field_simplify in Q; lra. }
  destruct Hst as (Ht & Hj & _).
  pose proof (held_in_range mpol ntor ns_new lf2 T_new r_new P2 t j Ht Hj) as Hjr.
  assert (Ej : Z.odd m && (j =? 0) = false).
  { rewrite <- Z.negb_even. destruct Hor as [-> | Hi0]; [reflexivity|].
    replace (j =? 0) with false by (symmetry; apply Z.eqb_neq; nia). apply andb_false_r. }
  rewrite Ej. rewrite (coincide ns_old ns_new Ho Hw sch j i) by assumption.
  unfold axis_line. rewrite <- Z.negb_even. destruct Hor as [-> | Hi0]; [reflexivity|].
  replace (i =? 0) with false by (symmetry; apply Z.eqb_neq; lia). rewrite andb_false_r. reflexivity.
Qed.
Print Assumptions C43_coincident_surfaces.

(** C43: odd-m coefficients vanish on the axis, in any arithmetic. *)
Theorem C43_axis_odd_zero :
  forall (K : num) (nsqrt : K -> K) mpol ntor lthreed lasym sch ns_old ns_new T_old T_new lf_old lf_new
         r_old r_new scalxc sc x_old x_new g,
    0 <= mpol -> 0 <= ntor -> 3 <= ns_old -> 3 <= ns_new ->
    is_partition ns_old T_old lf_old r_old -> is_partition ns_new T_new lf_new r_new ->
    common_scale T_new r_new scalxc sc ->
    holds mpol ntor (coef_sets lthreed lasym) T_old r_old x_old g ->
  forall t q m n, 0 <= t < T_new -> nsMinF1 (r_new t) = 0 -> In q (coef_sets lthreed lasym) ->
    0 <= m < mpol -> 0 <= n <= ntor -> Z.odd m = true ->
    InterpolateToNextMultigridStep nsqrt mpol ntor (coef_sets lthreed lasym) sch ns_new ns_old
       T_old T_new r_old r_new scalxc x_new x_old t q (m * (ntor + 1) + n) = (nZ 0 : K).
Proof.
  intros K nsqrt mpol ntor a b sch ns_old ns_new T_old T_new lf1 lf2 r_old r_new scalxc sc x_old x_new g
    Hm Hn Ho Hw P1 P2 Hs Hx t q m n Ht Hmin Hq Hm' Hn' O.
  pose proof (interpolate_ok nsqrt mpol ntor _ ns_old ns_new T_old T_new lf1 lf2 r_old r_new P1 P2
    Ho Hw sch x_old x_new g scalxc sc Hx Hs) as H.
  pose proof (facts mpol ntor ns_new lf2 T_new r_new P2 t Ht) as F.
  specialize (H t 0 q m n Ht ltac:(destruct (Z.eqb_spec t (T_new - 1)); lia) Hq Hm' Hn').
  cbv beta in H. rewrite O in H. cbn [Z.eqb andb] in H.
  rewrite <- H. f_equal. unfold idx_fc. rewrite Hmin. ring.
Qed.
Print Assumptions C43_axis_odd_zero.

(** C62: the default linear scheme creates no new extremum: between bounds of the
    coarse values (with the extrapolated axis value) lie the fine values. *)
Theorem C62_linear_no_overshoot :
  forall mpol ntor lthreed lasym ns_old ns_new T_old T_new r_old r_new scalxc sc x_new x_old g,
    setting mpol ntor lthreed lasym ns_old ns_new T_old T_new r_old r_new scalxc sc x_old g ->
  forall t j q m n lo hi, stored mpol ntor lthreed lasym T_new r_new t j q m n -> 0 < j ->
    (forall i, 0 <= i < ns_old -> (lo <= axis_line (Z.odd m) (fun i => g q i m n) i <= hi)%R) ->
    (lo <= new_value mpol ntor r_new scalxc
      (refined mpol ntor lthreed lasym kLinear ns_old ns_new T_old T_new r_old r_new scalxc x_new x_old) t j q m n
     <= hi)%R.
Proof.
  intros mpol ntor a b ns_old ns_new T_old T_new r_old r_new scalxc sc x_new x_old g H t j q m n lo hi Hst Hj G.
  rewrite (refined_value _ _ _ _ _ _ _ _ _ _ _ _ _ _ _ _ H _ _ _ _ _ Hst).
  destruct H as [Hm Hn Ho Hw (lf1 & P1) (lf2 & P2) Hs Hz Hx].
  replace (j =? 0) with false by (symmetry; apply Z.eqb_neq; lia). rewrite andb_false_r.
  destruct Hst as (Ht & Hjr & _).
  pose proof (held_in_range mpol ntor ns_new lf2 T_new r_new P2 t j Ht Hjr).
  apply (linear_between ns_old ns_new Ho Hw j _ lo hi); [lia|exact G].
Qed.
Print Assumptions C62_linear_no_overshoot.

(** C62: coefficients that are polynomials of degree at most 3 in the normalised
    radius s (scheme "cubic") or in its square root (scheme "cubic_rho") are
    refined without error, whatever the grids; for the linear scheme straight
    lines are. *)
Theorem C62_polynomials_exact :
  forall mpol ntor lthreed lasym sch ns_old ns_new T_old T_new r_old r_new scalxc sc x_new x_old g,
    setting mpol ntor lthreed lasym ns_old ns_new T_old T_new r_old r_new scalxc sc x_old g ->
  forall t j q m n a b c d (u : R -> R), stored mpol ntor lthreed lasym T_new r_new t j q m n -> Z.even m = true ->
    match sch with
    | kLinear => u = (fun s => s) /\ c = 0%R /\ d = 0%R
    | kCubic => u = (fun s => s) /\ 4 <= ns_old
    | kCubicRho => u = sqrt /\ 4 <= ns_old
    end ->
    (forall i, 0 <= i < ns_old -> g q i m n = cubic a b c d (u (pos ns_old i))) ->
    new_value mpol ntor r_new scalxc
      (refined mpol ntor lthreed lasym sch ns_old ns_new T_old T_new r_old r_new scalxc x_new x_old) t j q m n
    = cubic a b c d (u (pos ns_new j)).
Proof.
  intros mpol ntor la lb sch ns_old ns_new T_old T_new r_old r_new scalxc sc x_new x_old g H t j q m n a b c d u Hst Ev Hu G.
  rewrite (refined_value _ _ _ _ _ _ _ _ _ _ _ _ _ _ _ _ H _ _ _ _ _ Hst).
  destruct H as [Hm Hn Ho Hw (lf1 & P1) (lf2 & P2) Hs Hz Hx].
  destruct Hst as (Ht & Hjr & _).
  pose proof (held_in_range mpol ntor ns_new lf2 T_new r_new P2 t j Ht Hjr) as Hj.
  rewrite <- Z.negb_even, Ev. cbn [negb andb].
  transitivity (mg_value sch ns_old ns_new j (fun i => cubic a b c d (u (pos ns_old i)))).
  { unfold mg_value. apply fold_ext'. intros v jw I.
    pose proof (stencil_range (K := num_R) sqrt ns_old ns_new Ho Hw sch j jw Hj I) as R.
    unfold axis_line. cbn [andb]. rewrite (G (fst jw) R). reflexivity. }
  destruct sch.
  - destruct Hu as (-> & -> & ->).
    transitivity (mg_value kLinear ns_old ns_new j (fun i => (a + b * pos ns_old i)%R)).
    { unfold mg_value. apply fold_ext'. intros v jw I. f_equal. f_equal. unfold cubic. ring. }
    rewrite linear_exact by lia. unfold cubic. ring.
  - destruct Hu as (-> & H4). exact (cubic_exact ns_old ns_new Ho false j a b c d H4 ltac:(lia)).
  - destruct Hu as (-> & H4). exact (cubic_exact ns_old ns_new Ho true j a b c d H4 ltac:(lia)).
Qed.
Print Assumptions C62_polynomials_exact.

(** C43, rounding: in binary64 arithmetic the cubic schemes do not leave the
    boundary exactly unchanged, contrary to the comment at vmec.cc:1944-1946. With
    50 coarse and 99 fine surfaces a coefficient that is exactly zero on the
    boundary gets a non-zero boundary value. *)
Definition mg_value_b64 (sch : scheme) (ns_old ns_new jNew : Z) (g : Z -> num_f64) : num_f64 :=
  fold_left (fun v jw => nadd v (nmul (snd jw) (g (fst jw))))
    (stencil (K := num_f64) (fun x => x) sch ns_old ns_new jNew) (nZ 0).

Theorem C43_cubic_boundary_rounding_refuted :
  exists ns_old ns_new (g : Z -> num_f64),
    4 <= ns_old /\ ns_old < ns_new /\ g (ns_old - 1) = nZ 0 /\
    nlt (nZ 0) (nabs (mg_value_b64 kCubic ns_old ns_new (ns_new - 1) g)) = true.
Proof.
  exists 50, 99, (fun j => if j =? 48 then nZ 1 else nZ 0).
  repeat split; try lia; vm_compute; reflexivity.
Qed.
Print Assumptions C43_cubic_boundary_rounding_refuted.

(** A case: 5 surfaces on 2 threads refined to 9 surfaces on 3 threads. *)
Example C43_case : exists scalxc sc x_old g,
  setting 2 1 true false 5 9 2 3 (fun t => rp_closed 2 t 5 false) (fun t => rp_closed 3 t 9 false)
    scalxc sc x_old g /\ g 0 4 1 0 <> 0%R /\
  stored 2 1 true false 3 (fun t => rp_closed 3 t 9 false) 2 8 0 1 0.
Proof.
  exists (fun _ _ => 2%R), (fun _ _ => 2%R), (fun _ _ _ => 3%R), (fun _ _ _ _ => 3%R).
  split; [|split].
  - constructor; try lia.
    + exists false. split; [lia|split; [lia|]]. intros t Ht. apply adjust_ok; lia.
    + exists false. split; [lia|split; [lia|]]. intros t Ht. apply adjust_ok; lia.
    + intros t j p _ _ _. reflexivity.
    + intros. lra.
    + intros t j q m n _ _ _ _ _. reflexivity.
  - lra.
  - unfold stored. repeat split; try lia; try (vm_compute; congruence); try (vm_compute; reflexivity). left. reflexivity.
Qed.
