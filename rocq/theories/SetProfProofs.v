(** set_profile in exact arithmetic: knots increasing and containing all surfaces. *)
From Coq Require Import String ZArith List Bool Reals Lia Lra.
From Verif Require Import Base BaseLemmas Num IndataModel IndataProofs IndataCheck ContModel ContProofs ContSpec ContReal
  ProfileModel ProfileSpec LineProofs MgSpec SetProfModel.
Import ListNotations.
Notation pos := MgSpec.pos.
Open Scope R_scope.

Local Notation ins := (insert (K := num_R)).

(** strictly increasing, in a form suited to insertion *)
Fixpoint asc (l : list R) : Prop := match l with [] => True | a :: r => (forall b, In b r -> a < b) /\ asc r end.

Lemma Rlt_b a b : @nlt num_R a b = true <-> a < b.
Proof. change (@nlt num_R a b) with (Rltb a b). unfold Rltb. destruct (Rlt_dec a b); split; intros; auto; discriminate. Qed.
Lemma Req_b a b : @neq num_R a b = true <-> a = b.
Proof. change (@neq num_R a b) with (Reqb a b). unfold Reqb. destruct (Req_EM_T a b); split; intros; auto; discriminate. Qed.

Lemma insert_In (x : R) l y : In y (ins x l) <-> y = x \/ In y l.
Proof.
  induction l as [|a r IH].
  - cbn. intuition.
  - cbn [insert]. destruct (@nlt num_R x a) eqn:E; [cbn; intuition|]. destruct (@neq num_R x a) eqn:E2.
    + apply Req_b in E2. subst. cbn. intuition.
    + cbn [In]. rewrite IH. intuition.
Qed.
Lemma insert_asc (x : R) l : asc l -> asc (ins x l).
Proof.
  induction l as [|a r IH]; intros A.
  - cbn. split; [intros b []|exact I].
  - cbn [asc] in A. destruct A as (P1 & P2). cbn [insert]. destruct (@nlt num_R x a) eqn:E.
    + apply Rlt_b in E. cbn [asc]. split; [|split; assumption]. intros b [<-|Hb]; [exact E|]. apply P1 in Hb. change R in x. lra.
    + destruct (@neq num_R x a) eqn:E2; [split; assumption|].
      cbn [asc]. split; [|apply IH; exact P2]. intros b Hb. apply insert_In in Hb. destruct Hb as [->|Hb]; [|apply P1; exact Hb].
      assert (~ x < a) by (intros H; apply Rlt_b in H; congruence). assert (x <> a) by (intros H'; apply Req_b in H'; congruence). lra.
Qed.
Lemma insert_all_In xs : forall l (y : R), In y (insert_all (K := num_R) xs l) <-> In y xs \/ In y l.
Proof.
  induction xs as [|x xs IH]; intros l y; unfold insert_all; cbn [fold_left]; [cbn; intuition|].
  fold (insert_all (K := num_R) xs (ins x l)). rewrite IH, insert_In. cbn [In]. intuition.
Qed.
Lemma insert_all_asc xs : forall l, asc l -> asc (insert_all (K := num_R) xs l).
Proof.
  induction xs as [|x xs IH]; intros l A; unfold insert_all; cbn [fold_left]; [exact A|]. apply IH, insert_asc, A.
Qed.
Lemma asc_increasing l : asc l -> increasing l.
Proof.
  induction l as [|a r IH]; intros A i j H; [cbn in H; lia|]. cbn [asc] in A. destruct A as (P1 & P2). destruct j as [|j]; [lia|]. cbn [length] in H.
  destruct i as [|i]; cbn [nth]; [apply P1, nth_In; lia|]. apply IH; [exact P2|lia].
Qed.

(** half grid *)
Definition half_pos' (ns j : Z) : R := (IZR j - 1 / 2) / (IZR ns - 1).
Lemma nth_In' (l : list R) i : (0 <= i < zlen l)%Z -> In (znth l i 0) l.
Proof. intros H. apply nth_In. unfold zlen in H. lia. Qed.

Lemma half_grid_R ns : (2 <= ns)%Z -> exists h, half_grid (K := num_R) (linspace ns) = Ok h /\
  forall j, (0 <= j < ns)%Z -> In (pos ns j - / 2 * (pos ns 1 - pos ns 0)) h.
Proof.
  intros Hn. set (l := linspace (K := num_R) ns). assert (L : zlen l = ns) by (apply linspace_R_zlen; lia).
  destruct l as [|a [|b r]] eqn:E.
  - cbn in L. lia.
  - unfold zlen in L. cbn in L. lia.
  - cbn [half_grid]. eexists. split; [reflexivity|]. intros j Hj.
    assert (A : a = pos ns 0) by (rewrite <- (linspace_R ns 0) by lia; fold l; rewrite E; reflexivity).
    assert (B : b = pos ns 1) by (rewrite <- (linspace_R ns 1) by lia; fold l; rewrite E; reflexivity).
    assert (J : In (pos ns j) l) by (rewrite <- (linspace_R ns j) by lia; apply nth_In'; fold l; rewrite E; exact (conj (proj1 Hj) (eq_ind_r (fun z => (j < z)%Z) (proj2 Hj) L))).
    rewrite E in J. rewrite <- A, <- B. apply in_map_iff. exists (pos ns j). split; [|exact J].
    change (pos ns j - (1 / 2) * (b - a) = pos ns j - / 2 * (b - a)). lra.
Qed.

Lemma collect_R nss : forall acc, asc acc -> (forall ns, In ns nss -> (2 <= ns)%Z) -> exists l, collect (K := num_R) nss acc = Ok l /\ asc l /\
  (forall y, In y acc -> In y l) /\
  forall ns, In ns nss -> forall j, (0 <= j < ns)%Z -> In (pos ns j) l /\ In (pos ns j - / 2 * (pos ns 1 - pos ns 0)) l.
Proof.
  induction nss as [|n nss IH]; intros acc A H.
  - exists acc. cbn [collect]. split; [reflexivity|]. split; [exact A|]. split; [auto|]. intros ns [].
  - assert (Hn : (2 <= n)%Z) by (apply H; left; reflexivity). cbn [collect]. destruct (Z.ltb_spec n 0); [lia|]. cbv zeta.
    destruct (half_grid_R n Hn) as (h & Eh & Hh). rewrite Eh. cbn [obind].
    destruct (IH (insert_all (K := num_R) h (insert_all (K := num_R) (linspace n) acc))) as (l & E & Al & Hk & Hc).
    + apply insert_all_asc, insert_all_asc, A.
    + intros ns Hin. apply H. right. exact Hin.
    + exists l. split; [exact E|]. split; [exact Al|]. split.
      * intros y Hy. apply Hk. rewrite insert_all_In, insert_all_In. auto.
      * intros ns [<-|Hin] j Hj; [|apply Hc; assumption]. split; apply Hk; rewrite insert_all_In.
        -- right. rewrite insert_all_In. left. rewrite <- (linspace_R n j) by lia. apply nth_In'. rewrite linspace_R_zlen; lia.
        -- left. apply Hh. exact Hj.
Qed.

Lemma interp_exact (knots : list R) (f : R -> R) s : increasing knots -> (2 <= List.length knots)%nat -> In s knots ->
  evalLineSegment knots (map f knots) s = f s.
Proof.
  intros Hi H2 Hs. destruct (In_nth knots s 0 Hs) as (k & Hk & <-).
  rewrite (line_interpolates knots (map f knots) H2 (map_length _ _) Hi k Hk).
  rewrite (nth_indep _ 0 (f 0)) by (rewrite map_length; exact Hk). apply map_nth.
Qed.

(** The model over an arbitrary arithmetic, taken at the reals, is the one of ProfileModel. *)
Lemma lower_bound_R l x : SetProfModel.lower_bound (K := num_R) l x = ProfileModel.lower_bound l x.
Proof. induction l as [|a r IH]; [reflexivity|]. cbn. rewrite IH. reflexivity. Qed.
Lemma line_segment_R knots values x : line_segment (K := num_R) knots values x = evalLineSegment knots values x.
Proof. unfold line_segment, evalLineSegment. rewrite lower_bound_R. reflexivity. Qed.

Lemma full_pos_pos ns j : full_pos ns j = pos ns j.
Proof. unfold full_pos, pos. rewrite minus_IZR. reflexivity. Qed.
Lemma half_pos_pos ns j : (2 <= ns)%Z -> half_pos ns j = pos ns (j + 1) - / 2 * (pos ns 1 - pos ns 0).
Proof.
  intros H. unfold half_pos, pos. rewrite minus_IZR, plus_IZR. assert (IZR ns >= 2) by (apply Rle_ge, IZR_le, H). field. lra.
Qed.
