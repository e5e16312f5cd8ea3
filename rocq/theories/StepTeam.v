(** The time step executed by a team of threads. *)
From Coq Require Import ZArith List Bool Lia FunctionalExtensionality.
From Verif Require Import Base BaseLemmas GridLemmas Num PartModel PartSpec PartProofs
  OmpModel OmpProofs OmpDet ReduceModel ReduceProps StepModel StepSpec StepProofs.
Import ListNotations.
Open Scope Z_scope.

Section Team.
  Context {K : num} (mpol ntor : Z) (sets : list Z) (ns : Z) (lfreeb : bool) (T : Z)
          (part : Z -> rpart).
  Hypothesis Hmpol : 0 <= mpol.
  Hypothesis Hntor : 0 <= ntor + 1.
  Hypothesis Hsets : NoDup sets.
  Hypothesis Hpart : is_partition ns T lfreeb part.
  Let mns := mnsize mpol ntor.
  Implicit Types (fac b dt : K) (f : Z -> Z -> Z -> K) (s : @state K) (e : @event K) (l : list (@event K)).
  Local Notation st := (@state K).
  Local Notation ev := (do_evolve mpol ntor sets part).
  Local Notation po := (do_put_o mpol ntor sets part).
  Local Notation pi := (do_put_i mpol ntor sets ns part).
  Local Notation go := (do_get_o mpol ntor sets ns part).
  Local Notation gi := (do_get_i mpol ntor sets part).

  (** Commutation. *)
  Ltac comm := intros t u s _ _ Htu; destruct s; unfold do_evolve, do_put_o, do_put_i, do_get_o,
    do_get_i, do_restore, do_save;
    repeat match goal with |- context [if ?b then _ else _] => destruct b end; cbn;
    rewrite ?upd_neq by lia; try reflexivity;
    try (f_equal; try reflexivity; apply upd_comm; lia).

  Lemma ev_ev fac b1 dt f : commutes (S := st) T (ev fac b1 dt f) (ev fac b1 dt f).
  Proof. comm. Qed.
  Lemma ev_po fac b1 dt f : commutes (S := st) T (ev fac b1 dt f) po.
  Proof. comm. Qed.
  Lemma ev_pi fac b1 dt f : commutes (S := st) T (ev fac b1 dt f) pi.
  Proof. comm. Qed.
  Lemma po_po : commutes (S := st) T po po.
  Proof. comm. Qed.
  Lemma po_pi : commutes (S := st) T po pi.
  Proof. comm. Qed.
  Lemma pi_pi : commutes (S := st) T pi pi.
  Proof. comm. Qed.
  Lemma go_go : commutes (S := st) T go go.
  Proof. comm. Qed.
  Lemma go_gi : commutes (S := st) T go gi.
  Proof. comm. Qed.
  Lemma gi_gi : commutes (S := st) T gi gi.
  Proof. comm. Qed.
  Lemma re_re : commutes (S := st) T do_restore do_restore.
  Proof. comm. Qed.
  Lemma sa_sa : commutes (S := st) T do_save do_save.
  Proof. comm. Qed.
  Lemma commutes_sym (f g : Z -> st -> st) : commutes (S := st) T f g -> commutes T g f.
  Proof. intros H t u s Ht Hu Htu. symmetry. apply H; auto. Qed.

  Local Opaque do_evolve do_put_o do_put_i do_get_o do_get_i do_restore do_save.

  Lemma race_step fac b1 dt f : race_free (step_prog mpol ntor sets ns part fac b1 dt f) T.
  Proof.
    change (step_prog mpol ntor sets ns part fac b1 dt f) with
      ([IBarrier; ICritical (ev fac b1 dt f); ICritical po; ICritical pi] ++
       IBarrier :: [ICritical go; ICritical gi; IBarrier; IBarrier]).
    apply race_free_app; apply race_free_all; intros f0 g0 H1 H2; cbn in H1, H2;
      repeat match goal with H : _ \/ _ |- _ => destruct H end; try discriminate; try contradiction;
      repeat match goal with H : ICritical _ = ICritical _ |- _ => injection H as <- end;
      first [apply ev_ev | apply ev_po | apply ev_pi | apply po_po | apply po_pi | apply pi_pi
            | apply go_go | apply go_gi | apply gi_gi
            | apply commutes_sym, ev_po | apply commutes_sym, ev_pi | apply commutes_sym, po_pi
            | apply commutes_sym, go_gi].
  Qed.

  Lemma race_event e : race_free (event_prog mpol ntor sets ns part e) T.
  Proof.
    destruct e as [fac b1 dt f| |]; [apply race_step| |];
      apply race_free_all; intros f0 g0 H1 H2; cbn in H1, H2;
      repeat match goal with H : _ \/ _ |- _ => destruct H end; try discriminate; try contradiction;
      repeat match goal with H : ICritical _ = ICritical _ |- _ => injection H as <- end.
    - apply sa_sa.
    - apply re_re.
  Qed.

  Local Transparent do_evolve do_put_o do_put_i do_get_o do_get_i do_restore do_save.

  Lemma event_bar e : exists r, event_prog mpol ntor sets ns part e = IBarrier :: r.
  Proof. destruct e; eexists; reflexivity. Qed.

  Lemma race_events l : race_free (events_prog mpol ntor sets ns part l) T.
  Proof.
    induction l as [|e l IH]; [intros k ? ? ? ? H; destruct k; discriminate|].
    cbn. destruct l as [|e' l].
    - cbn. rewrite app_nil_r. apply race_event.
    - destruct (event_bar e') as [r Er].
      unfold events_prog in IH. cbn in IH |- *. rewrite Er in *. cbn in IH |- *.
      apply race_free_app; [apply race_event|exact IH].
  Qed.

  Lemma event_ns e : forall (f : st -> st), ~ In (ISingle f) (event_prog mpol ntor sets ns part e).
  Proof.
    intros f H. destruct e; cbn in H; repeat (destruct H as [H|H]; try discriminate); contradiction.
  Qed.

  Lemma events_ns l : no_single (events_prog mpol ntor sets ns part l).
  Proof.
    intros k f H. apply nth_error_In in H. unfold events_prog in H. apply in_flat_map in H.
    destruct H as (e & _ & H). exact (event_ns e f H).
  Qed.

  Lemma events_order l s : in_order (events_prog mpol ntor sets ns part l) T s
    = fold_left (fun s e => in_order (event_prog mpol ntor sets ns part e) T s) l s.
  Proof.
    revert s. induction l as [|e l IH]; intros s; [reflexivity|].
    unfold events_prog, in_order in *. cbn [flat_map fold_left]. rewrite fold_left_app. apply IH.
  Qed.

  Lemma events_result l s c :
    steps (events_prog mpol ntor sets ns part l) T (start s) c ->
    finished (events_prog mpol ntor sets ns part l) T c ->
    shared c = fold_left (fun s e => in_order (event_prog mpol ntor sets ns part e) T s) l s.
  Proof.
    intros Hs Hf. rewrite <- events_order. apply race_free_det; auto.
    - apply events_ns.
    - apply race_events.
  Qed.

  (** Facts about the partition. *)
  Let r := part.

  Lemma facts t : 0 <= t < T ->
    0 <= nsMinF (r t) < nsMaxF (r t) /\ nsMaxF (r t) <= nsMaxFIncludingLcfs (r t) /\
    nsMaxFIncludingLcfs (r t) <= nsMaxF1 (r t) /\
    nsMinF1 (r t) = (if t =? 0 then 0 else nsMinF (r t) - 1) /\
    nsMaxF1 (r t) = (if t =? T - 1 then ns else nsMaxF (r t) + 1) /\
    (t = 0 -> nsMinF (r t) = 0) /\ (0 < t -> 2 <= nsMinF (r t)) /\
    (t = T - 1 -> nsMaxFIncludingLcfs (r t) = ns) /\
    (t < T - 1 -> nsMaxFIncludingLcfs (r t) = nsMaxF (r t) /\ nsMaxF (r t) + 2 <= ns /\
       nsMinF (r (t + 1)) = nsMaxF (r t)).
  Proof.
    intros Ht. destruct Hpart as (HT & H2 & _).
    unfold r. rewrite (partition_closed ns T lfreeb part t Hpart Ht).
    pose proof (blk_bounds T ns lfreeb HT H2 t Ht) as B.
    pose proof (n_ns ns lfreeb) as Hn.
    pose proof (r_lcfs T ns lfreeb HT H2 t Ht) as L.
    set (n := num_surfaces_to_distribute ns lfreeb) in *.
    assert (N1 : t < T - 1 -> nsMinF (part (t + 1)) = blk n T (t + 1)).
    { intros. rewrite (partition_closed ns T lfreeb part (t + 1) Hpart ltac:(lia)). reflexivity. }
    cbn in L |- *. fold n in L |- *. rewrite L.
    destruct (Z.eqb_spec t 0), (Z.eqb_spec t (T - 1)), (Z.eqb_spec (t + 1) T); try lia.
  Qed.

  Lemma lo_mono t u : 0 <= t -> t <= u -> u < T -> nsMinF (r t) <= nsMinF (r u).
  Proof.
    intros Ht Htu Hu. destruct Hpart as (HT & H2 & _).
    unfold r. rewrite (partition_closed ns T lfreeb part t Hpart), (partition_closed ns T lfreeb part u Hpart) by lia.
    rewrite !(r_lo_cut T ns lfreeb) by lia. apply cut_mono; lia.
  Qed.

  Lemma owner_exists j : 0 <= j < ns ->
    exists u, 0 <= u < T /\ nsMinF (r u) <= j < nsMaxFIncludingLcfs (r u).
  Proof.
    intros Hj. destruct Hpart as (HT & H2 & _).
    destruct (r_adv_distributes T ns lfreeb HT H2) as [D _].
    destruct (D j Hj) as (u & (Hu & Ho) & _). exists u. split; [exact Hu|].
    unfold r. rewrite (partition_closed ns T lfreeb part u Hpart Hu). exact Ho.
  Qed.

  (** A stored surface is owned, or is the halo copy of the neighbour's first
      or last surface. *)
  Lemma held_cases t j : 0 <= t < T -> nsMinF1 (r t) <= j < nsMaxF1 (r t) ->
    nsMinF (r t) <= j < nsMaxFIncludingLcfs (r t) \/
    (0 < t /\ j = nsMinF1 (r t) /\ j = nsMaxF (r (t - 1)) - 1) \/
    (t < T - 1 /\ j = nsMaxF1 (r t) - 1 /\ j = nsMinF (r (t + 1))).
  Proof.
    intros Ht Hj. pose proof (facts t Ht) as F.
    destruct (Z.eqb_spec t 0), (Z.eqb_spec t (T - 1)); try lia.
    - destruct (Z.eq_dec j (nsMinF1 (r t))).
      + right; left. pose proof (facts (t - 1) ltac:(lia)) as G.
        replace (t - 1 + 1) with t in G by lia. lia.
      + lia.
    - destruct (Z.eq_dec j (nsMinF1 (r t))).
      + right; left. pose proof (facts (t - 1) ltac:(lia)) as G.
        replace (t - 1 + 1) with t in G by lia. lia.
      + lia.
  Qed.

  Lemma inside_iff t : 0 <= t < T -> hasInside (r t) = (0 <? t).
  Proof.
    intros Ht. pose proof (facts t Ht) as F. unfold hasInside.
    destruct (Z.eqb_spec t 0).
    - rewrite (Z.gtb_ltb (nsMinF1 (r t)) 0). destruct (Z.ltb_spec 0 (nsMinF1 (r t))), (Z.ltb_spec 0 t); lia.
    - rewrite (Z.gtb_ltb (nsMinF1 (r t)) 0). destruct (Z.ltb_spec 0 (nsMinF1 (r t))), (Z.ltb_spec 0 t); lia.
  Qed.

  Lemma outside_iff t : 0 <= t < T -> hasOutside ns (r t) = (t <? T - 1).
  Proof.
    intros Ht. pose proof (facts t Ht) as F. unfold hasOutside.
    destruct (Z.eqb_spec t (T - 1)); destruct (Z.ltb_spec (nsMaxF1 (r t)) ns), (Z.ltb_spec t (T - 1)); lia.
  Qed.

  (** Team-wide effect of every phase. *)
  Lemma team_evolve fac b1 dt f s :
    let s' := run_instr T (ICritical (ev fac b1 dt f)) s in
    (forall t, 0 <= t < T ->
       (sx s' t, sv s' t) = evolve_local mpol ntor sets (r t) fac b1 dt (f t) (sx s t, sv s t)) /\
    sb s' = sb s /\ so s' = so s /\ si s' = si s.
  Proof.
    cbv zeta. cbn [run_instr]. destruct Hpart as (HT & _).
    change (fold_left (fun s t => ev fac b1 dt f t s) (zrange 0 T) s) with (for_up 0 T (ev fac b1 dt f) s).
    assert (G : (forall t, 0 <= t < T ->
       (sx (for_up 0 T (ev fac b1 dt f) s) t, sv (for_up 0 T (ev fac b1 dt f) s) t)
          = evolve_local mpol ntor sets (r t) fac b1 dt (f t) (sx s t, sv s t)) /\
       (forall t, T <= t ->
         sx (for_up 0 T (ev fac b1 dt f) s) t = sx s t /\ sv (for_up 0 T (ev fac b1 dt f) s) t = sv s t) /\
       sb (for_up 0 T (ev fac b1 dt f) s) = sb s /\ so (for_up 0 T (ev fac b1 dt f) s) = so s /\
       si (for_up 0 T (ev fac b1 dt f) s) = si s).
    { apply (for_up_ind (fun m s' => (forall t, 0 <= t < m ->
         (sx s' t, sv s' t) = evolve_local mpol ntor sets (r t) fac b1 dt (f t) (sx s t, sv s t)) /\
         (forall t, m <= t -> sx s' t = sx s t /\ sv s' t = sv s t) /\
         sb s' = sb s /\ so s' = so s /\ si s' = si s)); [lia| |].
      - repeat split; auto. intros; lia.
      - intros m s' Hm (I1 & I2 & I3 & I4 & I5). unfold do_evolve. cbn.
        destruct (I2 m ltac:(lia)) as [E1 E2]. rewrite E1, E2.
        repeat split; auto.
        + intros t Ht. destruct (Z.eq_dec t m) as [-> | Htm].
          * rewrite !upd_eq. symmetry. apply surjective_pairing.
          * rewrite !upd_neq by assumption. apply I1. lia.
        + rewrite upd_neq by lia. apply I2. lia.
        + rewrite upd_neq by lia. apply I2. lia. }
    intuition.
  Qed.

  Lemma team_put_o s :
    let s' := run_instr T (ICritical po) s in
    sx s' = sx s /\ sv s' = sv s /\ sb s' = sb s /\ si s' = si s /\
    (forall t, 0 < t < T ->
       so s' (t - 1) = put_row mpol ntor sets (sx s t) (so s (t - 1)) (nsMinF (r t) - nsMinF1 (r t))).
  Proof.
    cbv zeta. cbn [run_instr]. destruct Hpart as (HT & _).
    change (fold_left (fun s t => po t s) (zrange 0 T) s) with (for_up 0 T po s).
    assert (G : sx (for_up 0 T po s) = sx s /\ sv (for_up 0 T po s) = sv s /\
      sb (for_up 0 T po s) = sb s /\ si (for_up 0 T po s) = si s /\
      (forall t, 0 < t < T ->
       so (for_up 0 T po s) (t - 1) = put_row mpol ntor sets (sx s t) (so s (t - 1)) (nsMinF (r t) - nsMinF1 (r t))) /\
      (forall t, T <= t -> so (for_up 0 T po s) (t - 1) = so s (t - 1))).
    { apply (for_up_ind (fun m s' => sx s' = sx s /\ sv s' = sv s /\
      sb s' = sb s /\ si s' = si s /\
      (forall t, 0 < t < m ->
       so s' (t - 1) = put_row mpol ntor sets (sx s t) (so s (t - 1)) (nsMinF (r t) - nsMinF1 (r t))) /\
      (forall t, m <= t -> so s' (t - 1) = so s (t - 1)))); [lia| |].
      - repeat split; auto. intros; lia.
      - intros m s' Hm (I1 & I2 & I3 & I4 & I5 & I6). unfold do_put_o.
        change (part m) with (r m). rewrite inside_iff by lia.
        destruct (Z.ltb_spec 0 m).
        + cbn. repeat split; auto.
          * intros t Ht. destruct (Z.eq_dec t m) as [-> | Htm].
            -- rewrite upd_eq, I1, I6 by lia. reflexivity.
            -- rewrite upd_neq by lia. apply I5. lia.
          * intros t Ht. rewrite upd_neq by lia. apply I6. lia.
        + repeat split; auto; intros; [apply I5|apply I6]; lia. }
    intuition.
  Qed.

  Lemma team_put_i s :
    let s' := run_instr T (ICritical pi) s in
    sx s' = sx s /\ sv s' = sv s /\ sb s' = sb s /\ so s' = so s /\
    (forall t, 0 <= t < T - 1 ->
       si s' (t + 1) = put_row mpol ntor sets (sx s t) (si s (t + 1)) (nsMaxF (r t) - 1 - nsMinF1 (r t))).
  Proof.
    cbv zeta. cbn [run_instr]. destruct Hpart as (HT & _).
    change (fold_left (fun s t => pi t s) (zrange 0 T) s) with (for_up 0 T pi s).
    assert (G : sx (for_up 0 T pi s) = sx s /\ sv (for_up 0 T pi s) = sv s /\
      sb (for_up 0 T pi s) = sb s /\ so (for_up 0 T pi s) = so s /\
      (forall t, 0 <= t < T - 1 -> t < T ->
       si (for_up 0 T pi s) (t + 1) = put_row mpol ntor sets (sx s t) (si s (t + 1)) (nsMaxF (r t) - 1 - nsMinF1 (r t))) /\
      (forall t, T <= t -> si (for_up 0 T pi s) (t + 1) = si s (t + 1))).
    { apply (for_up_ind (fun m s' => sx s' = sx s /\ sv s' = sv s /\
      sb s' = sb s /\ so s' = so s /\
      (forall t, 0 <= t < T - 1 -> t < m ->
       si s' (t + 1) = put_row mpol ntor sets (sx s t) (si s (t + 1)) (nsMaxF (r t) - 1 - nsMinF1 (r t))) /\
      (forall t, m <= t -> si s' (t + 1) = si s (t + 1)))); [lia| |].
      - repeat split; auto. intros; lia.
      - intros m s' Hm (I1 & I2 & I3 & I4 & I5 & I6). unfold do_put_i.
        change (part m) with (r m). rewrite outside_iff by lia.
        destruct (Z.ltb_spec m (T - 1)).
        + cbn. repeat split; auto.
          * intros t Ht Htm'. destruct (Z.eq_dec t m) as [-> | Htm].
            -- rewrite upd_eq, I1, I6 by lia. reflexivity.
            -- rewrite upd_neq by lia. apply I5; lia.
          * intros t Ht. rewrite upd_neq by lia. apply I6. lia.
        + repeat split; auto; intros; [apply I5|apply I6]; lia. }
    destruct G as (G1 & G2 & G3 & G4 & G5 & _). repeat split; auto. intros; apply G5; lia.
  Qed.

  Lemma team_get_o s :
    let s' := run_instr T (ICritical go) s in
    sv s' = sv s /\ sb s' = sb s /\ so s' = so s /\ si s' = si s /\
    (forall t, 0 <= t < T ->
       sx s' t = if t <? T - 1 then get_row mpol ntor sets (so s t) (sx s t) (nsMaxF1 (r t) - 1 - nsMinF1 (r t))
                 else sx s t).
  Proof.
    cbv zeta. cbn [run_instr]. destruct Hpart as (HT & _).
    change (fold_left (fun s t => go t s) (zrange 0 T) s) with (for_up 0 T go s).
    assert (G : sv (for_up 0 T go s) = sv s /\ sb (for_up 0 T go s) = sb s /\
      so (for_up 0 T go s) = so s /\ si (for_up 0 T go s) = si s /\
      (forall t, 0 <= t < T -> sx (for_up 0 T go s) t =
         if t <? T - 1 then get_row mpol ntor sets (so s t) (sx s t) (nsMaxF1 (r t) - 1 - nsMinF1 (r t))
                 else sx s t) /\
      (forall t, T <= t -> sx (for_up 0 T go s) t = sx s t)).
    { apply (for_up_ind (fun m s' => sv s' = sv s /\ sb s' = sb s /\
      so s' = so s /\ si s' = si s /\
      (forall t, 0 <= t < m -> sx s' t =
         if t <? T - 1 then get_row mpol ntor sets (so s t) (sx s t) (nsMaxF1 (r t) - 1 - nsMinF1 (r t))
                 else sx s t) /\
      (forall t, m <= t -> sx s' t = sx s t))); [lia| |].
      - repeat split; auto. intros; lia.
      - intros m s' Hm (I1 & I2 & I3 & I4 & I5 & I6). unfold do_get_o.
        change (part m) with (r m). rewrite outside_iff by lia.
        case_eq (m <? T - 1); intros Em.
        + cbn. repeat split; auto.
          * intros t Ht. destruct (Z.eq_dec t m) as [-> | Htm].
            -- rewrite upd_eq, I3, I6, Em by lia. reflexivity.
            -- rewrite upd_neq by lia. apply I5; lia.
          * intros t Ht. rewrite upd_neq by lia. apply I6. lia.
        + repeat split; auto; intros t Ht; [|apply I6; lia].
          destruct (Z.eq_dec t m) as [-> | Htm]; [rewrite Em; apply I6; lia|apply I5; lia]. }
    intuition.
  Qed.

  Lemma team_get_i s :
    let s' := run_instr T (ICritical gi) s in
    sv s' = sv s /\ sb s' = sb s /\ so s' = so s /\ si s' = si s /\
    (forall t, 0 <= t < T ->
       sx s' t = if 0 <? t then get_row mpol ntor sets (si s t) (sx s t) (nsMinF1 (r t) - nsMinF1 (r t))
                 else sx s t).
  Proof.
    cbv zeta. cbn [run_instr]. destruct Hpart as (HT & _).
    change (fold_left (fun s t => gi t s) (zrange 0 T) s) with (for_up 0 T gi s).
    assert (G : sv (for_up 0 T gi s) = sv s /\ sb (for_up 0 T gi s) = sb s /\
      so (for_up 0 T gi s) = so s /\ si (for_up 0 T gi s) = si s /\
      (forall t, 0 <= t < T -> sx (for_up 0 T gi s) t =
         if 0 <? t then get_row mpol ntor sets (si s t) (sx s t) (nsMinF1 (r t) - nsMinF1 (r t))
                 else sx s t) /\
      (forall t, T <= t -> sx (for_up 0 T gi s) t = sx s t)).
    { apply (for_up_ind (fun m s' => sv s' = sv s /\ sb s' = sb s /\
      so s' = so s /\ si s' = si s /\
      (forall t, 0 <= t < m -> sx s' t =
         if 0 <? t then get_row mpol ntor sets (si s t) (sx s t) (nsMinF1 (r t) - nsMinF1 (r t))
                 else sx s t) /\
      (forall t, m <= t -> sx s' t = sx s t))); [lia| |].
      - repeat split; auto. intros; lia.
      - intros m s' Hm (I1 & I2 & I3 & I4 & I5 & I6). unfold do_get_i.
        change (part m) with (r m). rewrite inside_iff by lia.
        case_eq (0 <? m); intros Em.
        + cbn. repeat split; auto.
          * intros t Ht. destruct (Z.eq_dec t m) as [-> | Htm].
            -- rewrite upd_eq, I4, I6, Em by lia. reflexivity.
            -- rewrite upd_neq by lia. apply I5; lia.
          * intros t Ht. rewrite upd_neq by lia. apply I6. lia.
        + repeat split; auto; intros t Ht; [|apply I6; lia].
          destruct (Z.eq_dec t m) as [-> | Htm]; [rewrite Em; apply I6; lia|apply I5; lia]. }
    intuition.
  Qed.

  Lemma team_restore s :
    let s' := run_instr T (ICritical do_restore) s in
    sb s' = sb s /\ (forall t, 0 <= t < T -> sx s' t = sb s t /\ sv s' t = fun _ _ => nZ 0).
  Proof.
    cbv zeta. cbn [run_instr]. destruct Hpart as (HT & _).
    change (fold_left (fun s t => do_restore t s) (zrange 0 T) s) with (for_up 0 T do_restore s).
    apply (for_up_ind (fun m s' => sb s' = sb s /\
      (forall t, 0 <= t < m -> sx s' t = sb s t /\ sv s' t = fun _ _ => nZ 0))); [lia| |].
    - split; auto. intros; lia.
    - intros m s' Hm (I1 & I2). unfold do_restore. cbn. split; [exact I1|].
      intros t Ht. destruct (Z.eq_dec t m) as [-> | Htm].
      + rewrite !upd_eq, I1. auto.
      + rewrite !upd_neq by assumption. apply I2. lia.
  Qed.

  Lemma team_save s :
    let s' := run_instr T (ICritical do_save) s in
    sx s' = sx s /\ sv s' = sv s /\ (forall t, 0 <= t < T -> sb s' t = sx s t).
  Proof.
    cbv zeta. cbn [run_instr]. destruct Hpart as (HT & _).
    change (fold_left (fun s t => do_save t s) (zrange 0 T) s) with (for_up 0 T do_save s).
    apply (for_up_ind (fun m s' => sx s' = sx s /\ sv s' = sv s /\
      (forall t, 0 <= t < m -> sb s' t = sx s t))); [lia| |].
    - repeat split; auto. intros; lia.
    - intros m s' Hm (I1 & I2 & I3). unfold do_save. cbn. repeat split; auto.
      intros t Ht. destruct (Z.eq_dec t m) as [-> | Htm].
      + rewrite !upd_eq, I1. auto.
      + rewrite !upd_neq by assumption. apply I3. lia.
  Qed.

  (** The distributed state represents a global one. *)
  Definition rep_x (x : Z -> Z -> Z -> K) (g : Z -> Z -> Z -> K) : Prop :=
    forall t j q mn, 0 <= t < T -> nsMinF1 (r t) <= j < nsMaxF1 (r t) -> In q sets -> 0 <= mn < mns ->
      x t q ((j - nsMinF1 (r t)) * mns + mn) = g q j mn.
  Definition rep_v (v : Z -> Z -> Z -> K) (g : Z -> Z -> Z -> K) : Prop :=
    forall t j q mn, 0 <= t < T -> nsMinF (r t) <= j < nsMaxFIncludingLcfs (r t) ->
      In q sets -> 0 <= mn < mns ->
      v t q ((j - nsMinF (r t)) * mns + mn) = g q j mn.
  Definition rep (s : st) (g : gstate) : Prop :=
    rep_x (sx s) (gx g) /\ rep_v (sv s) (gv g) /\ rep_x (sb s) (gb g).

  Lemma mns_ok : 0 <= mns.
  Proof. apply mns_nonneg; assumption. Qed.

  (** On the owned surfaces only. *)
  Definition rep_o (x : Z -> Z -> Z -> K) (g : Z -> Z -> Z -> K) : Prop :=
    forall t j q mn, 0 <= t < T -> nsMinF (r t) <= j < nsMaxFIncludingLcfs (r t) ->
      In q sets -> 0 <= mn < mns -> x t q ((j - nsMinF1 (r t)) * mns + mn) = g q j mn.

  Lemma step_rep' fac b1 dt f F s g : rep_v f F ->
    rep_o (sx s) (gx g) -> rep_v (sv s) (gv g) -> rep_x (sb s) (gb g) ->
    rep (in_order (step_prog mpol ntor sets ns part fac b1 dt f) T s) (gdo (GStep fac b1 dt F) g).
  Proof.
    intros HF Rx Rv Rb.
    unfold in_order, step_prog. cbn [fold_left].
    set (s0 := run_instr T IBarrier s). assert (E0 : s0 = s) by reflexivity. rewrite E0. clear s0 E0.
    set (s1 := run_instr T (ICritical (ev fac b1 dt f)) s).
    pose proof (team_evolve fac b1 dt f s) as H1. cbv zeta in H1. fold s1 in H1.
    destruct H1 as (A1 & A2 & A3 & A4).
    set (s2 := run_instr T (ICritical po) s1).
    pose proof (team_put_o s1) as H2. cbv zeta in H2. fold s2 in H2.
    destruct H2 as (B1 & B2 & B3 & B4 & B5).
    set (s3 := run_instr T (ICritical pi) s2).
    pose proof (team_put_i s2) as H3. cbv zeta in H3. fold s3 in H3.
    destruct H3 as (C1 & C2 & C3 & C4 & C5).
    change (run_instr T IBarrier s3) with s3.
    set (s4 := run_instr T (ICritical go) s3).
    pose proof (team_get_o s3) as H4. cbv zeta in H4. fold s4 in H4.
    destruct H4 as (D1 & D2 & D3 & D4 & D5).
    set (s5 := run_instr T (ICritical gi) s4).
    pose proof (team_get_i s4) as H5. cbv zeta in H5. fold s5 in H5.
    destruct H5 as (G1 & G2 & G3 & G4 & G5).
    change (run_instr T IBarrier (run_instr T IBarrier s5)) with s5.
    (* owned surfaces after the evolution *)
    assert (OX : forall t j q mn, 0 <= t < T -> nsMinF (r t) <= j < nsMaxFIncludingLcfs (r t) ->
      In q sets -> 0 <= mn < mns ->
      sv s1 t q ((j - nsMinF (r t)) * mns + mn) = gv (gdo (GStep fac b1 dt F) g) q j mn /\
      sx s1 t q ((j - nsMinF1 (r t)) * mns + mn) = gx (gdo (GStep fac b1 dt F) g) q j mn).
    { intros t j q mn Ht Hj Hq Hmn.
      pose proof (evolve_spec mpol ntor sets Hmpol Hntor Hsets (r t) fac b1 dt (f t) (sx s t) (sv s t) q Hq j mn Hj Hmn) as E.
      cbv zeta in E. rewrite <- (A1 t Ht) in E. cbn [fst snd] in E. destruct E as [Ev Ex].
      fold mns in Ev, Ex.
      pose proof (facts t Ht) as FT.
      cbn [gdo gv gx]. rewrite Ev, Ex.
      rewrite (Rv t j q mn Ht Hj Hq Hmn), (HF t j q mn Ht Hj Hq Hmn).
      rewrite (Rx t j q mn Ht Hj Hq Hmn).
      split; reflexivity. }
    assert (EX : forall t, 0 <= t < T -> sx s5 t =
      let x4 := if t <? T - 1 then get_row mpol ntor sets
                       (put_row mpol ntor sets (sx s1 (t + 1)) (so s1 t) (nsMinF (r (t + 1)) - nsMinF1 (r (t + 1))))
                       (sx s1 t) (nsMaxF1 (r t) - 1 - nsMinF1 (r t)) else sx s1 t in
      if 0 <? t then get_row mpol ntor sets
                       (put_row mpol ntor sets (sx s1 (t - 1)) (si s2 t) (nsMaxF (r (t - 1)) - 1 - nsMinF1 (r (t - 1))))
                       x4 (nsMinF1 (r t) - nsMinF1 (r t)) else x4).
    { intros t Ht. rewrite G5 by assumption. rewrite D5 by assumption. rewrite C1, B1, C4, D4.
      cbv zeta.
      destruct (Z.ltb_spec 0 t) as [P|P].
      - replace (si s3 t) with (si s3 (t - 1 + 1)) by (f_equal; lia).
        rewrite C5 by lia. rewrite B1. replace (t - 1 + 1) with t by lia.
        destruct (Z.ltb_spec t (T - 1)) as [Q|Q]; [|reflexivity].
        replace (so s2 t) with (so s2 (t + 1 - 1)) by (f_equal; lia).
        rewrite B5 by lia. replace (t + 1 - 1) with t by lia. reflexivity.
      - destruct (Z.ltb_spec t (T - 1)) as [Q|Q]; [|reflexivity].
        replace (so s2 t) with (so s2 (t + 1 - 1)) by (f_equal; lia).
        rewrite B5 by lia. replace (t + 1 - 1) with t by lia. reflexivity. }
    split; [|split].
    - intros t j q mn Ht Hj Hq Hmn.
      rewrite (EX t Ht). cbv zeta. clear EX.
      pose proof (facts t Ht) as FT.
      destruct (held_cases t j Ht Hj) as [Ho | [(P & J1 & J2) | (Q & J1 & J2)]].
      + (* owned *)
        assert (Eo : sx s1 t q ((j - nsMinF1 (r t)) * mns + mn) = gx (gdo (GStep fac b1 dt F) g) q j mn)
          by (apply OX; assumption).
        destruct (Z.eqb_spec t 0); destruct (Z.eqb_spec t (T - 1));
        destruct (Z.ltb_spec 0 t); destruct (Z.ltb_spec t (T - 1)); try lia;
        rewrite ?(get_row_other mpol ntor sets Hmpol Hntor) by (fold mns; lia); exact Eo.
      + (* inner halo *)
        destruct (Z.ltb_spec 0 t) as [_|]; [|lia].
        rewrite J1 at 1.
        rewrite (get_row_get mpol ntor sets Hmpol Hntor) by assumption.
        rewrite (put_row_get mpol ntor sets Hmpol Hntor) by assumption.
        rewrite <- J2. pose proof (facts (t - 1) ltac:(lia)) as FT'.
        apply OX; try assumption; lia.
      + (* outer halo *)
        assert (H0 : (nsMinF1 (r t) - nsMinF1 (r t)) <> j - nsMinF1 (r t)).
        { destruct (Z.eqb_spec t 0); destruct (Z.eqb_spec t (T - 1)); lia. }
        destruct (Z.ltb_spec t (T - 1)) as [_|]; [|lia].
        assert (E : get_row mpol ntor sets
               (put_row mpol ntor sets (sx s1 (t + 1)) (so s1 t) (nsMinF (r (t + 1)) - nsMinF1 (r (t + 1))))
               (sx s1 t) (nsMaxF1 (r t) - 1 - nsMinF1 (r t)) q ((j - nsMinF1 (r t)) * mns + mn)
             = gx (gdo (GStep fac b1 dt F) g) q j mn).
        { rewrite J1 at 1.
          rewrite (get_row_get mpol ntor sets Hmpol Hntor) by assumption.
          rewrite (put_row_get mpol ntor sets Hmpol Hntor) by assumption.
          rewrite <- J2. pose proof (facts (t + 1) ltac:(lia)) as FT'.
          apply OX; try assumption; lia. }
        destruct (Z.ltb_spec 0 t).
        * rewrite (get_row_other mpol ntor sets Hmpol Hntor) by (try assumption; congruence). exact E.
        * exact E.
    - intros t j q mn Ht Hj Hq Hmn. rewrite G1, D1, C2, B2. apply OX; assumption.
    - rewrite G2, D2, C3, B3, A2. exact Rb.
  Qed.

  Lemma rep_x_o x g : rep_x x g -> rep_o x g.
  Proof.
    intros R t j q mn Ht Hj. apply R; [exact Ht|].
    pose proof (facts t Ht) as F. destruct (Z.eqb_spec t 0); lia.
  Qed.

  Lemma step_rep fac b1 dt f F s g : rep_v f F -> rep s g ->
    rep (in_order (step_prog mpol ntor sets ns part fac b1 dt f) T s) (gdo (GStep fac b1 dt F) g).
  Proof.
    intros HF (Rx & Rv & Rb). apply step_rep'; auto. apply rep_x_o. exact Rx.
  Qed.

  Lemma save_rep s g : rep s g -> rep (in_order save_prog T s) (gdo GSave g).
  Proof.
    intros (Rx & Rv & Rb). unfold in_order, save_prog. cbn [fold_left].
    change (run_instr T IBarrier s) with s.
    set (s1 := run_instr T (ICritical do_save) s). change (run_instr T IBarrier s1) with s1.
    destruct (team_save s) as (A1 & A2 & A3). fold s1 in A1, A2, A3.
    split; [|split].
    - rewrite A1. exact Rx.
    - rewrite A2. exact Rv.
    - intros t j q mn Ht. rewrite (A3 t Ht). apply Rx. exact Ht.
  Qed.

  Lemma restore_rep s g : rep s g -> rep (in_order restore_prog T s) (gdo GRestore g).
  Proof.
    intros (Rx & Rv & Rb). unfold in_order, restore_prog. cbn [fold_left].
    change (run_instr T IBarrier s) with s.
    set (s1 := run_instr T (ICritical do_restore) s).
    change (run_instr T IBarrier (run_instr T IBarrier s1)) with s1.
    destruct (team_restore s) as (A1 & A2). fold s1 in A1, A2.
    split; [|split].
    - intros t j q mn Ht. destruct (A2 t Ht) as [E _]. rewrite E. apply Rb. exact Ht.
    - intros t j q mn Ht Hj Hq Hmn. destruct (A2 t Ht) as [_ E]. rewrite E. reflexivity.
    - rewrite A1. exact Rb.
  Qed.

  (** What a global event is for the threads. *)
  Inductive local_event : gevent -> @event K -> Prop :=
  | le_step fac b1 dt F f : rep_v f F -> local_event (GStep fac b1 dt F) (EStep fac b1 dt f)
  | le_save : local_event GSave ESave
  | le_restore : local_event GRestore ERestore.

  Lemma event_rep ge e s g : local_event ge e -> rep s g ->
    rep (in_order (event_prog mpol ntor sets ns part e) T s) (gdo ge g).
  Proof.
    intros H R. destruct H.
    - apply step_rep; assumption.
    - apply save_rep; assumption.
    - apply restore_rep; assumption.
  Qed.

  Lemma events_rep gl l : Forall2 local_event gl l -> forall s g c, rep s g ->
    steps (events_prog mpol ntor sets ns part l) T (start s) c ->
    finished (events_prog mpol ntor sets ns part l) T c ->
    rep (shared c) (grun gl g).
  Proof.
    intros H s g c R Hs Hf. rewrite (events_result l s c Hs Hf). clear Hs Hf c.
    revert s g R. induction H as [|ge e gl l He Hl IH]; intros s g R; [exact R|].
    cbn. apply IH. apply event_rep; assumption.
  Qed.

  (** Coherence without reference to a global state. *)
  Definition owns (u j : Z) : Prop := nsMinF (r u) <= j < nsMaxFIncludingLcfs (r u).

  Definition owner (j : Z) : Z :=
    match find (fun u => (nsMinF (r u) <=? j) && (j <? nsMaxFIncludingLcfs (r u))) (zrange 0 T) with
    | Some u => u | None => 0 end.

  Lemma owner_unique u u' j : 0 <= u < T -> 0 <= u' < T -> owns u j -> owns u' j -> u = u'.
  Proof.
    unfold owns. intros Hu Hu' H H'.
    assert (G : forall (a b : Z), 0 <= a -> a < b -> b < T -> owns a j -> owns b j -> False).
    { intros a b Ha Hab Hb Oa Ob. unfold owns in *.
      pose proof (facts a ltac:(lia)) as FA.
      assert (a < T - 1) by lia.
      pose proof (lo_mono (a + 1) b ltac:(lia) ltac:(lia) Hb). lia. }
    destruct (Z.lt_trichotomy u u') as [L | [L | L]]; [|exact L|].
    - exfalso. apply (G u u'); auto; lia.
    - exfalso. apply (G u' u); auto; lia.
  Qed.

  Lemma owner_ok u j : 0 <= u < T -> owns u j -> owner j = u.
  Proof.
    intros Hu Ho. unfold owner.
    destruct (find _ (zrange 0 T)) as [u'|] eqn:E.
    - apply find_some in E. destruct E as [I E]. apply zrange_In in I.
      apply andb_true_iff in E. rewrite Z.leb_le, Z.ltb_lt in E.
      apply (owner_unique u' u j); auto.
    - exfalso. pose proof (find_none _ _ E u ltac:(apply zrange_In; lia)) as X. cbv beta in X.
      unfold owns in Ho. apply andb_false_iff in X. rewrite Z.leb_gt, Z.ltb_ge in X. lia.
  Qed.

  Definition agree (x : Z -> Z -> Z -> K) : Prop :=
    forall t u j q mn, 0 <= t < T -> 0 <= u < T ->
      nsMinF1 (r t) <= j < nsMaxF1 (r t) -> owns u j -> In q sets -> 0 <= mn < mns ->
      x t q ((j - nsMinF1 (r t)) * mns + mn) = x u q ((j - nsMinF1 (r u)) * mns + mn).

  Lemma held_owned t j : 0 <= t < T -> owns t j -> nsMinF1 (r t) <= j < nsMaxF1 (r t).
  Proof.
    intros Ht Ho. unfold owns in Ho. pose proof (facts t Ht) as F.
    destruct (Z.eqb_spec t 0); lia.
  Qed.

  Lemma held_in_range t j : 0 <= t < T -> nsMinF1 (r t) <= j < nsMaxF1 (r t) -> 0 <= j < ns.
  Proof.
    intros Ht Hj. pose proof (facts t Ht) as F.
    destruct (Z.eqb_spec t 0), (Z.eqb_spec t (T - 1)); lia.
  Qed.

  Lemma rep_agree x g : rep_x x g -> agree x.
  Proof.
    intros R t u j q mn Ht Hu Hj Ho Hq Hmn.
    rewrite (R t j q mn Ht Hj Hq Hmn), (R u j q mn Hu (held_owned u j Hu Ho) Hq Hmn). reflexivity.
  Qed.

  Lemma agree_rep x : agree x ->
    rep_x x (fun q j mn => x (owner j) q ((j - nsMinF1 (r (owner j))) * mns + mn)).
  Proof.
    intros A t j q mn Ht Hj Hq Hmn.
    destruct (owner_exists j (held_in_range t j Ht Hj)) as (u & Hu & Ho).
    rewrite (owner_ok u j Hu Ho). apply A; assumption.
  Qed.

  Lemma any_rep_v v :
    rep_v v (fun q j mn => v (owner j) q ((j - nsMinF (r (owner j))) * mns + mn)).
  Proof.
    intros t j q mn Ht Hj Hq Hmn. rewrite (owner_ok t j Ht Hj). reflexivity.
  Qed.

  Lemma any_local l : exists gl, Forall2 local_event gl l.
  Proof.
    induction l as [|e l [gl IH]]; [exists []; constructor|].
    destruct e as [fac b1 dt f| |].
    - eexists (GStep fac b1 dt _ :: gl). constructor; [|exact IH]. constructor. apply any_rep_v.
    - exists (GSave :: gl). constructor; [constructor|exact IH].
    - exists (GRestore :: gl). constructor; [constructor|exact IH].
  Qed.

  Lemma events_agree l s c : agree (sx s) -> agree (sb s) ->
    steps (events_prog mpol ntor sets ns part l) T (start s) c ->
    finished (events_prog mpol ntor sets ns part l) T c ->
    agree (sx (shared c)) /\ agree (sb (shared c)).
  Proof.
    intros Ax Ab Hs Hf. destruct (any_local l) as [gl H].
    assert (R : rep s (mk_gstate
      (fun q j mn => sx s (owner j) q ((j - nsMinF1 (r (owner j))) * mns + mn))
      (fun q j mn => sv s (owner j) q ((j - nsMinF (r (owner j))) * mns + mn))
      (fun q j mn => sb s (owner j) q ((j - nsMinF1 (r (owner j))) * mns + mn)))).
    { split; [|split]; cbn.
      - apply agree_rep; assumption.
      - apply any_rep_v.
      - apply agree_rep; assumption. }
    destruct (events_rep gl l H s _ c R Hs Hf) as (Rx & _ & Rb).
    split; eapply rep_agree; eassumption.
  Qed.

  (** A time step brings the copies into agreement whatever they were before. *)
  Lemma step_agree fac b1 dt f s c :
    steps (step_prog mpol ntor sets ns part fac b1 dt f) T (start s) c ->
    finished (step_prog mpol ntor sets ns part fac b1 dt f) T c ->
    agree (sx (shared c)).
  Proof.
    intros Hs Hf.
    assert (NS : no_single (step_prog mpol ntor sets ns part fac b1 dt f)).
    { intros k h H. apply nth_error_In in H. exact (event_ns (EStep fac b1 dt f) h H). }
    rewrite (race_free_det _ T s c NS (race_step fac b1 dt f) Hs Hf).
    set (s' := mk_state (sx s) (sv s) (fun _ _ _ => nZ 0) (so s) (si s)).
    assert (E : sx (in_order (step_prog mpol ntor sets ns part fac b1 dt f) T s)
              = sx (in_order (step_prog mpol ntor sets ns part fac b1 dt f) T s')).
    { pose (P := fun a b : st => sx a = sx b /\ sv a = sv b /\ so a = so b /\ si a = si b).
      assert (G : forall i, In i (step_prog mpol ntor sets ns part fac b1 dt f) ->
        forall (a b : st), P a b -> P (run_instr T i a) (run_instr T i b)).
      { intros i Hi a b Pab. destruct i as [h|h|]; cbn.
        - exfalso. exact (event_ns (EStep fac b1 dt f) h Hi).
        - assert (Hh : forall t (a b : st), P a b -> P (h t a) (h t b)).
          { intros t a' b' (P1 & P2 & P3 & P4).
            cbn in Hi. repeat (destruct Hi as [Hi|Hi]; [try discriminate; injection Hi as <-|]);
              try contradiction;
              unfold P, do_evolve, do_put_o, do_put_i, do_get_o, do_get_i;
              rewrite ?P1, ?P2, ?P3, ?P4;
              repeat match goal with |- context [if ?b then _ else _] => destruct b end;
              cbn; rewrite ?P1, ?P2, ?P3, ?P4; auto. }
          revert a b Pab. induction (zrange 0 T) as [|t l IH]; intros a b Pab; [exact Pab|].
          cbn. apply IH. apply Hh. exact Pab.
        - exact Pab. }
      assert (Pss : P s s') by (unfold P; cbn; auto).
      assert (Pf : P (in_order (step_prog mpol ntor sets ns part fac b1 dt f) T s)
                     (in_order (step_prog mpol ntor sets ns part fac b1 dt f) T s')).
      { unfold in_order. clearbody s'. clear Hs Hf.
        revert s s' G Pss. generalize (step_prog mpol ntor sets ns part fac b1 dt f).
        induction l as [|i l IH]; intros s s' G Pss; [exact Pss|].
        cbn. apply IH.
        - intros i' Hi'. apply G. right. exact Hi'.
        - apply G; [left; reflexivity|exact Pss]. }
      apply Pf. }
    rewrite E.
    destruct (step_rep' fac b1 dt f _ s'
      (mk_gstate
        (fun q j mn => sx s (owner j) q ((j - nsMinF1 (r (owner j))) * mns + mn))
        (fun q j mn => sv s (owner j) q ((j - nsMinF (r (owner j))) * mns + mn))
        (fun _ _ _ => nZ 0)) (any_rep_v f)) as (Rx & _).
    - intros t j q mn Ht Hj Hq Hmn. cbn. rewrite (owner_ok t j Ht Hj). reflexivity.
    - apply any_rep_v.
    - intros t j q mn _ _ _ _. reflexivity.
    - eapply rep_agree. exact Rx.
  Qed.
End Team.
