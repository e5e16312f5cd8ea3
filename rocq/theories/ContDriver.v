From Coq Require Import String ZArith List Bool Lia.
From Verif Require Import Base BaseLemmas Num IndataModel IndataSpec IndataProofs IndataCheck IndataRound PyCoefModel PyCoefSpec PyCoefProofs ContModel ContSpec ContProofs.
Import ListNotations.
Open Scope Z_scope.

Section Driver.
  Context {K : num} {Rest Out : Type}.
  Context (run : input K Rest -> option Out -> outcome Out) (interp : Out -> input K Rest -> outcome Out).

  Lemma item_ok {A} (l : list A) i a : item l i = Ok a -> nth_error l (Z.to_nat i) = Some a.
  Proof. unfold item. destruct (nth_error l (Z.to_nat i)); intros E; inversion E. reflexivity. Qed.
  Lemma item_get {A} (l : list A) i : (i < length l)%nat -> exists a, item l (Z.of_nat i) = Ok a /\ nth_error l i = Some a.
  Proof.
    intros H. unfold item. rewrite Nat2Z.id. destruct (nth_error l i) eqn:E; [eauto|]. apply nth_error_None in E. lia.
  Qed.

  Lemma step_input_ok (b : input K Rest) mp nt ns m n ft ni : 0 <= mp -> 0 <= nt ->
    (forall name c, In (name, Some c) (i_boundary b) -> shaped c mp (2 * nt + 1)) -> 0 <= m -> 0 <= n ->
    exists s, step_input b ns m n ft ni = Ok s /\ i_ns s = [ns] /\ i_ftol s = [ft] /\ i_niter s = [ni] /\
      i_mpol s = Scalar m /\ i_ntor s = Scalar n /\ i_rest s = i_rest b /\
      fields_related (resized mp nt m n) (i_boundary b) (i_boundary s) /\ fields_related (axis_remapped n) (i_axis b) (i_axis s).
  Proof.
    intros Hmp Hnt Hs Hm Hn. unfold step_input.
    destruct (map_fields_ok (fun c => resize_2d_coeff c m n) (resized mp nt m n) (i_boundary b)) as (bd & Eb & Rb).
    { intros name c Hc. apply resize_2d_ok; eauto. }
    destruct (map_fields_ok (fun a => Ok (remap_axis a n)) (axis_remapped n) (i_axis b)) as (ax & Ea & Ra).
    { intros name a _. eexists. split; [reflexivity|]. apply remap_axis_ok. exact Hn. }
    rewrite Eb. cbn [obind]. rewrite Ea. cbn [obind]. eexists. split; [reflexivity|]. cbn. repeat split; auto.
  Qed.

  Definition values (r : resolution) (n : nat) : list Z := match r with Scalar z => repeat z n | Schedule l => l end.
  Lemma resolve_ok r n : fits r n -> resolve r (Z.of_nat n) = Ok (values r n).
  Proof.
    destruct r as [z|l]; cbn; intros H; [rewrite Nat2Z.id; reflexivity|]. destruct H as (<- & _). unfold zlen. rewrite Z.eqb_refl. reflexivity.
  Qed.
  Lemma values_nth r n i : fits r n -> (i < n)%nat -> nth_error (values r n) i = Some (scheduled r i) /\ 0 <= scheduled r i.
  Proof.
    destruct r as [z|l]; cbn; intros H Hi.
    - split; [|exact H]. apply nth_error_repeat. exact Hi.
    - destruct H as (<- & H). split; [apply nth_error_nth'; exact Hi|]. apply H. apply nth_In. exact Hi.
  Qed.

  Section Run.
    Context (b : input K Rest) (mp nt : Z) (Sb : schedulable b mp nt).
    Let n := length (i_ns b).

    (** What one pass of the loop computes. *)
    Definition next (i : nat) (o : option Out) : outcome (input K Rest * option Out) :=
      ns <- item (i_ns b) (Z.of_nat i) ;; mp <- item (values (i_mpol b) n) (Z.of_nat i) ;; nt <- item (values (i_ntor b) n) (Z.of_nat i) ;; ft <- item (i_ftol b) (Z.of_nat i) ;; ni <- item (i_niter b) (Z.of_nat i) ;;
      s <- step_input b ns mp nt ft ni ;;
      g <- match o with None => Ok None | Some o => r <- interp o s ;; Ok (Some r) end ;; Ok (s, g).

    Lemma next_ok i o s g : (i < n)%nat -> next i o = Ok (s, g) -> problem b mp nt i s /\ started_from interp o s g.
    Proof using Sb.
      intros Hi E. unfold next in E.
      apply obind_ok in E. destruct E as (ns & E1 & E). apply obind_ok in E. destruct E as (m & E2 & E). apply obind_ok in E. destruct E as (nn & E3 & E).
      apply obind_ok in E. destruct E as (ft & E4 & E). apply obind_ok in E. destruct E as (ni & E5 & E). apply obind_ok in E. destruct E as (s' & E6 & E).
      apply obind_ok in E. destruct E as (g' & E7 & E). injection E as <- <-. apply item_ok in E1, E2, E3, E4, E5. rewrite Nat2Z.id in *.
      destruct (values_nth _ _ i (s_mpol _ _ _ Sb) Hi) as (V1 & P1). destruct (values_nth _ _ i (s_ntor _ _ _ Sb) Hi) as (V2 & P2). fold n in V1, V2.
      rewrite E2 in V1. injection V1 as ->. rewrite E3 in V2. injection V2 as ->.
      destruct (step_input_ok b mp nt ns _ _ ft ni (s_mp _ _ _ Sb) (s_nt _ _ _ Sb) (s_boundary _ _ _ Sb) P1 P2) as (s & Es & H). rewrite Es in E6. injection E6 as ->.
      destruct H as (H1 & H2 & H3 & H4 & H5 & H6 & H7 & H8). split.
      - unfold problem. cbv zeta. repeat split; eauto.
      - destruct o as [o|]; [|injection E7 as <-; reflexivity]. apply obind_ok in E7. destruct E7 as (r & Er & E7). injection E7 as <-. exists r. auto.
    Qed.

    Lemma steps_eq i k o : steps run interp b (values (i_mpol b) n) (values (i_ntor b) n) (Z.of_nat i) (S k) o =
      match next i o with
      | Ok (s, g) =>
          match run s g with
          | Ok o' => let '(calls, r) := steps run interp b (values (i_mpol b) n) (values (i_ntor b) n) (Z.of_nat (S i)) k (Some o') in ((s, g) :: calls, r)
          | Error => ([(s, g)], Error) | Throws => ([(s, g)], Throws) | UB => ([(s, g)], UB)
          end
      | Error => ([], Error) | Throws => ([], Throws) | UB => ([], UB)
      end.
    Proof using. replace (Z.of_nat (S i)) with (Z.of_nat i + 1) by lia. reflexivity. Qed.

    (** A run that returns is a complete chain. *)
    Lemma steps_ok k : forall i o calls r, (i + k = n)%nat -> steps run interp b (values (i_mpol b) n) (values (i_ntor b) n) (Z.of_nat i) k o = (calls, Ok r) ->
      length calls = k /\ chain run interp b mp nt i o calls r.
    Proof using Sb.
      induction k as [|k IH]; intros i o calls r Hk E.
      - cbn in E. injection E as <- <-. split; [reflexivity|constructor].
      - rewrite steps_eq in E. destruct (next i o) as [(s, g)| | |] eqn:En; try discriminate E. destruct (next_ok i o s g ltac:(lia) En) as (P & St).
        destruct (run s g) as [o'| | |] eqn:Er; try discriminate E.
        destruct (steps run interp b (values (i_mpol b) n) (values (i_ntor b) n) (Z.of_nat (S i)) k (Some o')) as (calls', r') eqn:Es. injection E as <- ->.
        destruct (IH (S i) (Some o') calls' r ltac:(lia) Es) as (L & Ch). split; [cbn; lia|]. econstructor; eassumption.
    Qed.

    (** Whatever happens, the runs made are a chain, possibly followed by one run that failed. *)
    Lemma steps_prefix k : forall i o calls r, (i + k = n)%nat -> steps run interp b (values (i_mpol b) n) (values (i_ntor b) n) (Z.of_nat i) k o = (calls, r) ->
      exists good last o', calls = good ++ last /\ chain run interp b mp nt i o good o' /\
        (last = [] \/ exists s g, last = [(s, g)] /\ problem b mp nt (i + length good) s /\ started_from interp o' s g /\ (forall x, run s g <> Ok x)).
    Proof using Sb.
      induction k as [|k IH]; intros i o calls r Hk E.
      - cbn in E. injection E as <- <-. exists [], [], o. split; [reflexivity|]. split; [constructor|left; reflexivity].
      - rewrite steps_eq in E. destruct (next i o) as [(s, g)| | |] eqn:En; try (injection E as <- <-; exists [], [], o; split; [reflexivity|]; split; [constructor|left; reflexivity]).
        destruct (next_ok i o s g ltac:(lia) En) as (P & St).
        destruct (run s g) as [o'| | |] eqn:Er.
        2-4: injection E as <- <-; exists [], [(s, g)], o; (split; [reflexivity|]); (split; [constructor|]); right; exists s, g; rewrite Nat.add_0_r; (split; [reflexivity|]); (split; [exact P|]); (split; [exact St|]); congruence.
        destruct (steps run interp b (values (i_mpol b) n) (values (i_ntor b) n) (Z.of_nat (S i)) k (Some o')) as (calls', r') eqn:Es. injection E as <- <-.
        destruct (IH (S i) (Some o') calls' r' ltac:(lia) Es) as (good & last & o2 & -> & Ch & L). exists ((s, g) :: good), last, o2. split; [reflexivity|]. split; [econstructor; eassumption|].
        destruct L as [L|(s2 & g2 & L & P2 & S2 & F)]; [left; exact L|]. right. exists s2, g2. cbn [length]. replace (i + S (length good))%nat with (S i + length good)%nat by lia. auto.
    Qed.

    Lemma driver_eq start : run_fourier_continuation run interp b start =
      let '(calls, r) := steps run interp b (values (i_mpol b) n) (values (i_ntor b) n) (Z.of_nat 0) n start in
      (calls, o <- r ;; match o with Some o => Ok o | None => Throws end).
    Proof using Sb.
      unfold run_fourier_continuation. cbv zeta. unfold zlen. fold n. rewrite (resolve_ok _ n (s_mpol _ _ _ Sb)), (resolve_ok _ n (s_ntor _ _ _ Sb)). rewrite Nat2Z.id. reflexivity.
    Qed.

    Theorem driver_ok start calls o : run_fourier_continuation run interp b start = (calls, Ok o) ->
      length calls = n /\ chain run interp b mp nt 0 start calls (Some o).
    Proof using Sb.
      rewrite driver_eq. destruct (steps _ _ _ _ _ _ _ _) as (calls', r) eqn:E. intros H. injection H as <- H.
      apply obind_ok in H. destruct H as (o' & -> & H). destruct o' as [o'|]; [|discriminate]. injection H as ->. exact (steps_ok n 0%nat start calls' (Some o) eq_refl E).
    Qed.
    Theorem driver_prefix start calls r : run_fourier_continuation run interp b start = (calls, r) ->
      exists good last o', calls = good ++ last /\ chain run interp b mp nt 0 start good o' /\
        (last = [] \/ exists s g, last = [(s, g)] /\ problem b mp nt (length good) s /\ started_from interp o' s g /\ (forall x, run s g <> Ok x)).
    Proof using Sb.
      rewrite driver_eq. destruct (steps _ _ _ _ _ _ _ _) as (calls', r') eqn:E. intros H. injection H as <- _. exact (steps_prefix n 0%nat start calls' r' eq_refl E).
    Qed.

    (** If nothing fails on the way the driver returns. *)
    Lemma steps_total k : (forall s g, exists o, run s g = Ok o) -> (forall o s, exists o', interp o s = Ok o') ->
      length (i_ftol b) = n -> length (i_niter b) = n ->
      forall i o, (i + k = n)%nat -> exists calls r, steps run interp b (values (i_mpol b) n) (values (i_ntor b) n) (Z.of_nat i) k o = (calls, Ok r) /\ ((0 < k)%nat \/ o <> None -> r <> None).
    Proof using Sb.
      intros Hr Hi Lf Ln. induction k as [|k IH]; intros i o Hk; [cbn; eexists _, _; split; [reflexivity|]; intros [H|H]; [lia|exact H]|]. rewrite steps_eq.
      assert (Hn : exists p, next i o = Ok p).
      { unfold next. destruct (item_get (i_ns b) i) as (ns & -> & _); [fold n; lia|]. cbn [obind].
        destruct (values_nth _ _ i (s_mpol _ _ _ Sb)) as (V1 & P1); [fold n; lia|]. destruct (values_nth _ _ i (s_ntor _ _ _ Sb)) as (V2 & P2); [fold n; lia|]. fold n in V1, V2.
        unfold item at 1. rewrite Nat2Z.id, V1. cbn [obind]. unfold item at 1. rewrite Nat2Z.id, V2. cbn [obind].
        destruct (item_get (i_ftol b) i) as (ft & -> & _); [lia|]. cbn [obind]. destruct (item_get (i_niter b) i) as (ni & -> & _); [lia|]. cbn [obind].
        destruct (step_input_ok b mp nt ns _ _ ft ni (s_mp _ _ _ Sb) (s_nt _ _ _ Sb) (s_boundary _ _ _ Sb) P1 P2) as (s & -> & _). cbn [obind].
        destruct o as [o|]; [destruct (Hi o s) as (o' & ->)|]; cbn [obind]; eauto. }
      destruct Hn as ((s, g) & ->). destruct (Hr s g) as (o' & ->).
      destruct (IH (S i) (Some o') ltac:(lia)) as (calls & r & -> & Hn). eexists _, _. split; [reflexivity|].
      intros _. apply Hn. right. discriminate.
    Qed.
    Theorem driver_total start : (forall s g, exists o, run s g = Ok o) -> (forall o s, exists o', interp o s = Ok o') ->
      length (i_ftol b) = n -> length (i_niter b) = n -> (0 < n)%nat -> exists calls o, run_fourier_continuation run interp b start = (calls, Ok o).
    Proof using Sb.
      intros Hr Hi Lf Ln Hn. rewrite driver_eq. destruct (steps_total n Hr Hi Lf Ln 0%nat start eq_refl) as (calls & r & E & H). rewrite E.
      destruct r as [o|]; [|exfalso; apply H; auto]. eexists _, _. reflexivity.
    Qed.
  End Run.

  (** A schedule of the wrong length is refused before anything is run. *)
  Theorem wrong_length (b : input K Rest) start l : (i_mpol b = Schedule l \/ i_ntor b = Schedule l) -> length l <> length (i_ns b) ->
    run_fourier_continuation run interp b start = ([], Throws).
  Proof.
    intros H L. unfold run_fourier_continuation. cbv zeta. assert (Hl : resolve (Schedule l) (zlen (i_ns b)) = Throws).
    { cbn. rewrite (proj2 (Z.eqb_neq (zlen l) (zlen (i_ns b)))) by (unfold zlen; lia). reflexivity. }
    destruct H as [E|E]; rewrite E, Hl; [|destruct (resolve (i_mpol b) (zlen (i_ns b)))]; reflexivity.
  Qed.
End Driver.

(** *** The last step. *)
Section Last.
  Context {K : num} {Rest : Type}.
  Lemma resized_same (c c' : mat K) mp nt : 0 <= mp -> 0 <= nt -> shaped c mp (2 * nt + 1) -> resized mp nt mp nt c c' -> c' = c.
  Proof.
    intros Hm Hn S (S' & H). apply (mat_ext _ _ mp (2 * nt + 1)); auto; try lia. intros r k Hr Hk. destruct (H r (k - nt)) as (H1 & _); [lia|lia|].
    specialize (H1 ltac:(lia) ltac:(lia)). unfold coef in H1. replace (k - nt + nt) with k in H1 by lia. exact H1.
  Qed.

  Lemma related_same {A} (P : A -> A -> Prop) l l' : (forall name a, In (name, Some a) l -> forall b, P a b -> b = a) -> fields_related P l l' -> l' = l.
  Proof.
    intros H F. induction F as [|p q l l' (E & M) F IH]; [reflexivity|]. rewrite IH by (intros name a I; apply (H name a); right; exact I). f_equal.
    destruct p as (np, [a|]), q as (nq, [b|]); cbn in *; try contradiction; subst nq; [|reflexivity]. rewrite (H np a (or_introl eq_refl) b M). reflexivity.
  Qed.

  Theorem last_step (b s : input K Rest) mp nt i : schedulable b mp nt -> problem b mp nt i s ->
    scheduled (i_mpol b) i = mp -> scheduled (i_ntor b) i = nt ->
    (forall name a, In (name, Some a) (i_axis b) -> Z.of_nat (length a) = nt + 1) ->
    i_boundary s = i_boundary b /\ i_axis s = i_axis b /\ i_rest s = i_rest b.
  Proof.
    intros S P E1 E2 Ha. destruct S as [Smp Snt _ _ Sb]. unfold problem in P. cbv zeta in P. rewrite E1, E2 in P. destruct P as (_ & _ & _ & _ & _ & P1 & P2 & P3).
    split; [|split; [|exact P1]].
    - apply (related_same _ _ _ (fun name a I c H => resized_same a c mp nt Smp Snt (Sb name a I) H) P2).
    - refine (related_same _ _ _ _ P3). intros name a I c (L & H). apply (list_ext (nZ 0)); [specialize (Ha name a I); lia|]. intros k Hk. specialize (H (Z.of_nat k)). rewrite Nat2Z.id in H. apply H. lia.
  Qed.
End Last.
