From Coq Require Import ZArith List Bool Lia.
From Verif Require Import Base BaseLemmas Num PartModel PartSpec PartProofs ReduceProps LapMain GatherModel GatherSpec GatherProofs.
Open Scope Z_scope.

Section G.
  Context {K : num} (lthreed lasym : bool) (ns mpol ntor nZnT nThetaEff nThetaReduced : Z) (lamscale : K).
  Context (T : Z) (lfreeb : bool) (r : Z -> rpart) (x : Z -> share K) (P : plasma K).
  Hypothesis HP : is_partition ns T lfreeb r.
  Hypothesis HX : forall t, 0 <= t < T -> holds lthreed lasym mpol ntor nZnT P (r t) (x t).
  Let G := @gather K lthreed lasym ns mpol ntor nZnT nThetaEff nThetaReduced lamscale T r x.
  Let GH := @gather_half K lthreed ns nZnT.
  Let GF := @gather_full K lthreed lasym mpol ntor nZnT nThetaEff nThetaReduced lamscale.

  Lemma r_closed t : 0 <= t < T -> r t = rp_closed T t ns lfreeb.
  Proof. intros Ht. exact (partition_closed ns T lfreeb r t HP Ht). Qed.
  Lemma owner_full j : 0 <= j < ns ->
    exists t, (0 <= t < T /\ nsMinF (r t) <= j < nsMaxFIncludingLcfs (r t)) /\
      forall t', 0 <= t' < T -> t' <> t -> ~ nsMinF (r t') <= j < nsMaxFIncludingLcfs (r t').
  Proof.
    intros Hj. destruct HP as (HT & H2 & _).
    destruct (r_adv_distributes T ns lfreeb HT H2) as [Ex _]. destruct (Ex j Hj) as (t & (Ht & Hb) & U).
    exists t. rewrite (r_closed t Ht). split; [split; assumption|]. intros t' Ht' N C. apply N, U.
    rewrite (r_closed t' Ht') in C. split; assumption.
  Qed.
  Lemma owner_half j : 0 <= j < ns - 1 ->
    exists t, (0 <= t < T /\ nsMinH (r t) <= j < nsMaxH (r t) /\ counts_half (r t) ns j = true) /\
      forall t', 0 <= t' < T -> t' <> t -> ~ (nsMinH (r t') <= j < nsMaxH (r t') /\ counts_half (r t') ns j = true).
  Proof.
    intros Hj. destruct HP as (HT & H2 & _).
    destruct (half_counted_once T ns lfreeb HT H2 j Hj) as (t & (Ht & Hb) & U).
    exists t. rewrite (r_closed t Ht). split; [split; assumption|]. intros t' Ht' N C. apply N, U.
    rewrite (r_closed t' Ht') in C. split; assumption.
  Qed.
  Lemma full_local t j : 0 <= t < T -> nsMinF (r t) <= j < nsMaxFIncludingLcfs (r t) ->
    nsMinF1 (r t) <= j < nsMaxF1 (r t).
  Proof.
    intros Ht Hj. destruct HP as (HT & H2 & _). rewrite (r_closed t Ht) in *.
    assert (0 <= j < ns). { destruct (r_adv_distributes T ns lfreeb HT H2) as [_ In_]. exact (In_ t j Ht Hj). }
    apply (r_halo T ns lfreeb HT H2 t j Ht Hj j); lia.
  Qed.

  (** An entry that the half-grid loop of its owner sets. *)
  Lemma gather_half_entry {A} (pr : results K -> A) t v :
    0 <= t < T ->
    (forall a b c d e g, pr (mkRes (g_hp g) (g_hf g) a b c d e (g_currv g)) = pr g) ->
    (forall a g, pr (mkRes (g_hp g) (g_hf g) (g_fp g) (g_co g) (g_ff g) (g_of g) (g_bsubvF g) a) = pr g) ->
    (forall g, pr (GH (r t) (x t) g) = v) ->
    (forall t' g, 0 <= t' < T -> t' <> t -> pr (GH (r t') (x t') g) = pr g) ->
    pr G = v.
  Proof.
    intros Ht Hf Hc Hv Hk. unfold G, gather. apply (for_up_set pr) with (x0 := t); [exact Ht| |].
    - intros s. cbv zeta. transitivity (pr (GF (r t) (x t) (GH (r t) (x t) s))).
      + destruct (t =? 0); [apply Hc|reflexivity].
      + etransitivity; [apply (full_rest lthreed lasym mpol ntor nZnT nThetaEff nThetaReduced lamscale pr), Hf|apply Hv].
    - intros t' s Ht' N. cbv zeta. transitivity (pr (GF (r t') (x t') (GH (r t') (x t') s))).
      + destruct (t' =? 0); [apply Hc|reflexivity].
      + etransitivity; [apply (full_rest lthreed lasym mpol ntor nZnT nThetaEff nThetaReduced lamscale pr), Hf|apply Hk; assumption].
  Qed.
  Lemma gather_full_entry {A} (pr : results K -> A) t v :
    0 <= t < T ->
    (forall a b g, pr (mkRes a b (g_fp g) (g_co g) (g_ff g) (g_of g) (g_bsubvF g) (g_currv g)) = pr g) ->
    (forall a g, pr (mkRes (g_hp g) (g_hf g) (g_fp g) (g_co g) (g_ff g) (g_of g) (g_bsubvF g) a) = pr g) ->
    (forall g, pr (GF (r t) (x t) g) = v) ->
    (forall t' g, 0 <= t' < T -> t' <> t -> pr (GF (r t') (x t') g) = pr g) ->
    pr G = v.
  Proof.
    intros Ht Hf Hc Hv Hk. unfold G, gather. apply (for_up_set pr) with (x0 := t); [exact Ht| |].
    - intros s. cbv zeta. transitivity (pr (GF (r t) (x t) (GH (r t) (x t) s))).
      + destruct (t =? 0); [apply Hc|reflexivity].
      + apply Hv.
    - intros t' s Ht' N. cbv zeta. transitivity (pr (GF (r t') (x t') (GH (r t') (x t') s))).
      + destruct (t' =? 0); [apply Hc|reflexivity].
      + rewrite Hk by assumption. apply (half_rest lthreed ns nZnT pr). exact Hf.
  Qed.

  Lemma gather_ok : 0 <= nZnT -> 0 <= mpol -> 0 <= ntor ->
    collected lthreed lasym ns mpol ntor nZnT nThetaEff nThetaReduced lamscale P G.
  Proof.
    intros HN HM HNt. split; [|split].
    - intros j Hj. destruct (owner_half j Hj) as (t & (Ht & Hb & Hcnt) & U). pose proof (HX t Ht) as X.
      destruct X as (X1 & X2 & _). split.
      + intros n. apply (gather_half_entry (fun g => g_hp g n j) t); [exact Ht|reflexivity|reflexivity| |].
        * intros g. etransitivity; [exact (proj1 (half_prof lthreed ns nZnT n j (r t) (x t) g) (conj Hb Hcnt))|].
          pose proof (rd_rows _ _ _ _ _ _ _ j 0 (X1 n) Hb) as E. rewrite Z.mul_1_r, Z.add_0_r in E. apply E; lia.
        * intros t' g Ht' N. exact (proj2 (half_prof lthreed ns nZnT n j (r t') (x t') g) (U t' Ht' N)).
      + intros n i Hn Hi. apply (gather_half_entry (fun g => g_hf g n (j * nZnT + i)) t); [exact Ht|reflexivity|reflexivity| |].
        * intros g. etransitivity; [exact (proj1 (half_field lthreed lasym ns mpol ntor nZnT nThetaEff nThetaReduced lamscale n j i (r t) (x t) g Hn Hi) (conj Hb Hcnt))|].
          apply (rd_rows _ _ _ _ _ _ _ j i (X2 n Hn) Hb); lia.
        * intros t' g Ht' N. exact (proj2 (half_field lthreed lasym ns mpol ntor nZnT nThetaEff nThetaReduced lamscale n j i (r t') (x t') g Hn Hi) (U t' Ht' N)).
    - intros j Hj. destruct (owner_full j Hj) as (t & (Ht & Hb) & U). pose proof (HX t Ht) as X. pose proof (full_local t j Ht Hb) as HF.
      destruct X as (_ & _ & X3 & X4 & X5 & X6 & X7 & X8 & _). split; [|split].
      + intros n. apply (gather_full_entry (fun g => g_fp g n j) t); [exact Ht|reflexivity|reflexivity| |].
        * intros g. etransitivity; [exact (proj1 (full_prof lthreed lasym mpol ntor nZnT nThetaEff nThetaReduced lamscale n j (r t) (x t) g) Hb)|].
          pose proof (rd_rows _ _ _ _ _ _ _ j 0 (X3 n) Hb) as E. rewrite Z.mul_1_r, Z.add_0_r in E. apply E; lia.
        * intros t' g Ht' N. exact (proj2 (full_prof lthreed lasym mpol ntor nZnT nThetaEff nThetaReduced lamscale n j (r t') (x t') g) (U t' Ht' N)).
      + intros c m n Hc Hm Hn. destruct (X4 c Hc) as (L & E).
        apply (gather_full_entry (fun g => g_co g c ((j * (ntor + 1) + n) * mpol + m)) t); [exact Ht|reflexivity|reflexivity| |].
        * intros g. etransitivity; [exact (proj1 (full_coef lthreed lasym mpol ntor nZnT nThetaEff nThetaReduced lamscale c m n j (r t) (x t) g Hc Hm Hn) Hb)|].
          rewrite rd_in; [rewrite E by lia; reflexivity|]. rewrite L.
          assert (0 <= (j - nsMinF1 (r t)) * mpol + m < (nsMaxF1 (r t) - nsMinF1 (r t)) * mpol) by nia. nia.
        * intros t' g Ht' N. exact (proj2 (full_coef lthreed lasym mpol ntor nZnT nThetaEff nThetaReduced lamscale c m n j (r t') (x t') g Hc Hm Hn) (U t' Ht' N)).
      + intros i Hi. split; [|split].
        * intros n. apply (gather_full_entry (fun g => g_ff g n (j * nZnT + i)) t); [exact Ht|reflexivity|reflexivity| |].
          -- intros g. etransitivity; [refine (proj1 (grid_set lthreed lasym mpol ntor nZnT nThetaEff nThetaReduced lamscale (fun g => g_ff g n)
               (fun y kl => if is_v n && negb lthreed then Some (nZ 0) else rd (s_ff (x t) n) ((y - nsMinF1 (r t)) * nZnT + kl)) (r t) (x t) _ _ j i g Hi) Hb); [reflexivity|intros; cbn [g_ff]; unfold upd; reflexivity]|].
             cbv beta. destruct (is_v n && negb lthreed) eqn:E; [reflexivity|].
             apply (rd_rows _ _ _ _ _ _ _ j i (X5 n ltac:(destruct (is_v n); [right; destruct lthreed; [reflexivity|discriminate]|left; reflexivity])) Hb); lia.
          -- intros t' g Ht' N. refine (proj2 (grid_set lthreed lasym mpol ntor nZnT nThetaEff nThetaReduced lamscale (fun g => g_ff g n)
               (fun y kl => if is_v n && negb lthreed then Some (nZ 0) else rd (s_ff (x t') n) ((y - nsMinF1 (r t')) * nZnT + kl)) (r t') (x t') _ _ j i g Hi) (U t' Ht' N)); [reflexivity|intros; cbn [g_ff]; unfold upd; reflexivity].
        * intros n. apply (gather_full_entry (fun g => g_of g n (j * nZnT + i)) t); [exact Ht|reflexivity|reflexivity| |].
          -- intros g. etransitivity; [refine (proj1 (grid_set lthreed lasym mpol ntor nZnT nThetaEff nThetaReduced lamscale (fun g => g_of g n)
               (fun y kl => rd (s_of (x t) n) ((y - nsMinF (r t)) * nZnT + kl)) (r t) (x t) _ _ j i g Hi) Hb); [reflexivity|intros; cbn [g_of]; unfold upd; reflexivity]|].
             apply (rd_rows _ _ _ _ _ _ _ j i (X6 n) Hb); lia.
          -- intros t' g Ht' N. refine (proj2 (grid_set lthreed lasym mpol ntor nZnT nThetaEff nThetaReduced lamscale (fun g => g_of g n)
               (fun y kl => rd (s_of (x t') n) ((y - nsMinF (r t')) * nZnT + kl)) (r t') (x t') _ _ j i g Hi) (U t' Ht' N)); [reflexivity|intros; cbn [g_of]; unfold upd; reflexivity].
        * pose (val := fun (t : Z) (y kl : Z) => bind2 nmul (if lasym then if kl mod nThetaEff <? nThetaReduced
                 then bind2 nadd (rd (s_blmn (x t)) ((y - nsMinF (r t)) * nZnT + kl)) (rd (s_blmn_asym (x t)) ((y - nsMinF (r t)) * nZnT + kl))
                 else rd (s_blmn (x t)) ((y - nsMinF (r t)) * nZnT + kl) else rd (s_blmn (x t)) ((y - nsMinF (r t)) * nZnT + kl))
               (Some (if y >? 0 then ndiv (nZ (-1)) lamscale else nZ 1))).
          apply (gather_full_entry (fun g => g_bsubvF g (j * nZnT + i)) t); [exact Ht|reflexivity|reflexivity| |].
          -- intros g. etransitivity; [refine (proj1 (grid_set lthreed lasym mpol ntor nZnT nThetaEff nThetaReduced lamscale (fun g => g_bsubvF g) (val t) (r t) (x t) _ _ j i g Hi) Hb); [reflexivity|intros; cbn [g_bsubvF]; unfold upd, val; reflexivity]|].
             unfold val. rewrite (rd_rows _ _ _ _ _ _ _ j i X7 Hb) by lia.
             replace (j >? 0) with (negb (j =? 0)) by (destruct (Z.eqb_spec j 0), (Z.gtb_spec j 0); try lia; reflexivity).
             destruct lasym; cbn [andb].
             ++ rewrite (rd_rows _ _ _ _ _ _ _ j i (X8 eq_refl) Hb) by lia. destruct (i mod nThetaEff <? nThetaReduced), (j =? 0); reflexivity.
             ++ destruct (j =? 0); reflexivity.
          -- intros t' g Ht' N. refine (proj2 (grid_set lthreed lasym mpol ntor nZnT nThetaEff nThetaReduced lamscale (fun g => g_bsubvF g) (val t') (r t') (x t') _ _ j i g Hi) (U t' Ht' N)); [reflexivity|intros; cbn [g_bsubvF]; unfold upd, val; reflexivity].
    - destruct HP as (HT & _ & _). unfold G, gather. apply (for_up_set (fun g => g_currv g)) with (x0 := 0); [lia| |].
      + intros s. cbv zeta. rewrite Z.eqb_refl. cbn [g_currv]. f_equal.
        destruct (HX 0 ltac:(lia)) as (_ & _ & _ & _ & _ & _ & _ & _ & E). exact E.
      + intros t' s Ht' N. cbv zeta. destruct (Z.eqb_spec t' 0); [lia|].
        etransitivity; [apply (full_rest lthreed lasym mpol ntor nZnT nThetaEff nThetaReduced lamscale (fun g => g_currv g)); reflexivity|].
        apply (half_rest lthreed ns nZnT (fun g => g_currv g)). reflexivity.
  Qed.
End G.
