From Coq Require Import ZArith List Bool Lia.
From Verif Require Import Base BaseLemmas Num PartModel PartSpec PartProofs ReduceProps LapMain GatherModel GatherSpec.
Open Scope Z_scope.

Lemma rd_in {K : num} (a : arr K) i : 0 <= i < len a -> rd a i = Some (at_ a i).
Proof. intros H. unfold rd. destruct (Z.leb_spec 0 i), (Z.ltb_spec i (len a)); try lia. reflexivity. Qed.

Lemma rd_rows {K : num} (a : arr K) lo n w b hi f j i :
  rows a lo n w b hi f -> b <= j < hi -> lo <= j < lo + n -> 0 <= i < w -> rd a ((j - lo) * w + i) = Some (f j i).
Proof.
  intros (L & E) Hb Hj Hi. rewrite rd_in; [rewrite E by lia; reflexivity|]. rewrite L. nia.
Qed.

Lemma flat_ne w a i b j : 0 <= i < w -> 0 <= j < w -> a <> b -> a * w + i <> b * w + j.
Proof. intros Hi Hj N E. destruct (flat_inj w a i b j Hi Hj E). contradiction. Qed.

Section G.
  Context {K : num} (lthreed lasym : bool) (ns mpol ntor nZnT nThetaEff nThetaReduced : Z) (lamscale : K).
  Let GH := @gather_half K lthreed ns nZnT.
  Let GF := @gather_full K lthreed lasym mpol ntor nZnT nThetaEff nThetaReduced lamscale.

  (** The half-grid loop. *)
  Lemma half_prof n j r x g :
    (nsMinH r <= j < nsMaxH r /\ counts_half r ns j = true -> g_hp (GH r x g) n j = rd (s_hp x n) (j - nsMinH r)) /\
    (~ (nsMinH r <= j < nsMaxH r /\ counts_half r ns j = true) -> g_hp (GH r x g) n j = g_hp g n j).
  Proof.
    unfold GH, gather_half. split.
    - intros (Hj & Hc). apply (for_up_set (fun g => g_hp g n j)) with (x0 := j); [exact Hj| |].
      + intros s. rewrite Hc. rewrite (for_up_keep (fun g => g_hp g n j)) by reflexivity. cbn [g_hp]. apply upd_eq.
      + intros y s Hy N. destruct (counts_half r ns y); [|reflexivity].
        rewrite (for_up_keep (fun g => g_hp g n j)) by reflexivity. cbn [g_hp]. apply upd_neq. lia.
    - intros Hn. apply (for_up_keep (fun g => g_hp g n j)). intros y s Hy. destruct (counts_half r ns y) eqn:E; [|reflexivity].
      rewrite (for_up_keep (fun g => g_hp g n j)) by reflexivity. cbn [g_hp]. apply upd_neq. intros ->. apply Hn. split; assumption.
  Qed.

  Lemma half_field n j i r x g : (n <> Guv \/ lthreed = true) -> 0 <= i < nZnT ->
    (nsMinH r <= j < nsMaxH r /\ counts_half r ns j = true ->
       g_hf (GH r x g) n (j * nZnT + i) = rd (s_hf x n) ((j - nsMinH r) * nZnT + i)) /\
    (~ (nsMinH r <= j < nsMaxH r /\ counts_half r ns j = true) -> g_hf (GH r x g) n (j * nZnT + i) = g_hf g n (j * nZnT + i)).
  Proof.
    intros Hn Hi. assert (U : is_guv n && negb lthreed = false).
    { destruct Hn as [N| ->]; [destruct n; try reflexivity; contradiction|apply andb_false_r]. }
    assert (Keep : forall y s, y <> j -> g_hf (for_up 0 nZnT (fun kl g =>
          mkRes (g_hp g)
            (fun n => if is_guv n && negb lthreed then g_hf g n
                      else upd (g_hf g n) (y * nZnT + kl) (rd (s_hf x n) ((y - nsMinH r) * nZnT + kl)))
            (g_fp g) (g_co g) (g_ff g) (g_of g) (g_bsubvF g) (g_currv g)) s) n (j * nZnT + i) = g_hf s n (j * nZnT + i)).
    { intros y s N. apply (for_up_keep (fun g => g_hf g n (j * nZnT + i))). intros kl s' Hk. cbn [g_hf]. rewrite U.
      apply upd_neq. apply flat_ne; lia. }
    unfold GH, gather_half. split.
    - intros (Hj & Hc). apply (for_up_set (fun g => g_hf g n (j * nZnT + i))) with (x0 := j); [exact Hj| |].
      + intros s. rewrite Hc. apply (for_up_set (fun g => g_hf g n (j * nZnT + i))) with (x0 := i); [exact Hi| |].
        * intros s'. cbn [g_hf]. rewrite U. apply upd_eq.
        * intros kl s' Hk N. cbn [g_hf]. rewrite U. apply upd_neq. lia.
      + intros y s Hy N. destruct (counts_half r ns y); [|reflexivity]. rewrite Keep by exact N. reflexivity.
    - intros Hno. apply (for_up_keep (fun g => g_hf g n (j * nZnT + i))). intros y s Hy. destruct (counts_half r ns y) eqn:E; [|reflexivity].
      rewrite Keep; [reflexivity|]. intros ->. apply Hno. split; assumption.
  Qed.

  (** The half-grid loop does not touch the rest, and conversely. *)
  Lemma half_rest {T} (pr : results K -> T) r x g :
    (forall a b g, pr (mkRes a b (g_fp g) (g_co g) (g_ff g) (g_of g) (g_bsubvF g) (g_currv g)) = pr g) -> pr (GH r x g) = pr g.
  Proof.
    intros H. unfold GH, gather_half. apply (for_up_keep pr). intros y s Hy. destruct (counts_half r ns y); [|reflexivity].
    rewrite (for_up_keep pr) by (intros; apply H). apply H.
  Qed.
  Lemma full_rest {T} (pr : results K -> T) r x g :
    (forall a b c d e g, pr (mkRes (g_hp g) (g_hf g) a b c d e (g_currv g)) = pr g) -> pr (GF r x g) = pr g.
  Proof.
    intros H. unfold GF, gather_full. apply (for_up_keep pr). intros y s Hy. cbv zeta.
    rewrite (for_up_keep pr) by (intros; apply H).
    rewrite (for_up_keep pr); [apply H|]. intros n s' _. apply (for_up_keep pr). intros; apply H.
  Qed.

  (** The full-grid loop. *)
  Let body (r : rpart) (x : share K) (jF : Z) (g : results K) : results K :=
      let g := mkRes (g_hp g) (g_hf g) (fun n => upd (g_fp g n) jF (rd (s_fp x n) (jF - nsMinF1 r)))
                 (g_co g) (g_ff g) (g_of g) (g_bsubvF g) (g_currv g) in
      let g := for_up 0 (ntor + 1) (fun n g => for_up 0 mpol (fun m g =>
          let source_index := ((jF - nsMinF1 r) * mpol + m) * (ntor + 1) + n in
          let target_index := (jF * (ntor + 1) + n) * mpol + m in
          mkRes (g_hp g) (g_hf g) (g_fp g)
            (fun c => if used lthreed lasym c then upd (g_co g c) target_index (rd (s_co x c) source_index) else g_co g c)
            (g_ff g) (g_of g) (g_bsubvF g) (g_currv g)) g) g in
      let unlamscale : K := if jF >? 0 then ndiv (nZ (-1)) lamscale else nZ 1 in
      for_up 0 nZnT (fun kl g =>
        let idx_global := jF * nZnT + kl in
        let idx_local := (jF - nsMinF r) * nZnT + kl in
        let idx_local1 := (jF - nsMinF1 r) * nZnT + kl in
        let blmn_e_full :=
          let b := rd (s_blmn x) idx_local in
          if lasym then
            let l := kl mod nThetaEff in
            if l <? nThetaReduced then bind2 nadd b (rd (s_blmn_asym x) idx_local) else b
          else b in
        mkRes (g_hp g) (g_hf g) (g_fp g) (g_co g)
          (fun n => upd (g_ff g n) idx_global
             (if is_v n && negb lthreed then Some (nZ 0) else rd (s_ff x n) idx_local1))
          (fun n => upd (g_of g n) idx_global (rd (s_of x n) idx_local))
          (upd (g_bsubvF g) idx_global (bind2 nmul blmn_e_full (Some unlamscale)))
          (g_currv g)) g.
  Lemma GF_body r x g : GF r x g = for_up (nsMinF r) (nsMaxFIncludingLcfs r) (body r x) g.
  Proof. reflexivity. Qed.

  (** An entry written at row [j] only. *)
  Lemma row_set {T} (pr : results K -> T) r x j v :
    (forall s, pr (body r x j s) = v) -> (forall y s, y <> j -> pr (body r x y s) = pr s) ->
    forall g, (nsMinF r <= j < nsMaxFIncludingLcfs r -> pr (GF r x g) = v) /\
      (~ nsMinF r <= j < nsMaxFIncludingLcfs r -> pr (GF r x g) = pr g).
  Proof.
    intros Hv Hk g. rewrite GF_body. split; intros H.
    - apply (for_up_set pr) with (x0 := j); [exact H|exact Hv|]. intros y s _ N. apply Hk. exact N.
    - apply (for_up_keep pr). intros y s Hy. apply Hk. intros ->. contradiction.
  Qed.

  (** The three parts of the body, seen by a projection. *)
  Lemma body_prof {T} (pr : results K -> T) r x y s :
    (forall a b c d g, pr (mkRes (g_hp g) (g_hf g) (g_fp g) a b c d (g_currv g)) = pr g) ->
    pr (body r x y s) = pr (mkRes (g_hp s) (g_hf s) (fun n => upd (g_fp s n) y (rd (s_fp x n) (y - nsMinF1 r)))
                 (g_co s) (g_ff s) (g_of s) (g_bsubvF s) (g_currv s)).
  Proof.
    intros H. unfold body. cbv zeta. rewrite (for_up_keep pr) by (intros; apply H).
    rewrite (for_up_keep pr); [reflexivity|]. intros n s' _. apply (for_up_keep pr). intros; apply H.
  Qed.

  Lemma full_prof n j r x g :
    (nsMinF r <= j < nsMaxFIncludingLcfs r -> g_fp (GF r x g) n j = rd (s_fp x n) (j - nsMinF1 r)) /\
    (~ nsMinF r <= j < nsMaxFIncludingLcfs r -> g_fp (GF r x g) n j = g_fp g n j).
  Proof.
    apply (row_set (fun g => g_fp g n j)).
    - intros s. rewrite (body_prof (fun g => g_fp g n j)) by reflexivity. cbn [g_fp]. apply upd_eq.
    - intros y s N. rewrite (body_prof (fun g => g_fp g n j)) by reflexivity. cbn [g_fp]. apply upd_neq. lia.
  Qed.

  Lemma full_coef c m n j r x g : used lthreed lasym c = true -> 0 <= m < mpol -> 0 <= n <= ntor ->
    (nsMinF r <= j < nsMaxFIncludingLcfs r ->
       g_co (GF r x g) c ((j * (ntor + 1) + n) * mpol + m) = rd (s_co x c) (((j - nsMinF1 r) * mpol + m) * (ntor + 1) + n)) /\
    (~ nsMinF r <= j < nsMaxFIncludingLcfs r ->
       g_co (GF r x g) c ((j * (ntor + 1) + n) * mpol + m) = g_co g c ((j * (ntor + 1) + n) * mpol + m)).
  Proof.
    intros Hc Hm Hn. set (tg := (j * (ntor + 1) + n) * mpol + m).
    apply (row_set (fun g => g_co g c tg)).
    - intros s. unfold body. cbv zeta. rewrite (for_up_keep (fun g => g_co g c tg)) by reflexivity.
      apply (for_up_set (fun g => g_co g c tg)) with (x0 := n); [lia| |].
      + intros s'. apply (for_up_set (fun g => g_co g c tg)) with (x0 := m); [lia| |].
        * intros s2. cbn [g_co]. rewrite Hc. apply upd_eq.
        * intros m' s2 Hm' N. cbn [g_co]. rewrite Hc. apply upd_neq. unfold tg. lia.
      + intros n' s' Hn' N. apply (for_up_keep (fun g => g_co g c tg)). intros m' s2 Hm'. cbn [g_co]. rewrite Hc. apply upd_neq.
        unfold tg. apply flat_ne; lia.
    - intros y s N. unfold body. cbv zeta. rewrite (for_up_keep (fun g => g_co g c tg)) by reflexivity.
      rewrite (for_up_keep (fun g => g_co g c tg)); [reflexivity|]. intros n' s' Hn'.
      apply (for_up_keep (fun g => g_co g c tg)). intros m' s2 Hm'. cbn [g_co]. rewrite Hc. apply upd_neq.
      unfold tg. apply flat_ne; [lia|lia|]. apply flat_ne; lia.
  Qed.

  (** Entries on the grid of angles. *)
  Lemma grid_set {T} (pr : results K -> Z -> T) (val : Z -> Z -> T) r x :
    (forall a b g i, pr (mkRes (g_hp g) (g_hf g) a b (g_ff g) (g_of g) (g_bsubvF g) (g_currv g)) i = pr g i) ->
    (forall y kl s i, pr (mkRes (g_hp s) (g_hf s) (g_fp s) (g_co s)
          (fun n => upd (g_ff s n) (y * nZnT + kl)
             (if is_v n && negb lthreed then Some (nZ 0) else rd (s_ff x n) ((y - nsMinF1 r) * nZnT + kl)))
          (fun n => upd (g_of s n) (y * nZnT + kl) (rd (s_of x n) ((y - nsMinF r) * nZnT + kl)))
          (upd (g_bsubvF s) (y * nZnT + kl)
             (bind2 nmul (if lasym then if kl mod nThetaEff <? nThetaReduced
                 then bind2 nadd (rd (s_blmn x) ((y - nsMinF r) * nZnT + kl)) (rd (s_blmn_asym x) ((y - nsMinF r) * nZnT + kl))
                 else rd (s_blmn x) ((y - nsMinF r) * nZnT + kl) else rd (s_blmn x) ((y - nsMinF r) * nZnT + kl))
               (Some (if y >? 0 then ndiv (nZ (-1)) lamscale else nZ 1))))
          (g_currv s)) i = if i =? y * nZnT + kl then val y kl else pr s i) ->
    forall j i g, 0 <= i < nZnT ->
      (nsMinF r <= j < nsMaxFIncludingLcfs r -> pr (GF r x g) (j * nZnT + i) = val j i) /\
      (~ nsMinF r <= j < nsMaxFIncludingLcfs r -> pr (GF r x g) (j * nZnT + i) = pr g (j * nZnT + i)).
  Proof.
    intros H1 H2 j i g Hi. apply (row_set (fun g => pr g (j * nZnT + i))).
    - intros s. unfold body. cbv zeta.
      apply (for_up_set (fun g => pr g (j * nZnT + i))) with (x0 := i); [exact Hi| |].
      + intros s'. rewrite H2, Z.eqb_refl. reflexivity.
      + intros kl s' Hk N. rewrite H2. destruct (Z.eqb_spec (j * nZnT + i) (j * nZnT + kl)); [lia|reflexivity].
    - intros y s N. unfold body. cbv zeta.
      rewrite (for_up_keep (fun g => pr g (j * nZnT + i))).
      + rewrite (for_up_keep (fun g => pr g (j * nZnT + i))); [apply H1|].
        intros n s' _. apply (for_up_keep (fun g => pr g (j * nZnT + i))). intros. apply H1.
      + intros kl s' Hk. rewrite H2. destruct (Z.eqb_spec (j * nZnT + i) (y * nZnT + kl)) as [E|]; [|reflexivity].
        exfalso. revert E. apply flat_ne; lia.
  Qed.
End G.
