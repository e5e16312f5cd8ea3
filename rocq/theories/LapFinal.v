From Coq Require Import ZArith List Bool Reals Lia Lra Permutation.
From Verif Require Import Base BaseLemmas SumLemmas PartModel PartSpec PartProofs SizesModel FourierModel FourierSpec TrigSums DftSpec DftTables VacTables
  DftForces DftFold SingSumModel SingSumSpec SingSumProofs LapModel LapSpec LapProofs LapMain.
Import ListNotations.
Open Scope R_scope.

Lemma fold_delta {A B} (g : A -> R) (f : A -> B -> A) (d : B -> R) : (forall a p, g (f a p) = g a + d p) ->
  forall l a, g (fold_left f l a) = g a + rsum l d.
Proof. intros H l. induction l as [|p l IH]; intros a; cbn [fold_left rsum]; [ring|]. rewrite IH, H. ring. Qed.

Lemma zero_loop N (a : Z -> R) i : (0 <= i < N)%Z -> for_up 0 N (fun i a => upd a i 0) a i = 0.
Proof.
  intros Hi. apply (for_up_set (fun a : Z -> R => a i) _ 0 N i); [lia| |].
  - intros b. apply upd_eq.
  - intros j b _ Ne. apply upd_neq. congruence.
Qed.
Lemma add_loop N (v : Z -> R) (a : Z -> R) i : (0 <= i < N)%Z -> for_up 0 N (fun i a => upd a i (a i + v i)) a i = a i + v i.
Proof.
  intros Hi. rewrite (for_up_delta (fun a : Z -> R => a i) _ (fun j => ind j i * v j)).
  - f_equal. rewrite (zsum_single 0 N i); [rewrite ind_refl; ring|lia|]. intros j _ Ne. rewrite ind_neq by assumption. ring.
  - intros j b _. change (upd b j (b j + v j) i) with (add_at b j (v j) i). apply add_at_ind.
Qed.

Section SH.
Variable s : sizes.
Variables mf nf : Z.
Hypothesis Hmf : (0 <= mf)%Z.
Hypothesis Hnf : (0 <= nf)%Z.
Local Notation M := (mnpd mf nf).
Local Notation D := (mnpd_dim s mf nf).
Definition off (h : bool) : Z := if h then M else 0%Z.
(** Position of the entry of row (hr, r) and column (hc, c); the flag selects
    the cosine half. *)
Definition ent (hr hc : bool) (r c : Z) : Z := ((r + off hr) + (c + off hc) * D)%Z.
Definition quad (p : lap_part) (hr hc : bool) : Z -> R :=
  if hr then (if hc then lp_cc p else lp_cs p) else (if hc then lp_sc p else lp_ss p).
Lemma mode_at_range m n : (- nf <= n <= nf)%Z -> (0 <= m <= mf)%Z -> (0 <= mode_at mf nf m n < M)%Z.
Proof. intros. unfold mode_at, mnpd. nia. Qed.
Lemma M_pos : (0 < M)%Z. Proof. unfold mnpd. nia. Qed.
Definition okh (h : bool) : Prop := h = true -> sz_lasym s = true.
Lemma off_range h r : okh h -> (0 <= r < M)%Z -> (0 <= r + off h < D)%Z.
Proof.
  intros Hh Hr. unfold off, mnpd_dim. destruct h; [rewrite (Hh eq_refl); lia|]. destruct (sz_lasym s); lia.
Qed.
Lemma off_inj h h' r r' : (0 <= r < M)%Z -> (0 <= r' < M)%Z -> (r + off h = r' + off h')%Z -> h = h' /\ r = r'.
Proof. intros H1 H2 E. unfold off in E. destruct h, h'; split; auto; lia. Qed.
Lemma ent_inj hr hc r c hr' hc' r' c' : okh hr -> okh hr' -> (0 <= r < M)%Z -> (0 <= r' < M)%Z -> (0 <= c < M)%Z -> (0 <= c' < M)%Z ->
  ent hr hc r c = ent hr' hc' r' c' -> hr = hr' /\ hc = hc' /\ r = r' /\ c = c'.
Proof.
  intros K1 K2 H1 H2 H3 H4 E. unfold ent in E. pose proof (off_range hr r K1 H1). pose proof (off_range hr' r' K2 H2).
  rewrite (Z.add_comm (r + off hr)), (Z.add_comm (r' + off hr')) in E. apply flat_inj in E; try lia. destruct E as [E1 E2].
  apply off_inj in E1; try assumption. apply off_inj in E2; try assumption. destruct E1, E2. auto.
Qed.
Lemma ent_range hr hc r c : okh hr -> okh hc -> (0 <= r < M)%Z -> (0 <= c < M)%Z -> (0 <= ent hr hc r c < D * D)%Z.
Proof. intros K1 K2 Hr Hc. pose proof (off_range hr r K1 Hr). pose proof (off_range hc c K2 Hc). unfold ent. nia. Qed.
Lemma okf : okh false. Proof. discriminate. Qed.

Lemma add_part_val p a hr hc r c : okh hr -> okh hc -> (0 <= r < M)%Z -> (0 <= c < M)%Z ->
  add_part s mf nf p a (ent hr hc r c) = a (ent hr hc r c) + quad p hr hc (c * M + r)%Z.
Proof.
  intros K1 K2 Hr Hc. unfold add_part. destruct (sz_lasym s) eqn:LA.
  - assert (KT : okh true) by (intros _; exact LA).
    set (e := ent hr hc r c).
    rewrite (for_up_delta (fun a : Z -> R => a e) _ (fun j => zsum 0 M (fun i =>
      ind (ent false false i j) e * lp_ss p (j * M + i)%Z + ind (ent false true i j) e * lp_sc p (j * M + i)%Z +
      ind (ent true false i j) e * lp_cs p (j * M + i)%Z + ind (ent true true i j) e * lp_cc p (j * M + i)%Z))).
    + f_equal. 
      assert (NE : forall h1 h2 i j, (0 <= i < M)%Z -> (0 <= j < M)%Z -> (h1 <> hr \/ h2 <> hc \/ i <> r \/ j <> c) -> ind (ent h1 h2 i j) e = 0).
      { intros h1 h2 i j Hi Hj Ne. apply ind_neq. intros E. unfold e in E. apply ent_inj in E; [|destruct h1; [exact KT|exact okf]|assumption..]. destruct E as (-> & -> & -> & ->). tauto. }
      rewrite (zsum_single 0 M c); [|lia|].
      * rewrite (zsum_single 0 M r); [|lia|].
        -- unfold quad. destruct hr, hc; 
           [rewrite (NE false false), (NE false true), (NE true false) by (assumption || (right; left; discriminate) || (left; discriminate))
           |rewrite (NE false false), (NE false true), (NE true true) by (assumption || (right; left; discriminate) || (left; discriminate))
           |rewrite (NE false false), (NE true false), (NE true true) by (assumption || (right; left; discriminate) || (left; discriminate))
           |rewrite (NE false true), (NE true false), (NE true true) by (assumption || (right; left; discriminate) || (left; discriminate))]; unfold e; rewrite ind_refl; ring.
        -- intros i Hi Ne. rewrite !NE by (lia || auto). ring.
      * intros j Hj Ne. apply zsum_zero. intros i Hi. rewrite !NE by (lia || auto). ring.
    + intros j b Hj. apply (for_up_delta (fun a : Z -> R => a e)). intros i b1 Hi. cbv zeta. rewrite !add_at_ind. unfold ent, off. rewrite !Z.add_0_r. ring.
  - destruct hr; [specialize (K1 eq_refl); congruence|]. destruct hc; [specialize (K2 eq_refl); congruence|].
    pose proof (ent_range false false r c okf okf Hr Hc) as RG. unfold quad.
    assert (E : ent false false r c = (c * M + r)%Z). { unfold ent, off, mnpd_dim. rewrite LA. ring. }
    assert (ED : D = M). { unfold mnpd_dim. rewrite LA. reflexivity. }
    rewrite ED in RG. rewrite E in *. apply (add_loop (M * M) (lp_ss p)). exact RG.
Qed.

Definition diag (hr hc : bool) (m n m' n' : Z) : R :=
  if (eqb hr hc && (m =? m') && (n =? n'))%Z%bool then (if (hr && (m =? 0) && (n =? 0))%Z%bool then 1 else 1 / 2) else 0.
Lemma mode_at_inj m n m' n' : (0 <= m <= mf)%Z -> (0 <= m' <= mf)%Z -> mode_at mf nf m n = mode_at mf nf m' n' -> m = m' /\ n = n'.
Proof. intros H1 H2 E. unfold mode_at in E. apply flat_inj in E; lia. Qed.
Lemma finish_val a hr hc m n m' n' : okh hr -> okh hc -> (- nf <= n <= nf)%Z -> (0 <= m <= mf)%Z -> (- nf <= n' <= nf)%Z -> (0 <= m' <= mf)%Z ->
  let e := ent hr hc (mode_at mf nf m n) (mode_at mf nf m' n') in
  finish_matrix s mf nf a e = (if redundant m n then 0 else a e) + diag hr hc m n m' n'.
Proof.
  intros K1 K2 Hn Hm Hn' Hm'. cbv zeta. set (r := mode_at mf nf m n). set (c := mode_at mf nf m' n'). set (e := ent hr hc r c).
  assert (Hr : (0 <= r < M)%Z) by (apply mode_at_range; assumption). assert (Hc : (0 <= c < M)%Z) by (apply mode_at_range; assumption).
  unfold finish_matrix. cbv zeta.
  match goal with |- context [for_up 0 M ?B a] => set (Z1 := for_up 0 M B a) end.
  assert (RW : forall an, (0 <= an < nf)%Z -> (0 <= an * (mf + 1) + 0 < M)%Z) by (intros an H; unfold mnpd; nia).
  assert (EZ : Z1 e = if redundant m n then 0 else a e).
  { assert (NR : forall h1 h2 an mnp, okh h1 -> (0 <= an < nf)%Z -> (0 <= mnp < M)%Z -> e = ent h1 h2 (an * (mf + 1) + 0)%Z mnp -> h1 = hr /\ h2 = hc /\ mnp = c /\ m = 0%Z /\ an = (nf + n)%Z).
    { intros h1 h2 an mnp Kh Han Hmnp E. unfold e in E. symmetry in E. apply ent_inj in E; try assumption; [|apply RW; assumption].
      destruct E as (E1 & E2 & E3 & E4). unfold r, mode_at in E3. apply flat_inj in E3; try lia. repeat split; auto; lia. }
    unfold Z1. destruct (sz_lasym s) eqn:LA.
    - assert (KT : okh true) by (intros _; exact LA).
      set (body := fun (mnp an : Z) (a : Z -> R) => upd (upd (upd (upd a (ent false false (an * (mf + 1) + 0)%Z mnp) 0) (ent false true (an * (mf + 1) + 0)%Z mnp) 0) (ent true false (an * (mf + 1) + 0)%Z mnp) 0) (ent true true (an * (mf + 1) + 0)%Z mnp) 0).
      match goal with |- ?l = _ => assert (EB : l = for_up 0 M (fun mnp a => for_up 0 nf (fun an a => body mnp an a) a) a e) end.
      { apply (f_equal (fun f : Z -> R => f e)). apply for_up_ext. intros mnp b Hmnp. apply for_up_ext. intros an b1 Han. unfold body, ent, off. rewrite !Z.add_0_r. reflexivity. }
      rewrite EB. clear EB.
      assert (OUT : forall mnp an b, (0 <= mnp < M)%Z -> (0 <= an < nf)%Z -> ~ (mnp = c /\ m = 0%Z /\ an = (nf + n)%Z) -> body mnp an b e = b e).
      { intros mnp an b Hmnp Han N. unfold body. rewrite !upd_neq; try reflexivity; intros E; apply NR in E; try assumption; try exact okf; try exact KT; tauto. }
      destruct (redundant m n) eqn:RD.
      + unfold redundant in RD. apply andb_true_iff in RD. destruct RD as [R1 R2]. apply Z.eqb_eq in R1. apply Z.ltb_lt in R2.
        apply (for_up_set (fun a : Z -> R => a e) _ 0 M c); [lia| |].
        * apply (for_up_set (fun a : Z -> R => a e) _ 0 nf (nf + n)%Z); [lia| |].
          -- intros b. assert (EE : e = ent hr hc ((nf + n) * (mf + 1) + 0)%Z c) by (unfold e, r, mode_at; rewrite R1; reflexivity).
             unfold body. rewrite EE. unfold upd. destruct hr, hc; repeat (match goal with |- context [Z.eqb ?x ?y] => destruct (Z.eqb_spec x y) end); try reflexivity; try congruence.
          -- intros an b Han Ne. apply OUT; lia.
        * intros mnp b Hmnp Ne. apply (for_up_keep (fun a : Z -> R => a e)). intros an b1 Han. apply OUT; lia.
      + apply (for_up_keep (fun a : Z -> R => a e)). intros mnp b Hmnp. apply (for_up_keep (fun a : Z -> R => a e)). intros an b1 Han. apply OUT; try lia.
        intros (-> & -> & ->). unfold redundant in RD. rewrite Z.eqb_refl in RD. cbn [andb] in RD. apply Z.ltb_ge in RD. lia.
    - assert (IX : forall mnp an, ((mnp * (2 * nf + 1) + an) * (mf + 1) + 0)%Z = ent false false (an * (mf + 1) + 0)%Z mnp).
      { intros. unfold ent, off, mnpd_dim. rewrite LA. unfold mnpd. ring. }
      assert (HR : hr = false) by (destruct hr; [specialize (K1 eq_refl); congruence|reflexivity]).
      assert (HC : hc = false) by (destruct hc; [specialize (K2 eq_refl); congruence|reflexivity]).
      assert (OUT : forall mnp an b, (0 <= mnp < M)%Z -> (0 <= an < nf)%Z -> ~ (mnp = c /\ m = 0%Z /\ an = (nf + n)%Z) -> upd b ((mnp * (2 * nf + 1) + an) * (mf + 1) + 0)%Z 0 e = b e).
      { intros mnp an b Hmnp Han N. apply upd_neq. intros E. rewrite IX in E. apply NR in E; try assumption; try exact okf. tauto. }
      destruct (redundant m n) eqn:RD.
      + unfold redundant in RD. apply andb_true_iff in RD. destruct RD as [R1 R2]. apply Z.eqb_eq in R1. apply Z.ltb_lt in R2.
        apply (for_up_set (fun a : Z -> R => a e) _ 0 M c); [lia| |].
        * apply (for_up_set (fun a : Z -> R => a e) _ 0 nf (nf + n)%Z); [lia| |].
          -- intros b. assert (EE : e = ent false false ((nf + n) * (mf + 1) + 0)%Z c) by (unfold e, r, mode_at; rewrite R1, HR, HC; reflexivity).
             rewrite EE, IX. apply upd_eq.
          -- intros an b Han Ne. apply OUT; lia.
        * intros mnp b Hmnp Ne. apply (for_up_keep (fun a : Z -> R => a e)). intros an b1 Han. apply OUT; lia.
      + apply (for_up_keep (fun a : Z -> R => a e)). intros mnp b Hmnp. apply (for_up_keep (fun a : Z -> R => a e)). intros an b1 Han. apply OUT; try lia.
        intros (-> & -> & ->). unfold redundant in RD. rewrite Z.eqb_refl in RD. cbn [andb] in RD. apply Z.ltb_ge in RD. lia. }
  rewrite <- EZ. clearbody Z1. clear EZ.
  assert (SAME : (r =? c)%Z = ((m =? m') && (n =? n'))%Z%bool).
  { destruct (Z.eqb_spec r c) as [E|E].
    - apply mode_at_inj in E; try assumption. destruct E as [-> ->]. rewrite !Z.eqb_refl. reflexivity.
    - destruct (Z.eqb_spec m m') as [->|]; [|reflexivity]. destruct (Z.eqb_spec n n') as [->|]; [|reflexivity]. exfalso. apply E. reflexivity. }
  assert (PK : forall h, okh h -> zsum 0 M (fun mn => ind (ent h h mn mn) e * (1 / 2)) = if (eqb h hr && eqb h hc && (r =? c)%Z)%bool then 1 / 2 else 0).
  { intros h Kh. assert (NE : forall mn, (0 <= mn < M)%Z -> (h <> hr \/ h <> hc \/ mn <> r \/ mn <> c) -> ind (ent h h mn mn) e = 0).
    { intros mn Hmn Ne. apply ind_neq. intros E. unfold e in E. apply ent_inj in E; try assumption. destruct E as (E1 & E2 & E3 & E4). rewrite E1 in Ne, E2. rewrite <- E2 in Ne. tauto. }
    destruct (eqb h hr && eqb h hc && (r =? c)%Z)%bool eqn:EQ.
    - apply andb_true_iff in EQ. destruct EQ as [EQ E3]. apply andb_true_iff in EQ. destruct EQ as [E1 E2]. apply eqb_prop in E1. apply eqb_prop in E2. apply Z.eqb_eq in E3.
      rewrite (zsum_single 0 M r); [|lia|].
      + assert (EE : e = ent h h r r) by (unfold e; rewrite <- E1, <- E2, <- E3; reflexivity). rewrite EE, ind_refl. ring.
      + intros mn Hmn Ne. rewrite NE by auto. ring.
    - apply zsum_zero. intros mn Hmn. rewrite NE; [ring|assumption|].
      destruct (bool_dec h hr) as [E1|]; [|auto]. destruct (bool_dec h hc) as [E2|]; [|auto]. right; right.
      destruct (Z.eq_dec mn r) as [E3|]; [|auto]. right. intros E4. rewrite <- E1, <- E2, eqb_reflx in EQ. cbn [andb] in EQ. apply Z.eqb_neq in EQ. congruence. }
  destruct (sz_lasym s) eqn:LA.
  - assert (KT : okh true) by (intros _; exact LA).
    assert (E0 : (nf * (mf + 1) + M + (nf * (mf + 1) + M) * D)%Z = ent true true (mode_at mf nf 0 0) (mode_at mf nf 0 0)) by (unfold ent, off, mode_at; rewrite !Z.add_0_r; reflexivity).
    rewrite E0, add_at_ind.
    rewrite (for_up_delta (fun a : Z -> R => a e) _ (fun mn => ind (ent false false mn mn) e * (1 / 2) + ind (ent true true mn mn) e * (1 / 2))).
    2:{ intros mn b Hmn. cbv zeta. rewrite !add_at_ind. unfold ent, off. rewrite !Z.add_0_r. ring. }
    rewrite zsum_plus, (PK false okf), (PK true KT), SAME. unfold diag.
    assert (H00 : ind (ent true true (mode_at mf nf 0 0) (mode_at mf nf 0 0)) e = if (hr && hc && (m =? 0) && (n =? 0) && (m =? m') && (n =? n'))%Z%bool then 1 else 0).
    { unfold ind. match goal with |- (if ?b then _ else _) = (if ?c then _ else _) => assert (QE : b = c); [|rewrite QE; reflexivity] end.
      match goal with |- ?b = ?c => destruct c eqn:EC end.
      - repeat (apply andb_true_iff in EC; destruct EC as [EC ?]). repeat match goal with H : (_ =? _)%Z = true |- _ => apply Z.eqb_eq in H end.
        apply Z.eqb_eq. unfold e, r, c. subst. reflexivity.
      - apply Z.eqb_neq. intros E. unfold e in E. pose proof (mode_at_range 0 0 ltac:(lia) ltac:(lia)). apply ent_inj in E; try assumption.
        destruct E as (<- & <- & E1 & E2). apply mode_at_inj in E1; [|lia|lia]. apply mode_at_inj in E2; [|lia|lia]. destruct E1 as [E1 E1']. destruct E2 as [E2 E2']. rewrite <- E1, <- E1', <- E2, <- E2' in EC. discriminate. }
    rewrite H00. destruct hr, hc, (Z.eqb_spec m m'), (Z.eqb_spec n n'), (Z.eqb_spec m 0), (Z.eqb_spec n 0); cbn; lra.
  - assert (HR : hr = false) by (destruct hr; [specialize (K1 eq_refl); congruence|reflexivity]).
    assert (HC : hc = false) by (destruct hc; [specialize (K2 eq_refl); congruence|reflexivity]).
    rewrite (for_up_delta (fun a : Z -> R => a e) _ (fun mn => ind (ent false false mn mn) e * (1 / 2))).
    2:{ intros mn b Hmn. rewrite add_at_ind. unfold ent, off, mnpd_dim. rewrite LA, !Z.add_0_r. rewrite (Z.add_comm mn). reflexivity. }
    rewrite (PK false okf), SAME. unfold diag. rewrite HR, HC. cbn [eqb andb]. destruct (Z.eqb_spec m m'), (Z.eqb_spec n n'); cbn; lra.
Qed.

Lemma build_val parts share hr hc m n m' n' : okh hr -> okh hc -> (- nf <= n <= nf)%Z -> (0 <= m <= mf)%Z -> (- nf <= n' <= nf)%Z -> (0 <= m' <= mf)%Z ->
  build_matrix s mf nf parts share (ent hr hc (mode_at mf nf m n) (mode_at mf nf m' n')) =
  (if redundant m n then 0 else rsum parts (fun p => quad p hr hc (mode_at mf nf m' n' * M + mode_at mf nf m n)%Z)) + diag hr hc m n m' n'.
Proof.
  intros K1 K2 Hn Hm Hn' Hm'. unfold build_matrix. cbv zeta. rewrite finish_val by assumption. f_equal. destruct (redundant m n); [reflexivity|].
  pose proof (mode_at_range m n Hn Hm). pose proof (mode_at_range m' n' Hn' Hm').
  rewrite (fold_delta (fun a : Z -> R => a (ent hr hc (mode_at mf nf m n) (mode_at mf nf m' n'))) _ (fun p => quad p hr hc (mode_at mf nf m' n' * M + mode_at mf nf m n)%Z)).
  - rewrite zero_loop by (apply ent_range; assumption). ring.
  - intros a p. apply add_part_val; assumption.
Qed.

Definition bvec (p : lap_part * ((Z -> R) * (Z -> R))) (h : bool) (i : Z) : R :=
  if h then lp_bc (fst p) i + snd (snd p) i * (1 / IZR (sz_nfp s)) else lp_bs (fst p) i + fst (snd p) i * (1 / IZR (sz_nfp s)).
Lemma add_rhs_val p b h r : okh h -> (0 <= r < M)%Z ->
  add_rhs s mf nf (fst p) (fst (snd p)) (snd (snd p)) b (r + off h)%Z = b (r + off h)%Z + bvec p h r.
Proof.
  intros Kh Hr. unfold add_rhs, bvec. cbv zeta. destruct p as [p [x y]]. cbn [fst snd]. destruct h; cbn [off].
  - rewrite (Kh eq_refl).
    rewrite (for_up_delta (fun a : Z -> R => a (r + M)%Z) _ (fun i => ind (M + i) (r + M) * (lp_bc p i + y i * (1 / IZR (sz_nfp s))))).
    + f_equal; [apply (for_up_keep (fun a : Z -> R => a (r + M)%Z)); intros i b1 Hi; apply upd_neq; lia|].
      rewrite (zsum_single 0 M r); [|lia|].
      * rewrite Z.add_comm, ind_refl. ring.
      * intros i Hi Ne. rewrite ind_neq by lia. ring.
    + intros i b1 Hi. match goal with |- upd ?a ?i (?a ?i + ?v) ?j = _ => change (upd a i (a i + v) j) with (add_at a i v j) end. apply add_at_ind.
  - rewrite Z.add_0_r.
    transitivity (for_up 0 M (fun i b => upd b i (b i + (lp_bs p i + x i * (1 / IZR (sz_nfp s))))) b r).
    + destruct (sz_lasym s); [|reflexivity]. apply (for_up_keep (fun a : Z -> R => a r)). intros i b1 Hi. apply upd_neq. lia.
    + apply (add_loop M (fun i => lp_bs p i + x i * (1 / IZR (sz_nfp s)))). exact Hr.
Qed.
Lemma rhs_val parts share h m n : okh h -> (- nf <= n <= nf)%Z -> (0 <= m <= mf)%Z ->
  build_rhs s mf nf parts share (mode_at mf nf m n + off h)%Z =
  if redundant m n then 0 else rsum parts (fun p => bvec p h (mode_at mf nf m n)).
Proof.
  intros Kh Hn Hm. pose proof (mode_at_range m n Hn Hm) as Hr. unfold build_rhs. cbv zeta. set (e := (mode_at mf nf m n + off h)%Z).
  match goal with |- for_up 0 nf ?B ?X e = _ => set (body := B); set (b := X) end.
  assert (RW : forall an, (0 <= an < nf)%Z -> (0 <= an * (mf + 1) + 0 < M)%Z) by (intros an H; unfold mnpd; nia).
  assert (NR : forall h1 an, (0 <= an < nf)%Z -> e = (an * (mf + 1) + 0 + off h1)%Z -> h1 = h /\ m = 0%Z /\ an = (nf + n)%Z).
  { intros h1 an Han E. unfold e in E. apply off_inj in E; try assumption; [|apply RW; assumption]. destruct E as [-> E]. unfold mode_at in E. apply flat_inj in E; try lia. repeat split; lia. }
  assert (OUT : forall an b, (0 <= an < nf)%Z -> ~ (m = 0%Z /\ an = (nf + n)%Z) -> body an b e = b e).
  { intros an b1 Han N. unfold body. cbv zeta. destruct (sz_lasym s); rewrite ?upd_neq; try reflexivity; intros E.
    all: apply N; first [apply (NR true an); [assumption|rewrite E; cbn [off]; lia]|apply (NR false an); [assumption|rewrite E; cbn [off]; lia]]. }
  destruct (redundant m n) eqn:RD.
  - unfold redundant in RD. apply andb_true_iff in RD. destruct RD as [R1 R2]. apply Z.eqb_eq in R1. apply Z.ltb_lt in R2.
    apply (for_up_set (fun a : Z -> R => a e) _ 0 nf (nf + n)%Z); [lia| |].
    + intros b1. unfold body. cbv zeta. destruct h; cbn [off] in e.
      * rewrite (Kh eq_refl). unfold e, mode_at. rewrite R1. replace ((nf + n) * (mf + 1) + 0 + M)%Z with (M + (nf + n) * (mf + 1) + 0)%Z by ring. apply upd_eq.
      * assert (EE : e = ((nf + n) * (mf + 1) + 0)%Z) by (unfold e, mode_at; rewrite R1; ring). rewrite EE.
        destruct (sz_lasym s); [|apply upd_eq]. rewrite upd_neq; [apply upd_eq|]. pose proof M_pos. lia.
    + intros an b1 Han Ne. apply OUT; lia.
  - transitivity (b e).
    + apply (for_up_keep (fun a : Z -> R => a e)). intros an b1 Han. apply OUT; [assumption|]. intros (-> & ->).
      unfold redundant in RD. rewrite Z.eqb_refl in RD. cbn [andb] in RD. apply Z.ltb_ge in RD. lia.
    + unfold b. rewrite (fold_delta (fun a : Z -> R => a e) _ (fun p => bvec p h (mode_at mf nf m n))).
      * rewrite zero_loop by (apply off_range; assumption). ring.
      * intros a p. apply add_rhs_val; assumption.
Qed.
End SH.
