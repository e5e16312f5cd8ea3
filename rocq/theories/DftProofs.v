(** Geometry: the loops compute the series and its derivatives. *)
From Coq Require Import ZArith List Bool Reals Lia Lra.
From Verif Require Import Base BaseLemmas SumLemmas SizesModel FourierModel FourierSpec FourierProofs TrigSums
  PartModel DftModel DftSpec DftTables.
Import ListNotations.
Open Scope R_scope.

Lemma for_up_proj {S} (pr : S -> R) (body : Z -> S -> S) (c : Z -> R) lo hi s :
  (forall j s, (lo <= j < hi)%Z -> pr (body j s) = pr s + c j) ->
  pr (for_up lo hi body s) = pr s + zsum lo hi c.
Proof.
  intros H. unfold zsum, for_up.
  assert (K : forall l, (forall j, In j l -> (lo <= j < hi)%Z) -> forall s,
     pr (fold_left (fun s j => body j s) l s) = pr s + rsum l c).
  { induction l as [|j l IH]; intros Hl b; [cbn; lra|]. cbn [fold_left rsum].
    rewrite IH by (intros; apply Hl; right; auto). rewrite H by (apply Hl; left; auto). lra. }
  apply K. intros j. apply zrange_In.
Qed.

Definition seg_c (base n : Z) (v : Z -> R) (i : Z) : R :=
  if (base <=? i)%Z && (i <? base + n)%Z then v (i - base)%Z else 0.
Lemma seg_add_at a base n v i : seg_add a base n v i = a i + seg_c base n v i.
Proof.
  unfold seg_add. rewrite (for_up_proj (fun a : Z -> R => a i) _ (fun l => if (i =? base + l)%Z then v l else 0)).
  - apply f_equal. unfold seg_c. destruct (Z.leb_spec base i); destruct (Z.ltb_spec i (base + n)); cbn [andb].
    + rewrite (zsum_single 0 n (i - base)); [|lia|].
      * destruct (Z.eqb_spec i (base + (i - base))); [reflexivity|lia].
      * intros j Hj Hn. destruct (Z.eqb_spec i (base + j)); [lia|reflexivity].
    + apply zsum_zero. intros j Hj. destruct (Z.eqb_spec i (base + j)); [lia|reflexivity].
    + apply zsum_zero. intros j Hj. destruct (Z.eqb_spec i (base + j)); [lia|reflexivity].
    + apply zsum_zero. intros j Hj. destruct (Z.eqb_spec i (base + j)); [lia|reflexivity].
  - intros j b _. cbv zeta. unfold upd. destruct (Z.eqb_spec i (base + j)) as [->|]; lra.
Qed.
(** the entry of block [B'] hit by index [B * w + l] *)
Lemma seg_c_hit B w n v l : (0 <= l < n)%Z -> seg_c (B * w) n v (B * w + l) = v l.
Proof.
  intros. unfold seg_c. destruct (Z.leb_spec (B * w) (B * w + l)); destruct (Z.ltb_spec (B * w + l) (B * w + n)); try lia.
  cbn [andb]. f_equal. lia.
Qed.
Lemma seg_c_miss B B' w n v l : (0 <= l < n)%Z -> (n <= w)%Z -> B' <> B -> seg_c (B' * w) n v (B * w + l) = 0.
Proof.
  intros Hl Hn Hb. unfold seg_c. destruct (Z.leb_spec (B' * w) (B * w + l)); [|reflexivity].
  destruct (Z.ltb_spec (B * w + l) (B' * w + n)); [|reflexivity]. exfalso.
  apply Hb. apply (flat_inj w B' (B * w + l - B' * w) B l); lia.
Qed.

Lemma acc_sum f lo hi : for_up lo hi (fun l acc => acc + f l) 0 = zsum lo hi f.
Proof. rewrite (for_up_proj (fun x => x) _ f); [lra|]. intros; lra. Qed.

(** ** General loop lemmas *)
Lemma gather_loop {A T} (w r : A -> Z) (g : A -> T -> T) L :
  NoDup L -> (forall x y, In x L -> In y L -> w x = w y -> x = y) ->
  (forall x y, In x L -> In y L -> x <> y -> r x <> w y) ->
  forall a0 : Z -> T,
  let res := fold_left (fun a x => upd a (w x) (g x (a (r x)))) L a0 in
  (forall x, In x L -> res (w x) = g x (a0 (r x))) /\ (forall i, (forall x, In x L -> w x <> i) -> res i = a0 i).
Proof.
  induction L as [|b L IH] using rev_ind; intros ND Hw Hr a0 res.
  - split; [intros ? []|reflexivity].
  - assert (ND' : NoDup L) by (apply NoDup_remove_1 in ND; rewrite app_nil_r in ND; exact ND).
    assert (Nb : ~ In b L) by (apply NoDup_remove_2 in ND; rewrite app_nil_r in ND; exact ND).
    assert (IL : forall x, In x L -> In x (L ++ [b])) by (intros; apply in_or_app; left; assumption).
    assert (Ib : In b (L ++ [b])) by (apply in_or_app; right; left; reflexivity).
    destruct (IH ND' (fun x y Hx Hy => Hw x y (IL x Hx) (IL y Hy)) (fun x y Hx Hy => Hr x y (IL x Hx) (IL y Hy)) a0) as [I1 I2].
    unfold res. rewrite fold_left_app. cbn [fold_left]. cbv zeta in I1, I2.
    set (a1 := fold_left _ L a0) in *. clearbody a1. split.
    + intros x Hx. apply in_app_or in Hx. destruct Hx as [Hx|[<-|[]]].
      * rewrite upd_neq; [apply I1; assumption|]. intros E. apply Hw in E; auto. subst; contradiction.
      * rewrite upd_eq. f_equal. apply I2. intros y Hy E. apply (Hr b y); auto. intros ->; contradiction.
    + intros i Hi. rewrite upd_neq; [|intros E; apply (Hi b); auto]. apply I2. intros; apply Hi; auto.
Qed.

Lemma block_loop {T} (body : Z -> (Z -> T) -> Z -> T) (blk : Z -> Z) (F : Z -> (Z -> T) -> Z -> T) lo hi a0 :
  (forall j a i, (lo <= j < hi)%Z -> blk i <> j -> body j a i = a i) ->
  (forall j a i, (lo <= j < hi)%Z -> blk i = j -> body j a i = F j a i) ->
  (forall j a a' i, (lo <= j < hi)%Z -> blk i = j -> (forall i', blk i' = j -> a i' = a' i') -> F j a i = F j a' i) ->
  forall i, (lo <= blk i < hi)%Z -> for_up lo hi body a0 i = F (blk i) a0 i.
Proof.
  intros H1 H2 H3 i Hi.
  assert (G : forall i, if (lo <=? blk i)%Z && (blk i <? hi)%Z then for_up lo hi body a0 i = F (blk i) a0 i else for_up lo hi body a0 i = a0 i).
  { apply (for_up_ind (fun n a => forall i, if (lo <=? blk i)%Z && (blk i <? n)%Z then a i = F (blk i) a0 i else a i = a0 i)); [lia| |].
    - intros i'. destruct (Z.leb_spec lo (blk i')); destruct (Z.ltb_spec (blk i') lo); cbn [andb]; try lia; reflexivity.
    - intros n a Hn IH i'. destruct (Z.eq_dec (blk i') n) as [E|E].
      + destruct (Z.leb_spec lo (blk i')); destruct (Z.ltb_spec (blk i') (n + 1)); cbn [andb]; try lia.
        rewrite (H2 n a i') by (auto; lia). rewrite E. apply H3; [lia|exact E|].
        intros i2 E2. specialize (IH i2). rewrite E2 in IH.
        destruct (Z.leb_spec lo n); destruct (Z.ltb_spec n n); cbn [andb] in IH; try lia; exact IH.
      + rewrite (H1 n a i') by (auto; lia). specialize (IH i').
        destruct (Z.leb_spec lo (blk i')); destruct (Z.ltb_spec (blk i') (n + 1)); destruct (Z.ltb_spec (blk i') n); cbn [andb] in *; try lia; exact IH. }
  specialize (G i). destruct (Z.leb_spec lo (blk i)); destruct (Z.ltb_spec (blk i) hi); cbn [andb] in G; try lia; exact G.
Qed.

Section Geo.
Variable s : sizes.
Hypothesis OK : sz_ok s.
Variable b0 : basis_tables.
Variable p : rpart.
Variables xmpq sqrtSF : Z -> R.
Local Notation t := (tab s b0).
Local Notation mpol := (sz_mpol s).
Local Notation ntor := (sz_ntor s).
Local Notation nfp := (sz_nfp s).
Local Notation nZeta := (sz_nZeta s).
Local Notation nTR := (sz_nThetaReduced s).
Local Notation nTE := (sz_nThetaEff s).
Local Notation nT := (sz_nThetaEven s).

Lemma nTR_le : (nTR <= nTE)%Z.
Proof. rewrite (so_nTE s OK). pose proof (so_nT s OK). pose proof (so_nTR s OK). destruct (sz_lasym s); lia. Qed.

(** 3D loops at one point of one array *)
Definition m_on (j m : Z) : bool := negb (j <? (if (m =? 0) || (m =? 1) then 0 else 1))%Z.
Lemma F3_at v q e j k l : (nsMinF1 p <= j < nsMaxF1 p)%Z -> (0 <= k < nZeta)%Z -> (0 <= l < nTR)%Z ->
  g_q (FourierToReal3D s p xmpq sqrtSF v) q e (at_pt s (j - nsMinF1 p) k l) =
  zsum 0 mpol (fun m => if m_on j m && Bool.eqb e (Z.even m) then v j m k q l else 0).
Proof.
  intros Hj Hk Hl. assert (HE := nTR_le). unfold FourierToReal3D.
  set (i := at_pt s (j - nsMinF1 p) k l).
  rewrite (for_up_proj (fun g => g_q g q e i) _ (fun jF => zsum 0 mpol (fun m => zsum 0 nZeta (fun k' =>
     if m_on jF m && Bool.eqb e (Z.even m) then seg_c (((jF - nsMinF1 p) * nZeta + k') * nTE) nTR (v jF m k' q) i else 0)))).
  - cbn [g_q]. rewrite Rplus_0_l.
    rewrite (zsum_single _ _ j); [|lia|].
    + apply zsum_ext. intros m Hm. destruct (m_on j m && Bool.eqb e (Z.even m)).
      * rewrite (zsum_single _ _ k); [|lia|].
        -- unfold i, at_pt. apply seg_c_hit. lia.
        -- intros k' Hk' Hn. unfold i, at_pt. apply seg_c_miss; [lia|lia|]. intros E. lia.
      * apply zsum_zero. reflexivity.
    + intros j' Hj' Hn. apply zsum_zero. intros m Hm. apply zsum_zero. intros k' Hk'.
      destruct (m_on j' m && Bool.eqb e (Z.even m)); [|reflexivity].
      unfold i, at_pt. apply seg_c_miss; [lia|lia|]. intros E.
      apply flat_inj in E; lia.
  - intros jF g HjF. rewrite (for_up_proj (fun g => g_q g q e i) _ (fun m => zsum 0 nZeta (fun k' =>
     if m_on jF m && Bool.eqb e (Z.even m) then seg_c (((jF - nsMinF1 p) * nZeta + k') * nTE) nTR (v jF m k' q) i else 0))).
    { reflexivity. }
    clear g. intros m g Hm. unfold m_on. destruct (jF <? _)%Z; cbn [negb andb].
    { rewrite zsum_zero by reflexivity. lra. }
    rewrite (for_up_proj (fun g => g_q g q e i) _ (fun k' =>
     if Bool.eqb e (Z.even m) then seg_c (((jF - nsMinF1 p) * nZeta + k') * nTE) nTR (v jF m k' q) i else 0)).
    { reflexivity. }
    clear g. intros k' g Hk'. cbv zeta.
    destruct ((nsMinF p <=? jF)%Z && (jF <? nsMaxFIncludingLcfs p)%Z); cbn [g_q];
    (destruct (Bool.eqb e (Z.even m)); [apply seg_add_at|lra]).
Qed.
Definition con_f (j m : Z) : R := if Z.even m then xmpq m else xmpq m * sqrtSF (j - nsMinF1 p)%Z.
Lemma F3_con v j k l : (nsMinF1 p <= j < nsMaxF1 p)%Z -> (nsMinF p <= j < nsMaxFIncludingLcfs p)%Z ->
  (0 <= k < nZeta)%Z -> (0 <= l < nTR)%Z ->
  g_rCon (FourierToReal3D s p xmpq sqrtSF v) (at_pt s (j - nsMinF p) k l) =
    zsum 0 mpol (fun m => if m_on j m then v j m k G_r1 l * con_f j m else 0) /\
  g_zCon (FourierToReal3D s p xmpq sqrtSF v) (at_pt s (j - nsMinF p) k l) =
    zsum 0 mpol (fun m => if m_on j m then v j m k G_z1 l * con_f j m else 0).
Proof.
  intros Hj Hjc Hk Hl. assert (HE := nTR_le).
  set (i := at_pt s (j - nsMinF p) k l).
  assert (G : forall (pr : geom -> Z -> R) (q : gq),
    pr (mkGeom (fun _ _ _ => 0%R) (fun _ => 0%R) (fun _ => 0%R)) i = 0 ->
    (forall gq0 r z jF m k', pr (mkGeom gq0 (seg_add r (((jF - nsMinF p) * nZeta + k') * nTE) nTR (fun l => v jF m k' G_r1 l * con_f jF m))
       (seg_add z (((jF - nsMinF p) * nZeta + k') * nTE) nTR (fun l => v jF m k' G_z1 l * con_f jF m))) i =
       pr (mkGeom gq0 r z) i + seg_c (((jF - nsMinF p) * nZeta + k') * nTE) nTR (fun l => v jF m k' q l * con_f jF m) i) ->
    (forall gq0 gq1 r z, pr (mkGeom gq0 r z) i = pr (mkGeom gq1 r z) i) ->
    pr (FourierToReal3D s p xmpq sqrtSF v) i = zsum 0 mpol (fun m => if m_on j m then v j m k q l * con_f j m else 0)).
  { intros pr q P0 P1 P2. unfold FourierToReal3D.
    set (cc := fun jF m k' => if m_on jF m && ((nsMinF p <=? jF)%Z && (jF <? nsMaxFIncludingLcfs p)%Z)
      then seg_c (((jF - nsMinF p) * nZeta + k') * nTE) nTR (fun l => v jF m k' q l * con_f jF m) i else 0).
    rewrite (for_up_proj (fun g => pr g i) _ (fun jF => zsum 0 mpol (fun m => zsum 0 nZeta (cc jF m)))).
    - rewrite P0, Rplus_0_l. rewrite (zsum_single _ _ j); [|lia|].
      + apply zsum_ext. intros m Hm. unfold cc.
        destruct (Z.leb_spec (nsMinF p) j); destruct (Z.ltb_spec j (nsMaxFIncludingLcfs p)); try lia. cbn [andb]. rewrite andb_true_r.
        destruct (m_on j m).
        * rewrite (zsum_single _ _ k); [|lia|].
          -- unfold i, at_pt. rewrite seg_c_hit by lia. reflexivity.
          -- intros k' Hk' Hn. unfold i, at_pt. apply seg_c_miss; [lia|lia|]. intros E. lia.
        * apply zsum_zero. reflexivity.
      + intros j' Hj' Hn. apply zsum_zero. intros m Hm. apply zsum_zero. intros k' Hk'. unfold cc.
        destruct (_ && _); [|reflexivity].
        unfold i, at_pt. apply seg_c_miss; [lia|lia|]. intros E. apply flat_inj in E; lia.
    - intros jF g HjF. rewrite (for_up_proj (fun g => pr g i) _ (fun m => zsum 0 nZeta (cc jF m))).
      { reflexivity. }
      clear g. intros m g Hm. unfold m_on in cc. destruct (jF <? _)%Z eqn:EM.
      { rewrite zsum_zero; [lra|]. intros. unfold cc. rewrite EM. reflexivity. }
      rewrite (for_up_proj (fun g => pr g i) _ (cc jF m)).
      { reflexivity. }
      clear g. intros k' g Hk'. cbv zeta. unfold cc. rewrite EM. cbn [negb andb].
      destruct ((nsMinF p <=? jF)%Z && (jF <? nsMaxFIncludingLcfs p)%Z).
      + fold (con_f jF m). rewrite P1. destruct g as [a b c]; cbn [g_q g_rCon g_zCon]. apply (f_equal2 Rplus); [apply P2|reflexivity].
      + destruct g as [a b c]; cbn [g_q g_rCon g_zCon]. rewrite Rplus_0_r. apply P2. }
  split.
  - apply (G g_rCon G_r1); [reflexivity| |reflexivity]. intros. cbn [g_rCon]. apply seg_add_at.
  - apply (G g_zCon G_z1); [reflexivity| |reflexivity]. intros. cbn [g_zCon]. apply seg_add_at.
Qed.

(** 2D loops at one point *)
Lemma F2_at x src g0 q e j l : (nsMinF1 p <= j < nsMaxF1 p)%Z -> (0 <= l < nTR)%Z ->
  g_q (FourierToReal2D s t p xmpq sqrtSF x src g0) q e ((j - nsMinF1 p) * nTE + l)%Z =
  match src q with
  | Some (c, b, tb) => zsum 0 (if (j =? 0)%Z then 2 else mpol) (fun m => if Bool.eqb e (Z.even m)
      then x c b ((j - nsMinF1 p) * sz_mnsize s + m)%Z * tb t (m * nTR + l)%Z else 0)
  | None => g_q g0 q e ((j - nsMinF1 p) * nTE + l)%Z
  end.
Proof.
  intros Hj Hl. assert (HE := nTR_le). unfold FourierToReal2D. cbv zeta.
  set (i := ((j - nsMinF1 p) * nTE + l)%Z).
  rewrite (for_up_same (fun g => g_q g q e i)).
  2:{ intros jF g. apply (for_up_same (fun g => g_q g q e i)). reflexivity. }
  destruct (src q) as [[[c b] tb]|] eqn:Es.
  - set (val := fun jF l => zsum 0 (if (jF =? 0)%Z then 2 else mpol) (fun m => if Bool.eqb e (Z.even m)
      then x c b ((jF - nsMinF1 p) * sz_mnsize s + m)%Z * tb t (m * nTR + l)%Z else 0)).
    rewrite (for_up_proj (fun g => g_q g q e i) _ (fun jF => zsum 0 nTR (fun l' => if (i =? (jF - nsMinF1 p) * nTE + l')%Z then val jF l' else 0))).
    + cbn [g_q]. rewrite Es, fill0_at.
      * rewrite Rplus_0_l. rewrite (zsum_single _ _ j); [|lia|].
        -- rewrite (zsum_single _ _ l); [|lia|].
           ++ unfold i. rewrite Z.eqb_refl. reflexivity.
           ++ intros l' Hl' Hn. unfold i. destruct (Z.eqb_spec ((j - nsMinF1 p) * nTE + l) ((j - nsMinF1 p) * nTE + l')); [lia|reflexivity].
        -- intros j' Hj' Hn. apply zsum_zero. intros l' Hl'. unfold i.
           destruct (Z.eqb_spec ((j - nsMinF1 p) * nTE + l) ((j' - nsMinF1 p) * nTE + l')) as [E|]; [|reflexivity].
           apply flat_inj in E; lia.
      * unfold i. nia.
    + intros jF g HjF. rewrite (for_up_proj (fun g => g_q g q e i) _ (fun l' => if (i =? (jF - nsMinF1 p) * nTE + l')%Z then val jF l' else 0)).
      { reflexivity. }
      intros l' g' Hl'. cbv zeta. cbn [g_q]. rewrite Es. unfold upd.
      destruct (Z.eqb_spec i ((jF - nsMinF1 p) * nTE + l')) as [<-|]; [|lra].
      apply f_equal. rewrite (for_up_proj (fun x => x) _ (fun m => if Bool.eqb e (Z.even m)
      then x c b ((jF - nsMinF1 p) * sz_mnsize s + m)%Z * tb t (m * nTR + l')%Z else 0)).
      { unfold val. lra. }
      intros m acc _. destruct (Bool.eqb e (Z.even m)); lra.
  - rewrite (for_up_same (fun g => g_q g q e i)).
    { cbn [g_q]. rewrite Es. reflexivity. }
    intros jF g. apply (for_up_same (fun g => g_q g q e i)). intros. cbn [g_q]. rewrite Es. reflexivity.
Qed.
Lemma F2_con x src g0 j l : (nsMinF p <= j < nsMaxFIncludingLcfs p)%Z -> (0 <= l < nTR)%Z ->
  let v q m := match src q with
    | Some (c, b, tb) => x c b ((j - nsMinF1 p) * sz_mnsize s + m)%Z * tb t (m * nTR + l)%Z * (xmpq m * (IZR (1 - m mod 2) + IZR (m mod 2) * sqrtSF (j - nsMinF1 p)%Z))
    | None => 0 end in
  g_rCon (FourierToReal2D s t p xmpq sqrtSF x src g0) ((j - nsMinF p) * nTE + l)%Z =
     zsum 0 (if (j =? 0)%Z then 2 else mpol) (v G_r1) /\
  g_zCon (FourierToReal2D s t p xmpq sqrtSF x src g0) ((j - nsMinF p) * nTE + l)%Z =
     zsum 0 (if (j =? 0)%Z then 2 else mpol) (v G_z1).
Proof.
  intros Hj Hl v. assert (HE := nTR_le). unfold FourierToReal2D. cbv zeta.
  set (i := ((j - nsMinF p) * nTE + l)%Z).
  set (con := fun jF m q l => match src q with
    | Some (c, b, tb) => x c b ((jF - nsMinF1 p) * sz_mnsize s + m)%Z * tb t (m * nTR + l)%Z * (xmpq m * (IZR (1 - m mod 2) + IZR (m mod 2) * sqrtSF (jF - nsMinF1 p)%Z))
    | None => 0 end).
  assert (IR : (0 <= i < (nsMaxFIncludingLcfs p - nsMinF p) * nTE)%Z) by (unfold i; nia).
  assert (Ev : forall q, zsum (nsMinF p) (nsMaxFIncludingLcfs p) (fun jF => zsum 0 (if (jF =? 0)%Z then 2 else mpol)
     (fun m => seg_c ((jF - nsMinF p) * nTE) nTR (con jF m q) i)) = zsum 0 (if (j =? 0)%Z then 2 else mpol) (v q)).
  { intros q. rewrite (zsum_single _ _ j); [|lia|].
    - apply zsum_ext. intros m Hm. unfold i. rewrite seg_c_hit by lia. reflexivity.
    - intros j' Hj' Hn. apply zsum_zero. intros m Hm. unfold i. apply seg_c_miss; lia. }
  split.
  - rewrite (for_up_proj (fun g => g_rCon g i) _ (fun jF => zsum 0 (if (jF =? 0)%Z then 2 else mpol)
     (fun m => seg_c ((jF - nsMinF p) * nTE) nTR (con jF m G_r1) i))).
    + rewrite Ev. rewrite (for_up_same (fun g => g_rCon g i)).
      2:{ intros jF g. apply (for_up_same (fun g => g_rCon g i)). reflexivity. }
      cbn [g_rCon]. rewrite fill0_at by exact IR. lra.
    + intros jF g HjF. rewrite (for_up_proj (fun g => g_rCon g i) _ (fun m => seg_c ((jF - nsMinF p) * nTE) nTR (con jF m G_r1) i)).
      { reflexivity. }
      intros m g' _. cbn [g_rCon]. apply seg_add_at.
  - rewrite (for_up_proj (fun g => g_zCon g i) _ (fun jF => zsum 0 (if (jF =? 0)%Z then 2 else mpol)
     (fun m => seg_c ((jF - nsMinF p) * nTE) nTR (con jF m G_z1) i))).
    + rewrite Ev. rewrite (for_up_same (fun g => g_zCon g i)).
      2:{ intros jF g. apply (for_up_same (fun g => g_zCon g i)). reflexivity. }
      cbn [g_zCon]. rewrite fill0_at by exact IR. lra.
    + intros jF g HjF. rewrite (for_up_proj (fun g => g_zCon g i) _ (fun m => seg_c ((jF - nsMinF p) * nTE) nTR (con jF m G_z1) i)).
      { reflexivity. }
      intros m g' _. cbn [g_zCon]. apply seg_add_at.
Qed.

(** ** Values of the summands *)
Definition cq (q : gq) : comp := match q with G_r1 | G_ru | G_rv => cR | G_z1 | G_zu | G_zv => cZ | G_lu | G_lv => cL end.
Definition D (q : gq) (b : bk) (m n : Z) (th ph : R) : R :=
  match q with
  | G_r1 | G_z1 => Phi nfp b m n th ph
  | G_ru | G_zu | G_lu => Phi_theta nfp b m n th ph
  | G_rv | G_zv => Phi_phi nfp b m n th ph
  | G_lv => - Phi_phi nfp b m n th ph
  end.
Definition akinds (c : comp) : list bk := match c with cR => [b_sc; b_cs] | _ => [b_cc; b_ss] end.

Lemma nfp_nz : IZR nfp <> 0.
Proof. apply not_0_IZR. pose proof (so_nfp s OK). lia. Qed.
Lemma nZ_nz : IZR nZeta <> 0.
Proof. apply not_0_IZR. pose proof (so_nZeta s OK). lia. Qed.
Lemma phi_ang n k : IZR n * (IZR nfp * phi_pt s k) = IZR n * ang nZeta k.
Proof. unfold phi_pt, ang. field. split; [apply nZ_nz|apply nfp_nz]. Qed.
Lemma theta_pt_ang l : theta_pt s l = ang nT l. Proof. reflexivity. Qed.

Lemma kdot_eq x j m k c b tb : kdot s t p x j m k c b tb =
  zsum 0 (ntor + 1) (fun n => x c b (at_mn s (j - nsMinF1 p) m n) * tb t (k * (sz_nnyq2 s + 1) + n)%Z).
Proof. unfold kdot, dotn. rewrite acc_sum. reflexivity. Qed.

Ltac tabs OK := rewrite ?(t_cosmu s OK b0), ?(t_sinmu s OK b0), ?(t_cosmum s OK b0), ?(t_sinmum s OK b0),
  ?(t_cosnv s OK b0), ?(t_sinnv s OK b0), ?(t_cosnvn s OK b0), ?(t_sinnvn s OK b0) by lia.

Lemma v_term (x : Z -> R) (A : Z -> R) c (f : Z -> R) :
  (forall n, (0 <= n <= ntor)%Z -> A n * c = f n) ->
  zsum 0 (ntor + 1) (fun n => x n * A n) * c = zsum 0 (ntor + 1) (fun n => x n * f n).
Proof. intros H. rewrite <- zsum_scale_r. apply zsum_ext. intros n Hn. rewrite <- H by lia. ring. Qed.

Lemma sym_v_eq x j m k q l : (0 <= m < mpol)%Z -> (0 <= k < nZeta)%Z -> (0 <= l < nTR)%Z ->
  sym_v s t p x j m k q l = rsum (kinds false (cq q)) (fun b => zsum 0 (ntor + 1)
    (fun n => x (cq q) b (at_mn s (j - nsMinF1 p) m n) * D q b m n (theta_pt s l) (phi_pt s k))).
Proof.
  intros Hm Hk Hl. destruct q; unfold sym_v; cbv zeta; cbn [kinds cq app rsum D]; rewrite !kdot_eq, Rplus_0_r;
  rewrite ?Ropp_plus_distr, ?Ropp_mult_distr_r;
  (apply (f_equal2 Rplus); apply v_term; intros n Hn; tabs OK;
   unfold Phi, Phi_theta, Phi_phi; cbn [in_theta in_zeta d_in_theta d_in_zeta]; rewrite ?phi_ang, ?theta_pt_ang, ?opp_IZR, ?mult_IZR, ?opp_IZR; ring).
Qed.
Lemma asym_v_eq x j m k q l : (0 <= m < mpol)%Z -> (0 <= k < nZeta)%Z -> (0 <= l < nTR)%Z ->
  asym_v s t p x j m k q l = rsum (akinds (cq q)) (fun b => zsum 0 (ntor + 1)
    (fun n => x (cq q) b (at_mn s (j - nsMinF1 p) m n) * D q b m n (theta_pt s l) (phi_pt s k))).
Proof.
  intros Hm Hk Hl. destruct q; unfold asym_v; cbv zeta; cbn [akinds cq app rsum D]; rewrite !kdot_eq, Rplus_0_r;
  rewrite ?Ropp_plus_distr, ?Ropp_mult_distr_r;
  (apply (f_equal2 Rplus); apply v_term; intros n Hn; tabs OK;
   unfold Phi, Phi_theta, Phi_phi; cbn [in_theta in_zeta d_in_theta d_in_zeta]; rewrite ?phi_ang, ?theta_pt_ang, ?opp_IZR, ?mult_IZR, ?opp_IZR; ring).
Qed.

(** sum over kinds, modes of one parity; [W m] weights *)
Definition fsum (ks : list bk) (M : Z) (sel : Z -> bool) (W : Z -> R) (x : bk -> Z -> R) (j : Z) (Dv : bk -> Z -> Z -> R) : R :=
  rsum ks (fun b => zsum 0 M (fun m => if sel m
    then zsum 0 (ntor + 1) (fun n => x b (at_mn s j m n) * Dv b m n) * W m else 0)).
Lemma m_range (M0 : (2 <= mpol)%Z) j (f : Z -> R) : (0 <= j)%Z ->
  zsum 0 mpol (fun m => if m_on j m then f m else 0) = zsum 0 (n_pol mpol j) f.
Proof.
  intros Hj. unfold n_pol. destruct (Z.eqb_spec j 0) as [->|Hn].
  - rewrite (zsum_split 0 2 mpol) by lia. rewrite (zsum_zero 2 mpol).
    + rewrite Rplus_0_r. apply zsum_ext. intros m Hm. unfold m_on.
      destruct (Z.eqb_spec m 0); destruct (Z.eqb_spec m 1); try lia; reflexivity.
    + intros m Hm. unfold m_on. destruct (Z.eqb_spec m 0); destruct (Z.eqb_spec m 1); try lia; reflexivity.
  - apply zsum_ext. intros m Hm. unfold m_on.
    destruct ((m =? 0)%Z || (m =? 1)%Z).
    + destruct (Z.ltb_spec j 0); [lia|reflexivity].
    + destruct (Z.ltb_spec j 1); [lia|reflexivity].
Qed.
Lemma swap_kinds ks M (sel : Z -> bool) W (x : bk -> Z -> R) j Dv :
  zsum 0 M (fun m => if sel m then rsum ks (fun b => zsum 0 (ntor + 1) (fun n => x b (at_mn s j m n) * Dv b m n)) * W m else 0)
  = fsum ks M sel W x j Dv.
Proof.
  unfold fsum, zsum at 1 3. rewrite rsum_swap. apply rsum_ext. intros m _.
  destruct (sel m); [|rewrite rsum_zero by reflexivity; reflexivity]. rewrite <- rsum_scale_r. reflexivity.
Qed.
End Geo.
