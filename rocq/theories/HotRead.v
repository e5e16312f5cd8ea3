From Coq Require Import ZArith List Bool Reals Lra Lia.
From Verif Require Import Base BaseLemmas SumLemmas FourierModel FourierSpec FourierProofs BoundaryModel BoundaryProofs
  PartModel HotModel HotSpec HotProofs HotSeries HotExport.
Import ListNotations.
Open Scope R_scope.

(** ** The restart, cell by cell *)
Section Read.
Variables (lasym lthreed : bool) (mpol ntor ns : Z).
Hypothesis Hm : (2 <= mpol)%Z.
Hypothesis Hn : (0 <= ntor)%Z.
Variables (nsMin nsMax : Z).
Local Notation jx := (jx mpol ntor nsMin).

Definition rz_val (vcc vsc vss vcs : R) (f : comp -> R) (c : comp) : R :=
  match c with
  | Rcc => vcc | Zsc => vsc
  | Rss => if lthreed then vss else f c
  | Zcs => if lthreed then vcs else f c
  | _ => f c
  end.
Lemma set_rz_at i a b d e g c k : set_rz lthreed i a b d e g c k = if (k =? i)%Z then rz_val a b d e (fun c => g c k) c else g c k.
Proof.
  unfold set_rz, rz_val. destruct lthreed; rewrite !gset_at; destruct c; cbn [comp_eqb andb]; destruct (k =? i)%Z; reflexivity.
Qed.
Lemma rz_val_ext a b d e f f' : (forall c, f c = f' c) -> forall c, rz_val a b d e f c = rz_val a b d e f' c.
Proof. intros E c. unfold rz_val. destruct c; rewrite ?E; reflexivity. Qed.

(** One surface. *)
Lemma read_rz_at rmnc zmns jF g c j m n : (0 <= m < mpol)%Z -> (0 <= n <= ntor)%Z ->
  read_rz lthreed mpol ntor nsMin rmnc zmns jF g c (jx j m n) =
  if (j =? jF)%Z then
    let k := (m * (ntor + 1) + n)%Z in
    let C := snd (cos_to_cc_ss FastPoloidal ntor mpol (fun mn => rmnc mn jF) (fun _ => 0) (fun _ => 0)) in
    let S := snd (sin_to_sc_cs FastPoloidal ntor mpol (fun mn => zmns mn jF) (fun _ => 0) (fun _ => 0)) in
    rz_val (fst C k) (fst S k) (snd C k) (snd S k) (fun c => g c (jx j m n)) c
  else g c (jx j m n).
Proof.
  intros M N. unfold read_rz.
  destruct (cos_to_cc_ss FastPoloidal ntor mpol (fun mn => rmnc mn jF) (fun _ => 0) (fun _ => 0)) as (? & (cc & ss)).
  destruct (sin_to_sc_cs FastPoloidal ntor mpol (fun mn => zmns mn jF) (fun _ => 0) (fun _ => 0)) as (? & (sc & cs)).
  cbn [fst snd].
  destruct (cell_loop (fun m n g => set_rz lthreed (jx jF m n) (cc (m * (ntor + 1) + n)%Z) (sc (m * (ntor + 1) + n)%Z) (ss (m * (ntor + 1) + n)%Z) (cs (m * (ntor + 1) + n)%Z) g)
    (fun m n => jx jF m n) (fun m n => rz_val (cc (m * (ntor + 1) + n)%Z) (sc (m * (ntor + 1) + n)%Z) (ss (m * (ntor + 1) + n)%Z) (cs (m * (ntor + 1) + n)%Z)) 0 mpol 0 (ntor + 1) g) as (A & B).
  - intros. apply set_rz_at.
  - intros. apply rz_val_ext. auto.
  - intros m1 n1 m2 n2 A1 A2 A3 A4 E. apply jx_inj in E; lia.
  - cbv zeta in A, B. destruct (Z.eqb_spec j jF) as [->|Ne].
    + apply (A m n c); lia.
    + apply (B (jx j m n) c). intros m1 n1 A1 A2 E. apply jx_inj in E; lia.
Qed.
Definition l_val (vsc vcs : R) (f : comp -> R) (c : comp) : R :=
  match c with Lsc => vsc | Lcs => if lthreed then vcs else f c | _ => f c end.
Lemma read_l_at lam ph k0 lmns jF g c j m n : (0 <= m < mpol)%Z -> (0 <= n <= ntor)%Z ->
  read_l lthreed mpol ntor nsMin k0 lam ph lmns jF g c (jx j m n) =
  if (j =? jF)%Z then
    let k := (m * (ntor + 1) + n)%Z in
    let S := snd (sin_to_sc_cs FastPoloidal ntor mpol (fun mn => lmns mn jF) (fun _ => 0) (fun _ => 0)) in
    l_val (fst S k / (lam / ph (jF - k0)%Z)) (snd S k / (lam / ph (jF - k0)%Z)) (fun c => g c (jx j m n)) c
  else g c (jx j m n).
Proof.
  intros M N. unfold read_l.
  destruct (sin_to_sc_cs FastPoloidal ntor mpol (fun mn => lmns mn jF) (fun _ => 0) (fun _ => 0)) as (? & (sc & cs)).
  cbn [fst snd].
  destruct (cell_loop (fun m n g => let g := gset g Lsc (jx jF m n) (sc (m * (ntor + 1) + n)%Z / (lam / ph (jF - k0)%Z)) in
       if lthreed then gset g Lcs (jx jF m n) (cs (m * (ntor + 1) + n)%Z / (lam / ph (jF - k0)%Z)) else g)
    (fun m n => jx jF m n) (fun m n => l_val (sc (m * (ntor + 1) + n)%Z / (lam / ph (jF - k0)%Z)) (cs (m * (ntor + 1) + n)%Z / (lam / ph (jF - k0)%Z))) 0 mpol 0 (ntor + 1) g) as (A & B).
  - intros. cbv zeta. unfold l_val. destruct lthreed; rewrite !gset_at; destruct c0; cbn [comp_eqb andb]; destruct (i =? jx jF m0 n0)%Z; reflexivity.
  - intros m1 n1 f f' E c1. unfold l_val. destruct c1; rewrite ?E; reflexivity.
  - intros m1 n1 m2 n2 A1 A2 A3 A4 E. apply jx_inj in E; lia.
  - cbv zeta in A, B. destruct (Z.eqb_spec j jF) as [->|Ne].
    + apply (A m n c); lia.
    + apply (B (jx j m n) c). intros m1 n1 A1 A2 E. apply jx_inj in E; lia.
Qed.

(** All surfaces of a range: every surface is treated once. *)
Lemma surf_loop (body : Z -> geo -> geo) (val : Z -> Z -> Z -> (comp -> R) -> comp -> R) lo hi g :
  (forall jF g c j m n, (0 <= m < mpol)%Z -> (0 <= n <= ntor)%Z -> body jF g c (jx j m n) =
     if (j =? jF)%Z then val jF m n (fun c => g c (jx j m n)) c else g c (jx j m n)) ->
  (forall jF m n f f', (forall c, f c = f' c) -> forall c, val jF m n f c = val jF m n f' c) ->
  forall c j m n, (0 <= m < mpol)%Z -> (0 <= n <= ntor)%Z ->
  for_up lo hi body g c (jx j m n) = if ((lo <=? j) && (j <? hi))%Z then val j m n (fun c => g c (jx j m n)) c else g c (jx j m n).
Proof.
  intros HB HV c j m n M N. destruct (Z.le_gt_cases lo hi) as [L|L].
  - revert c. pose proof (for_up_ind (fun hi t => forall c, t c (jx j m n) = if ((lo <=? j) && (j <? hi))%Z then val j m n (fun c => g c (jx j m n)) c else g c (jx j m n))
      body lo hi g L) as G. apply G; clear G.
    + intros c. destruct (Z.leb_spec lo j), (Z.ltb_spec j lo); cbn [andb]; try lia; reflexivity.
    + intros jF t Hj I c. rewrite HB by auto. destruct (Z.eqb_spec j jF) as [->|Ne].
      * rewrite (HV jF m n _ (fun c => g c (jx jF m n))).
        -- destruct (Z.leb_spec lo jF), (Z.ltb_spec jF (jF + 1)); cbn [andb]; try lia; reflexivity.
        -- intros c'. rewrite I. destruct (Z.ltb_spec jF jF); [lia|]. rewrite andb_false_r. reflexivity.
      * rewrite I. destruct (Z.ltb_spec j jF), (Z.ltb_spec j (jF + 1)); try lia; reflexivity.
  - unfold for_up, zrange. replace (Z.to_nat (hi - lo)) with 0%nat by lia. cbn [zseq fold_left].
    destruct (Z.leb_spec lo j), (Z.ltb_spec j hi); cbn [andb]; try lia; reflexivity.
Qed.

Lemma read_bdy_at b g c j m n : (0 <= m < mpol)%Z -> (0 <= n <= ntor)%Z ->
  read_bdy lthreed mpol ntor ns nsMin b g c (jx j m n) =
  if (j =? ns - 1)%Z then
    let k := (m * (ntor + 1) + n)%Z in let f := 1 / (mscale m * nscale n) in
    rz_val (rbcc b k * f) (zbsc b k * f) (rbss b k * f) (zbcs b k * f) (fun c => g c (jx j m n)) c
  else g c (jx j m n).
Proof.
  intros M N. unfold read_bdy.
  set (g1 := for_up 0 (mpol * (ntor + 1)) _ g).
  assert (G1 : forall c j m n, (0 <= m < mpol)%Z -> (0 <= n <= ntor)%Z -> g1 c (jx j m n) =
    if (j =? ns - 1)%Z then rz_val (rbcc b (m * (ntor + 1) + n)%Z) (zbsc b (m * (ntor + 1) + n)%Z) (rbss b (m * (ntor + 1) + n)%Z) (zbcs b (m * (ntor + 1) + n)%Z) (fun c => g c (jx j m n)) c
    else g c (jx j m n)).
  { clear c j m n M N. intros c j m n M N.
    destruct (cell_fold (fun g k => set_rz lthreed ((ns - 1 - nsMin) * mpol * (ntor + 1) + k)%Z (rbcc b k) (zbsc b k) (rbss b k) (zbcs b k) g)
      (fun k => ((ns - 1 - nsMin) * mpol * (ntor + 1) + k)%Z) (fun k => rz_val (rbcc b k) (zbsc b k) (rbss b k) (zbcs b k))) with (l := zrange 0 (mpol * (ntor + 1))) (g := g) as (A & B).
    - intros. apply set_rz_at.
    - intros. apply rz_val_ext. auto.
    - apply nodup_map_inj; [apply zrange_NoDup|]. intros; lia.
    - destruct (Z.eqb_spec j (ns - 1)) as [->|Ne].
      + replace (jx (ns - 1) m n) with ((ns - 1 - nsMin) * mpol * (ntor + 1) + (m * (ntor + 1) + n))%Z by (unfold HotModel.jx; ring).
        apply (A (m * (ntor + 1) + n)%Z c). apply zrange_In. nia.
      + apply B. intros I. apply in_map_iff in I. destruct I as (k & E & I). apply zrange_In in I.
        assert (K : k = ((k / (ntor + 1)) * (ntor + 1) + k mod (ntor + 1))%Z) by (pose proof (Z_div_mod_eq_full k (ntor + 1)); lia).
        assert (K1 := Z.mod_pos_bound k (ntor + 1) ltac:(lia)).
        assert (K2 : (0 <= k / (ntor + 1) < mpol)%Z) by (split; [apply Z.div_pos; lia|apply Z.div_lt_upper_bound; lia]).
        assert (E2 : jx (ns - 1) (k / (ntor + 1)) (k mod (ntor + 1)) = jx j m n).
        { rewrite <- E. unfold HotModel.jx. rewrite K at 3. ring. }
        apply jx_inj in E2; lia. }
  clearbody g1.
  destruct (cell_loop (fun m n g => set_rz lthreed (jx (ns - 1) m n) (g Rcc (jx (ns - 1) m n) * (1 / (mscale m * nscale n))) (g Zsc (jx (ns - 1) m n) * (1 / (mscale m * nscale n)))
        (g Rss (jx (ns - 1) m n) * (1 / (mscale m * nscale n))) (g Zcs (jx (ns - 1) m n) * (1 / (mscale m * nscale n))) g)
    (fun m n => jx (ns - 1) m n) (fun m n f => rz_val (f Rcc * (1 / (mscale m * nscale n))) (f Zsc * (1 / (mscale m * nscale n))) (f Rss * (1 / (mscale m * nscale n))) (f Zcs * (1 / (mscale m * nscale n))) f) 0 mpol 0 (ntor + 1) g1) as (A & B).
  - intros m1 n1 g' c1 i1. rewrite set_rz_at. destruct (Z.eqb_spec i1 (jx (ns - 1) m1 n1)) as [->|]; reflexivity.
  - intros m1 n1 f f' E c1. rewrite !E. apply rz_val_ext. auto.
  - intros m1 n1 m2 n2 A1 A2 A3 A4 E. apply jx_inj in E; lia.
  - cbv zeta in A, B. cbv zeta. destruct (Z.eqb_spec j (ns - 1)) as [->|Ne].
    + etransitivity; [apply (A m n c); lia|]. unfold rz_val. rewrite !G1 by auto. rewrite Z.eqb_refl. unfold rz_val. destruct c, lthreed; reflexivity.
    + etransitivity; [apply (B (jx j m n) c)|].
      * intros m1 n1 A1 A2 E. apply jx_inj in E; lia.
      * rewrite G1 by auto. apply Z.eqb_neq in Ne. rewrite Ne. reflexivity.
Qed.

Lemma clear_at_ g c j m n : (0 <= m < mpol)%Z -> (0 <= n <= ntor)%Z ->
  clear_axis_lambda lthreed mpol ntor nsMin g c (jx j m n) =
  if ((j =? 0) && (m =? 0))%Z then l_val 0 0 (fun c => g c (jx j m n)) c else g c (jx j m n).
Proof.
  intros M N. unfold clear_axis_lambda.
  destruct (cell_fold (fun g n => let g := gset g Lsc (jx 0 0 n) 0 in if lthreed then gset g Lcs (jx 0 0 n) 0 else g)
     (fun n => jx 0 0 n) (fun _ => l_val 0 0)) with (l := zrange 0 (ntor + 1)) (g := g) as (A & B).
  - intros. cbv zeta. unfold l_val. destruct lthreed; rewrite !gset_at; destruct c0; cbn [comp_eqb andb]; destruct (i =? jx 0 0 a)%Z; reflexivity.
  - intros a f f' E c1. unfold l_val. destruct c1; rewrite ?E; reflexivity.
  - apply nodup_map_inj; [apply zrange_NoDup|]. intros x y Hx Hy E. apply zrange_In in Hx, Hy. apply jx_inj in E; lia.
  - destruct (Z.eqb_spec j 0) as [->|Ne]; [destruct (Z.eqb_spec m 0) as [->|Ne]|]; cbn [andb].
    + apply (A n c). apply zrange_In. lia.
    + apply B. intros I. apply in_map_iff in I. destruct I as (k & E & I). apply zrange_In in I. apply jx_inj in E; lia.
    + apply B. intros I. apply in_map_iff in I. destruct I as (k & E & I). apply zrange_In in I. apply jx_inj in E; lia.
Qed.

(** m = 1 rotation on the arrays. *)
Definition m1_val (f : comp -> R) (c : comp) : R :=
  match c with
  | Rss => if lthreed then (f Rss + f Zcs) * (1 / 2) else f Rss
  | Zcs => if lthreed then (f Rss - f Zcs) * (1 / 2) else f Zcs
  | Rsc => if lasym then (f Rsc + f Zcc) * (1 / 2) else f Rsc
  | Zcc => if lasym then (f Rsc - f Zcc) * (1 / 2) else f Zcc
  | _ => f c
  end.
Lemma m1_at maxj g c j m n : (nsMin <= j)%Z -> (0 <= m < mpol)%Z -> (0 <= n <= ntor)%Z ->
  with_bdy g (m1Constraint lasym lthreed mpol ntor nsMin nsMax (1 / 2) (Some maxj) (to_bdy g)) c (jx j m n) =
  if ((m =? 1) && (j <? Z.min maxj nsMax))%Z then m1_val (fun c => g c (jx j m n)) c else g c (jx j m n).
Proof.
  intros J M N.
  pose proof (m1Constraint_at lasym lthreed mpol ntor nsMin nsMax (1 / 2) (Some maxj) (to_bdy g) Hm Hn j m n J M N) as V.
  cbv zeta in V. fold (jx j m n) in V. unfold view, m1_view, to_bdy in V. cbn [rbcc zbsc rbss zbcs rbsc zbcc rbcs zbss] in V.
  fold (to_bdy g) in V. set (b' := m1Constraint lasym lthreed mpol ntor nsMin nsMax (1 / 2) (Some maxj) (to_bdy g)) in *. clearbody b'.
  change (((j - nsMin) * mpol + m) * (ntor + 1) + n)%Z with (jx j m n) in V.
  destruct ((m =? 1) && (j <? Z.min maxj nsMax))%Z; injection V as V1 V2 V3 V4 V5 V6 V7 V8;
    unfold with_bdy, m1_val; destruct c; auto.
Qed.

(** The whole initialisation. *)
Lemma init_at k0 lam ph rmnc zmns lmns b hb c j m n : (nsMin <= j < nsMax)%Z -> (0 <= m < mpol)%Z -> (0 <= n <= ntor)%Z ->
  (hb = true <-> nsMax = ns) -> (0 <= nsMin)%Z -> (nsMax <= ns)%Z -> (2 <= ns)%Z ->
  let k := (m * (ntor + 1) + n)%Z in
  let C := snd (cos_to_cc_ss FastPoloidal ntor mpol (fun mn => rmnc mn j) (fun _ => 0) (fun _ => 0)) in
  let S := snd (sin_to_sc_cs FastPoloidal ntor mpol (fun mn => zmns mn j) (fun _ => 0) (fun _ => 0)) in
  let L := snd (sin_to_sc_cs FastPoloidal ntor mpol (fun mn => lmns mn j) (fun _ => 0) (fun _ => 0)) in
  let l := if ((j =? 0) && (m =? 0))%Z then fun _ => 0 else l_val (fst L k / (lam / ph (j - k0)%Z)) (snd L k / (lam / ph (j - k0)%Z)) (fun _ => 0) in
  init_from_state lasym lthreed mpol ntor ns nsMin nsMax k0 lam ph rmnc zmns lmns b hb (fun _ _ => 0) c (jx j m n) =
  match c with
  | Lsc | Lcs | Lcc | Lss => l c
  | _ =>
    match b with
    | Some bd => if (j =? ns - 1)%Z then let f := 1 / (mscale m * nscale n) in
          rz_val (rbcc bd k * f) (zbsc bd k * f) (rbss bd k * f) (zbcs bd k * f) (fun _ => 0) c
        else (if (m =? 1)%Z then m1_val else fun f => f) (rz_val (fst C k) (fst S k) (snd C k) (snd S k) (fun _ => 0)) c
    | None => (if (m =? 1)%Z then m1_val else fun f => f) (rz_val (fst C k) (fst S k) (snd C k) (snd S k) (fun _ => 0)) c
    end
  end.
Proof.
  intros J M N HB GE0 LE N2 k C S L l. unfold init_from_state.
  set (maxj := match b with None => ns | Some _ => (ns - 1)%Z end).
  set (ga := for_up nsMin (Z.min nsMax maxj) (read_rz lthreed mpol ntor nsMin rmnc zmns) (fun _ _ => 0)).
  assert (GA : forall c, ga c (jx j m n) = if (j <? maxj)%Z then rz_val (fst C k) (fst S k) (snd C k) (snd S k) (fun _ => 0) c else 0).
  { intros c'. unfold ga.
    rewrite (surf_loop (read_rz lthreed mpol ntor nsMin rmnc zmns) (fun jF m n f => 
       let k := (m * (ntor + 1) + n)%Z in
       let C := snd (cos_to_cc_ss FastPoloidal ntor mpol (fun mn => rmnc mn jF) (fun _ => 0) (fun _ => 0)) in
       let S := snd (sin_to_sc_cs FastPoloidal ntor mpol (fun mn => zmns mn jF) (fun _ => 0) (fun _ => 0)) in
       rz_val (fst C k) (fst S k) (snd C k) (snd S k) f)); auto.
    - cbv zeta. fold k. fold C. fold S. destruct (Z.leb_spec nsMin j), (Z.ltb_spec j (Z.min nsMax maxj)), (Z.ltb_spec j maxj); cbn [andb]; try lia; reflexivity.
    - intros. apply read_rz_at; auto.
    - intros. cbv zeta. apply rz_val_ext. auto. }
  set (gb := for_up nsMin nsMax (read_l lthreed mpol ntor nsMin k0 lam ph lmns) ga).
  assert (GB : forall c, gb c (jx j m n) = l_val (fst L k / (lam / ph (j - k0)%Z)) (snd L k / (lam / ph (j - k0)%Z)) (fun c => ga c (jx j m n)) c).
  { intros c'. unfold gb.
    rewrite (surf_loop (read_l lthreed mpol ntor nsMin k0 lam ph lmns) (fun jF m n f =>
       let k := (m * (ntor + 1) + n)%Z in
       let S := snd (sin_to_sc_cs FastPoloidal ntor mpol (fun mn => lmns mn jF) (fun _ => 0) (fun _ => 0)) in
       l_val (fst S k / (lam / ph (jF - k0)%Z)) (snd S k / (lam / ph (jF - k0)%Z)) f)); auto.
    - cbv zeta. fold k. fold L. destruct (Z.leb_spec nsMin j), (Z.ltb_spec j nsMax); cbn [andb]; try lia; reflexivity.
    - intros. apply read_l_at; auto.
    - intros. cbv zeta. unfold l_val. destruct c0; auto. rewrite !H. reflexivity. }
  clearbody ga gb.
  set (gc := match b with Some bd => if hb then read_bdy lthreed mpol ntor ns nsMin bd gb else gb | None => gb end).
  assert (GC : forall c, gc c (jx j m n) = match b with Some bd => if (j =? ns - 1)%Z then let f := 1 / (mscale m * nscale n) in
          rz_val (rbcc bd k * f) (zbsc bd k * f) (rbss bd k * f) (zbcs bd k * f) (fun c => gb c (jx j m n)) c else gb c (jx j m n) | None => gb c (jx j m n) end).
  { intros c'. unfold gc. destruct b as [bd|]; [|reflexivity]. destruct hb.
    - rewrite read_bdy_at by auto. reflexivity.
    - destruct (Z.eqb_spec j (ns - 1)); [|reflexivity]. assert (nsMax = ns) by lia. destruct HB as (_ & HB). specialize (HB H). discriminate. }
  set (gd := with_bdy gc (m1Constraint lasym lthreed mpol ntor nsMin nsMax (1 / 2) (Some maxj) (to_bdy gc))).
  assert (GD : forall c, gd c (jx j m n) = if ((m =? 1) && (j <? Z.min maxj nsMax))%Z then m1_val (fun c => gc c (jx j m n)) c else gc c (jx j m n)).
  { intros c'. apply m1_at; auto; lia. }
  set (ge := if (nsMin =? 0)%Z then clear_axis_lambda lthreed mpol ntor nsMin gd else gd).
  assert (GE : ge c (jx j m n) = if ((nsMin =? 0) && ((j =? 0) && (m =? 0)))%Z then l_val 0 0 (fun c => gd c (jx j m n)) c else gd c (jx j m n)).
  { unfold ge. destruct (nsMin =? 0)%Z; [|reflexivity]. rewrite clear_at_ by auto. reflexivity. }
  change (ge c (jx j m n) = match c with
    | Lsc | Lcs | Lcc | Lss => l c
    | _ => match b with
      | Some bd => if (j =? ns - 1)%Z then let f := 1 / (mscale m * nscale n) in
            rz_val (rbcc bd k * f) (zbsc bd k * f) (rbss bd k * f) (zbcs bd k * f) (fun _ => 0) c
          else (if (m =? 1)%Z then m1_val else fun f => f) (rz_val (fst C k) (fst S k) (snd C k) (snd S k) (fun _ => 0)) c
      | None => (if (m =? 1)%Z then m1_val else fun f => f) (rz_val (fst C k) (fst S k) (snd C k) (snd S k) (fun _ => 0)) c
      end end).
  clearbody gc gd ge C S L k.
  rewrite GE. unfold l.
  assert (Z0 : ((nsMin =? 0) && ((j =? 0) && (m =? 0)) = (j =? 0) && (m =? 0))%Z).
  { destruct (Z.eqb_spec j 0); [|rewrite andb_false_r; reflexivity]. destruct (Z.eqb_spec nsMin 0); [reflexivity|lia]. }
  rewrite Z0.
  assert (MX : (j <? Z.min maxj nsMax)%Z = (j <? maxj)%Z) by (destruct (Z.ltb_spec j (Z.min maxj nsMax)), (Z.ltb_spec j maxj); try lia; reflexivity).
  rewrite MX in GD.
  destruct ((j =? 0) && (m =? 0))%Z eqn:AX.
  - apply andb_true_iff in AX. destruct AX as (AJ & AM). apply Z.eqb_eq in AJ, AM. subst j m. change (0 =? 1)%Z with false in *. cbn [andb] in GD. cbv iota in GD. cbv iota.
    assert (E1 : (0 =? ns - 1)%Z = false) by (apply Z.eqb_neq; lia).
    assert (E2 : (0 <? maxj)%Z = true) by (apply Z.ltb_lt; unfold maxj; destruct b; lia).
    rewrite E1, E2 in *.
    destruct b as [bd|]; destruct c; unfold l_val; rewrite ?GD, ?GC, ?GB; unfold l_val; rewrite ?GA; unfold rz_val; try reflexivity; destruct lthreed; reflexivity.
  - rewrite GD.
    assert (MJ : forall bd, b = Some bd -> (j <? maxj)%Z = negb (j =? ns - 1)%Z).
    { intros bd ->. unfold maxj. destruct (Z.ltb_spec j (ns - 1)), (Z.eqb_spec j (ns - 1)); try lia; reflexivity. }
    assert (MN : b = None -> (j <? maxj)%Z = true).
    { intros ->. unfold maxj. apply Z.ltb_lt. lia. }
    destruct b as [bd|].
    + rewrite (MJ bd eq_refl) in *. destruct (Z.eqb_spec j (ns - 1)) as [->|Ne]; cbn [negb] in *.
      * rewrite andb_false_r. rewrite GC. cbv zeta. unfold rz_val. destruct c; rewrite ?GB; unfold l_val; rewrite ?GA; try reflexivity; destruct lthreed; reflexivity.
      * rewrite andb_true_r. destruct (m =? 1)%Z; [unfold m1_val|]; destruct c; rewrite ?GC, ?GB; unfold l_val; rewrite ?GA; try reflexivity; unfold rz_val; destruct lthreed; reflexivity.
    + rewrite (MN eq_refl) in *. rewrite andb_true_r. destruct (m =? 1)%Z; [unfold m1_val|]; destruct c; rewrite ?GC, ?GB; unfold l_val; rewrite ?GA; try reflexivity; unfold rz_val; destruct lthreed; reflexivity.
Qed.
End Read.
