From Coq Require Import ZArith List Reals Bool Lia Lra.
From Coquelicot Require Import Coquelicot.
From Verif Require Import Base BaseLemmas SumLemmas SizesModel FourierModel FourierSpec DftTables VacTables SurfModel SurfSpec SurfMain SurfFinal SingSumProofs LapProofs LapMain
  RegSpec ExtModel ExtSpec ExtSeg.
Open Scope R_scope.

Definition at3 (a : Z -> R) (i : Z) : vec := mkVec (a (i * 3 + 0)%Z) (a (i * 3 + 1)%Z) (a (i * 3 + 2)%Z).
Definition set3 (a : Z -> R) (i : Z) (x y z : R) : Z -> R :=
  upd (upd (upd a (i * 3 + 0)%Z x) (i * 3 + 1)%Z y) (i * 3 + 2)%Z z.
Lemma at3_set3 a i x y z : at3 (set3 a i x y z) i = mkVec x y z.
Proof. unfold at3, set3. apply vec_eq; cbn [vx vy vz]; rewrite ?upd_eq, ?upd_neq, ?upd_eq, ?upd_neq, ?upd_eq by lia; reflexivity. Qed.
Lemma at3_set3_neq a i j x y z : j <> i -> at3 (set3 a i x y z) j = at3 a j.
Proof. intros. unfold at3, set3. apply vec_eq; cbn [vx vy vz]; rewrite !upd_neq by lia; reflexivity. Qed.

Section W.
Variable s : sizes.
Hypothesis OK : sz_ok s.
Variables ztMin ztMax : Z.
Variable g : surf.
Local Notation nz := (sz_nZeta s).
Local Notation per := (nvper s).
Local Notation N := (nz * nvper s)%Z.

Lemma per_pos : (0 < per)%Z.
Proof. unfold nvper. destruct (nz =? 1)%Z; [lia|]. pose proof (so_nfp s OK). lia. Qed.

Variables rAxis zAxis : Z -> R.
Local Notation V := (axis_vertex nz per rAxis zAxis).

Lemma phi_first k : (0 <= k < nz)%Z -> 2 * PI / IZR (sz_nfp s * nz) * IZR k = 2 * PI * IZR k / (IZR per * IZR nz).
Proof.
  intros Hk. pose proof (so_nfp s OK). rewrite mult_IZR. unfold nvper. destruct (Z.eqb_spec nz 1) as [E|E].
  - replace k with 0%Z by lia. unfold Rdiv. ring.
  - field. split; apply not_0_IZR; lia.
Qed.
Lemma phi_copy p k : 2 * PI * IZR (p * nz + k) / (IZR per * IZR nz) = 2 * PI / IZR per * IZR p + 2 * PI * IZR k / (IZR per * IZR nz).
Proof.
  pose proof per_pos. pose proof (so_nZeta s OK). rewrite plus_IZR, mult_IZR. field. split; apply not_0_IZR; lia.
Qed.

Lemma first_val ax k : (0 <= k < nz)%Z -> at3 (axis_first s rAxis zAxis ax) k = V k.
Proof.
  intros Hk. unfold axis_first.
  apply (for_up_set (fun a => at3 a k) _ 0 nz k); [exact Hk| |].
  - intros a. cbv zeta. change (at3 (set3 a k (rAxis k * cos_phi s k) (rAxis k * sin_phi s k) (zAxis k)) k = V k).
    rewrite at3_set3. unfold axis_vertex, cos_phi, sin_phi. cbv zeta. rewrite Z.mod_small by lia. rewrite phi_first by exact Hk. reflexivity.
  - intros j a Hj Ne. cbv zeta. apply (at3_set3_neq a j k). auto.
Qed.

Definition first_ok (a : Z -> R) := forall k, (0 <= k < nz)%Z -> at3 a k = V k.
Definition copy (p k : Z) (ax : Z -> R) : Z -> R :=
  let cos_per := cos (2 * PI / IZR per * IZR p) in
  let sin_per := sin (2 * PI / IZR per * IZR p) in
  let ax := upd ax ((p * nz + k) * 3 + 0)%Z (cos_per * ax (k * 3 + 0)%Z - sin_per * ax (k * 3 + 1)%Z) in
  let ax := upd ax ((p * nz + k) * 3 + 1)%Z (sin_per * ax (k * 3 + 0)%Z + cos_per * ax (k * 3 + 1)%Z) in
  upd ax ((p * nz + k) * 3 + 2)%Z (zAxis k).
Lemma copy_eq p k a : (1 <= p)%Z -> (0 <= k < nz)%Z -> first_ok a ->
  copy p k a = set3 a (p * nz + k) (vx (V (p * nz + k))) (vy (V (p * nz + k))) (vz (V (p * nz + k))).
Proof.
  intros Hp Hk F. pose proof (F k Hk) as E. unfold at3 in E. injection E. intros _ E2 E1.
  unfold copy, set3. cbv zeta. rewrite !upd_neq with (j := (k * 3 + 0)%Z) by nia. rewrite !upd_neq with (j := (k * 3 + 1)%Z) by nia.
  rewrite E1, E2. unfold axis_vertex. cbv zeta. cbn [vx vy vz].
  rewrite (Z.add_comm (p * nz) k), Z.mod_add, Z.mod_small by lia. rewrite (Z.add_comm k (p * nz)).
  rewrite phi_copy. rewrite cos_plus, sin_plus.
  f_equal; [f_equal; [f_equal; ring|ring]].
Qed.
Lemma copy_first p k a : (1 <= p)%Z -> (0 <= k < nz)%Z -> first_ok a -> first_ok (copy p k a).
Proof.
  intros Hp Hk F k' Hk'. rewrite copy_eq by assumption. rewrite at3_set3_neq by nia. apply F. exact Hk'.
Qed.
Lemma copies_eq ax : axis_copies s zAxis ax = for_up 1 per (fun p ax => for_up 0 nz (fun k ax => copy p k ax) ax) ax.
Proof. reflexivity. Qed.
Lemma row_first p a : (1 <= p)%Z -> first_ok a -> first_ok (for_up 0 nz (fun k ax => copy p k ax) a).
Proof.
  intros Hp F. pose proof (so_nZeta s OK). pose (I := fun (i : Z) (a : Z -> R) => first_ok a).
  apply (for_up_ind I); unfold I; [lia|exact F|]. intros. apply copy_first; [exact Hp|lia|assumption].
Qed.
Lemma copies_val ax j : first_ok ax -> (0 <= j < N)%Z -> at3 (axis_copies s zAxis ax) j = V j.
Proof.
  intros F Hj. rewrite copies_eq. pose proof (so_nZeta s OK) as Hn. pose proof per_pos as Hp.
  set (p0 := (j / nz)%Z). set (k0 := (j mod nz)%Z).
  assert (Hk0 : (0 <= k0 < nz)%Z) by (apply Z.mod_pos_bound; lia).
  assert (Ej : j = (p0 * nz + k0)%Z) by (unfold p0, k0; rewrite Z.mul_comm; apply Z.div_mod; lia).
  assert (Hp0 : (0 <= p0 < per)%Z) by nia.
  destruct (Z.eq_dec p0 0) as [E0|E0].
  - assert (FF : first_ok (for_up 1 per (fun p ax => for_up 0 nz (fun k ax => copy p k ax) ax) ax)).
    { pose (I := fun (i : Z) (a : Z -> R) => first_ok a). apply (for_up_ind I); unfold I; [lia|exact F|].
      intros. apply row_first; [lia|assumption]. }
    replace j with k0 by nia. apply FF. exact Hk0.
  - apply (for_up_set_inv first_ok (fun a => at3 a j) _ 1 per p0); [lia| | | |exact F].
    + intros p a H1 H2. apply row_first; [lia|assumption].
    + intros a Fa. apply (for_up_set_inv first_ok (fun a => at3 a j) _ 0 nz k0); [exact Hk0| | | |exact Fa].
      * intros. apply copy_first; [lia|lia|assumption].
      * intros a' Fa'. rewrite copy_eq by (assumption || lia). rewrite <- Ej. rewrite at3_set3. unfold axis_vertex. reflexivity.
      * intros k a' H1 Ne Fa'. rewrite copy_eq by (assumption || lia). apply at3_set3_neq. rewrite Ej. lia.
    + intros p a H1 Ne Fa.
      pose (I := fun (i : Z) (b : Z -> R) => first_ok b /\ at3 b j = at3 a j).
      assert (R' : first_ok (for_up 0 nz (fun k ax => copy p k ax) a) /\ at3 (for_up 0 nz (fun k ax => copy p k ax) a) j = at3 a j).
      { apply (for_up_ind I); unfold I; [lia|split; [exact Fa|reflexivity]|]. intros k b Hk [Fb Eb].
        split; [apply copy_first; [lia|lia|exact Fb]|]. rewrite <- Eb. rewrite copy_eq by (assumption || lia). apply at3_set3_neq.
        intros Ee. assert (p0 = p) by nia. lia. }
      apply R'.
Qed.
Lemma close_val ax j : (forall i, (0 <= i < N)%Z -> at3 ax i = V i) -> (0 <= j <= N)%Z -> at3 (axis_close s ax) j = V (j mod N)%Z.
Proof.
  intros H Hj. pose proof (so_nZeta s OK) as Hn. pose proof per_pos as Hp. assert (0 < N)%Z by nia.
  assert (E : axis_close s ax = set3 ax N (ax 0%Z) (ax 1%Z) (ax 2%Z)).
  { unfold axis_close, set3. cbv zeta. rewrite !upd_neq with (j := 1%Z) by lia. rewrite !upd_neq with (j := 2%Z) by lia. reflexivity. }
  rewrite E. destruct (Z.eq_dec j N) as [->|Ne].
  - rewrite at3_set3. rewrite Z.mod_same by lia. rewrite <- H by lia. reflexivity.
  - rewrite at3_set3_neq by exact Ne. rewrite Z.mod_small by lia. apply H. lia.
Qed.
Lemma axis_val ax j : (0 <= j <= N)%Z -> at3 (axis_close s (axis_copies s zAxis (axis_first s rAxis zAxis ax))) j = V (j mod N)%Z.
Proof. intros Hj. apply close_val; [|exact Hj]. intros i Hi. apply copies_val; [|exact Hi]. intros k Hk. apply first_val. exact Hk. Qed.

Lemma surface_val sx kl : (ztMin <= kl < ztMax)%Z ->
  at3 (surface_points s ztMin ztMax g sx) (kl - ztMin) =
  mkVec (sf_sym g R1 kl * cos_phi s (kl mod nz)) (sf_sym g R1 kl * sin_phi s (kl mod nz)) (sf_sym g Z1 kl).
Proof.
  intros Hk. unfold surface_points. apply (for_up_set (fun a => at3 a (kl - ztMin)%Z) _ ztMin ztMax kl); [exact Hk| |].
  - intros a. cbv zeta. apply at3_set3.
  - intros j a Hj Ne. cbv zeta. apply at3_set3_neq. lia.
Qed.

Definition code_field (cur : R) (a b x : vec) : vec :=
  scale (1 / 10 ^ 7 * cur * 2 * (ln (vsub x a) + ln (vsub x b)) / segment_denominator (ln (vsub x a)) (ln (vsub x b)) (ln (vsub b a)))
    (cross (vsub b a) (vsub x a)).
Lemma code_segment cur a b x : off_segment a b x -> code_field cur a b x = scale cur (segment_field a b x).
Proof.
  intros OFF. rewrite segment_value by exact OFF. pose proof (denominator_ok a b x OFF).
  unfold code_field. apply vec_eq; unfold scale; cbn [vx vy vz]; field; assumption.
Qed.

Lemma filament_comp (pr : vec -> R) cur ax sx kl : (pr = vx \/ pr = vy \/ pr = vz) -> (ztMin <= kl < ztMax)%Z ->
  pr (at3 (filament_field s ztMin ztMax cur ax sx (fun _ => 0)) (kl - ztMin)) =
  zsum 0 N (fun i => pr (code_field cur (at3 ax i) (at3 ax (i + 1)) (at3 sx (kl - ztMin)))).
Proof.
  intros Hp Hk. unfold filament_field. cbv zeta.
  rewrite (for_up_delta (fun bc => pr (at3 bc (kl - ztMin))) _
    (fun i => pr (code_field cur (at3 ax i) (at3 ax (i + 1)) (at3 sx (kl - ztMin))))).
  - replace (pr (at3 (fun _ => 0) (kl - ztMin))) with 0 by (destruct Hp as [->|[->| ->]]; reflexivity). ring.
  - intros i bc Hi.
    rewrite (for_up_delta (fun bc => pr (at3 bc (kl - ztMin))) _
      (fun q => if (q =? kl)%Z then pr (code_field cur (at3 ax i) (at3 ax (i + 1)) (at3 sx (q - ztMin))) else 0)).
    + f_equal. rewrite (zsum_single ztMin ztMax kl); [rewrite Z.eqb_refl; reflexivity|exact Hk|].
      intros q _ Ne. destruct (Z.eqb_spec q kl); [contradiction|reflexivity].
    + intros q b Hq. destruct (Z.eqb_spec q kl) as [->|Ne].
      * destruct Hp as [->|[->| ->]]; unfold at3 at 1; cbn [vx vy vz]; rewrite ?upd_eq, ?upd_neq, ?upd_eq, ?upd_neq, ?upd_eq, ?upd_neq by lia; reflexivity.
      * rewrite Rplus_0_r. destruct Hp as [->|[->| ->]]; unfold at3; cbn [vx vy vz]; rewrite !upd_neq by lia; reflexivity.
Qed.
End W.
