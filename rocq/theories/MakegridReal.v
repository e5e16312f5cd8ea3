(** Exact arithmetic: coil fields and the response table. *)
From Coq Require Import ZArith Reals List Bool Lia Lra Psatz Permutation.
From Verif Require Import Base BaseLemmas GridLemmas Num MgridModel MgridSpec MgridProofs MgridMore MgridFinal MakegridModel MakegridSpec MakegridProofs.
Import ListNotations.
Open Scope Z_scope.

Ltac toR := match goal with |- @eq _ ?a ?b => change (@eq R a b) end.

Lemma neq_R0 (x : R) : @neq num_R x 0%R = true <-> x = 0%R.
Proof. cbn. unfold Reqb. destruct (Req_EM_T x 0); split; congruence. Qed.
Lemma neq_R0_false (x : R) : x <> 0%R -> @neq num_R x 0%R = false.
Proof. intros H. cbn. unfold Reqb. destruct (Req_EM_T x 0); congruence. Qed.
Lemma nlt_R (a b : R) : (a < b)%R -> @nlt num_R a b = true.
Proof. intros H. cbn. unfold Rltb. destruct (Rlt_dec a b); [reflexivity|contradiction]. Qed.
Lemma nlt_R_false (a b : R) : (b <= a)%R -> @nlt num_R a b = false.
Proof. intros H. cbn. unfold Rltb. destruct (Rlt_dec a b); [lra|reflexivity]. Qed.

(** ** The straight wire. *)
Section Wire.
  Context (mu : R).
  Notation M := (libm_R mu).

  Lemma sqrt_div_sq a b : (0 < b)%R -> (0 <= a)%R -> sqrt (a / b) = (sqrt a / sqrt b)%R.
  Proof. intros. apply sqrt_div; assumption. Qed.

  Lemma wire_ok (cur : R) (o d x : R3) :
    cur <> 0%R -> (0 < norm2 d)%R -> (0 < norm2 (cross d (vsub x o)))%R ->
    @line_field num_R M o d cur x = Some (wire mu cur o d x).
  Proof.
    intros Hc Hd Hx. destruct o as [[ox oy] oz], d as [[dx dy] dz], x as [[x y] z].
    unfold line_field. change (@nZ num_R 0) with 0%R. rewrite (neq_R0_false _ Hc).
    cbn [vx vy vz fst snd hypot3 libm_R mu0 pi_]. cbn [nadd nsub nmul ndiv nZ num_R].
    unfold norm2, dot, cross, vsub, cx, cy, cz in Hd, Hx. cbn [fst snd] in Hd, Hx.
    set (L := sqrt (dx * dx + dy * dy + dz * dz)) in *.
    assert (HL : (0 < L)%R) by (apply sqrt_lt_R0; exact Hd).
    assert (LL : (L * L = dx * dx + dy * dy + dz * dz)%R) by (apply sqrt_sqrt; lra).
    rewrite (nlt_R _ _ HL). cbn [negb].
    set (ex := (ox - x)%R) in *. set (ey := (oy - y)%R) in *. set (ez := (oz - z)%R) in *.
    set (par := (ex * (dx / L) + ey * (dy / L) + ez * (dz / L))%R).
    set (px := (ex - dx / L * par)%R). set (py := (ey - dy / L * par)%R). set (pz := (ez - dz / L * par)%R).
    set (C := ((dy * (z - oz) - dz * (y - oy)) * (dy * (z - oz) - dz * (y - oy)) + (dz * (x - ox) - dx * (z - oz)) * (dz * (x - ox) - dx * (z - oz)) + (dx * (y - oy) - dy * (x - ox)) * (dx * (y - oy) - dy * (x - ox)))%R) in *.
    assert (PP : (px * px + py * py + pz * pz = C / (L * L))%R).
    { apply Rmult_eq_reg_r with (L * L)%R; [|nra].
      assert (E : ((px * px + py * py + pz * pz) * (L * L) = (ex * ex + ey * ey + ez * ez) * (L * L) - (par * L) * (par * L))%R).
      { assert (P2 : (par * L = ex * dx + ey * dy + ez * dz)%R) by (unfold par; field; lra).
        assert (dxl : (dx / L * par * (L * L) = dx * (par * L))%R) by (field; lra).
        unfold px, py, pz.
        replace (((ex - dx / L * par) * (ex - dx / L * par) + (ey - dy / L * par) * (ey - dy / L * par) + (ez - dz / L * par) * (ez - dz / L * par)) * (L * L))%R
          with ((ex * ex + ey * ey + ez * ez) * (L * L) - 2 * (par * L) * (ex * dx + ey * dy + ez * dz) + par * par * (dx * dx + dy * dy + dz * dz))%R by (field; lra).
        rewrite <- LL, <- P2. ring. }
      rewrite E. replace (C / (L * L) * (L * L))%R with C by (field; lra).
      replace (par * L)%R with (ex * dx + ey * dy + ez * dz)%R by (unfold par; field; lra). rewrite LL. unfold C, ex, ey, ez. ring. }
    set (rad := sqrt (px * px + py * py + pz * pz)).
    assert (Hr : (0 < rad)%R). { apply sqrt_lt_R0. rewrite PP. apply Rdiv_lt_0_compat; nra. }
    assert (RR : (rad * rad = C / (L * L))%R). { unfold rad. rewrite sqrt_sqrt; [exact PP|]. rewrite PP. left. apply Rdiv_lt_0_compat; nra. }
    rewrite (nlt_R _ _ Hr). cbn [negb].
    unfold wire, vscale, norm2, dot, cross, vsub, cx, cy, cz. cbn [fst snd]. fold L C.
    assert (PI0 : PI <> 0%R) by (pose proof PI_RGT_0; lra).
    assert (HC : C <> 0%R) by lra.
    assert (X : forall a b da db e, (a / rad * (db / L) - b / rad * (da / L) = e / rad / L)%R ->
       ((a / rad * (db / L) - b / rad * (da / L)) * (mu * cur / (2 * PI) / rad) = mu * cur / (2 * PI) * L / C * e)%R).
    { intros a b da db e ->. replace (e / rad / L * (mu * cur / (2 * PI) / rad))%R with (e * (mu * cur / (2 * PI)) / L / (rad * rad))%R by (field; repeat split; lra).
      rewrite RR. field. repeat split; lra. }
    f_equal. f_equal; [f_equal|]; toR; apply X; unfold px, py, pz, ex, ey, ez; field; lra.
  Qed.

  Lemma wire_zero (o d x : R3) : @line_field num_R M o d 0%R x = Some (0%R, 0%R, 0%R).
  Proof. unfold line_field. change (@nZ num_R 0) with 0%R. rewrite (proj2 (neq_R0 0) eq_refl). reflexivity. Qed.

  (** Direction and strength. *)
  Lemma wire_perp (cur : R) o d x : dot (wire mu cur o d x) d = 0%R /\ dot (wire mu cur o d x) (vsub x o) = 0%R.
  Proof. unfold wire, vscale, dot, cross, vsub, cx, cy, cz. cbn [fst snd]. split; ring. Qed.

  Lemma wire_norm (cur : R) o d x : (0 < norm2 d)%R -> (0 < norm2 (cross d (vsub x o)))%R ->
    (norm2 (wire mu cur o d x) * (norm2 (cross d (vsub x o)) / norm2 d) = (mu * cur / (2 * PI)) * (mu * cur / (2 * PI)))%R.
  Proof.
    intros Hd Hc. unfold wire. set (c := cross d (vsub x o)) in *.
    assert (E : forall s, norm2 (vscale s c) = (s * s * norm2 c)%R) by (intros s; unfold norm2, dot, vscale, cx, cy, cz; cbn [fst snd]; ring).
    rewrite E. pose proof (sqrt_sqrt (norm2 d) ltac:(lra)) as S. pose proof (sqrt_lt_R0 _ Hd) as SP.
    set (s := sqrt (norm2 d)) in *. rewrite <- S. assert (PI0 : PI <> 0%R) by (pose proof PI_RGT_0; lra).
    field. repeat split; lra.
  Qed.

  Lemma wire_rescale (cur : R) o d x a : (0 < a)%R -> (0 < norm2 d)%R -> (0 < norm2 (cross d (vsub x o)))%R ->
    wire mu cur o (vscale a d) x = wire mu cur o d x.
  Proof.
    intros Ha Hd Hc. unfold wire.
    assert (N : norm2 (vscale a d) = (a * a * norm2 d)%R) by (unfold norm2, dot, vscale, cx, cy, cz; cbn [fst snd]; ring).
    assert (C : cross (vscale a d) (vsub x o) = vscale a (cross d (vsub x o))).
    { unfold cross, vscale, vsub, cx, cy, cz; cbn [fst snd]. f_equal; [f_equal|]; ring. }
    rewrite C, N. set (c := cross d (vsub x o)) in *.
    assert (Nc : norm2 (vscale a c) = (a * a * norm2 c)%R) by (unfold norm2, dot, vscale, cx, cy, cz; cbn [fst snd]; ring).
    rewrite Nc. rewrite sqrt_mult by nra. rewrite sqrt_square by lra. assert (PI0 : PI <> 0%R) by (pose proof PI_RGT_0; lra).
    unfold vscale, cx, cy, cz. cbn [fst snd]. f_equal; [f_equal|]; field; repeat split; lra.
  Qed.

  Lemma wire_shift (cur : R) o d x a : wire mu cur (plus3 o (vscale a d)) d x = wire mu cur o d x.
  Proof.
    unfold wire. replace (cross d (vsub x (plus3 o (vscale a d)))) with (cross d (vsub x o)); [reflexivity|].
    unfold cross, vscale, vsub, plus3, cx, cy, cz; cbn [fst snd]. f_equal; [f_equal|]; ring.
  Qed.
End Wire.

(** ** Coil sets. *)
Section Coils.
  Context (mu : R) (cfield : Z -> R -> R3 -> R3).
  (** The external library: the field of a filament is proportional to its current. *)
  Definition proportional : Prop := forall id I x, cfield id I x = vscale I (cfield id 1 x).
  Hypothesis Lin : proportional.
  Notation M := (libm_R mu).
  Notation K := num_R.

  Definition zero3 : R3 := (0%R, 0%R, 0%R).

  Lemma R3_ext (a b : R3) : cx a = cx b -> cy a = cy b -> cz a = cz b -> a = b.
  Proof. destruct a as [[? ?] ?], b as [[? ?] ?]. unfold cx, cy, cz. cbn. congruence. Qed.

  Ltac tyR := repeat match goal with x : vec num_R |- _ => change (vec num_R) with R3 in x | x : N num_R |- _ => change (N num_R) with R in x end.
  Ltac r3 := tyR; apply R3_ext; unfold vadd, plus3, vscale, zero3, vx, vy, vz, cx, cy, cz; cbn [fst snd nadd num_R]; change (N num_R) with R; toR.

  Lemma vadd_plus (a b : R3) : @vadd num_R a b = plus3 a b.
  Proof. r3; reflexivity. Qed.

  (** Field of a carrier per unit current, where defined. *)
  Lemma line_scale o d I0 x v : I0 <> 0%R -> @line_field K M o d I0 x = Some v ->
    forall I, I <> 0%R -> @line_field K M o d I x = Some (vscale (I / I0) v).
  Proof.
    intros H0 E I HI. unfold line_field in *. change (@nZ num_R 0) with 0%R in *. rewrite (neq_R0_false _ H0) in E. rewrite (neq_R0_false _ HI).
    cbv zeta in *.
    set (len := hypot3 M (vx d) (vy d) (vz d)) in *.
    destruct (negb (nlt _ len)) eqn:B0; [discriminate|].
    apply negb_false_iff in B0. assert (Hl : (0 < len)%R) by (cbn [nlt num_R] in B0; unfold Rltb in B0; destruct (Rlt_dec 0 len); [assumption|discriminate B0]).
    match type of E with (if negb (nlt _ ?r) then _ else _) = _ => set (rad := r) in * end.
    destruct (negb (nlt _ rad)) eqn:B; [discriminate|]. injection E as <-.
    apply negb_false_iff in B. assert (Hr : (0 < rad)%R) by (cbn [nlt num_R] in B; unfold Rltb in B; destruct (Rlt_dec 0 rad); [assumption|discriminate B]).
    assert (PI0 : PI <> 0%R) by (pose proof PI_RGT_0; lra).
    cbn [nadd nsub nmul ndiv nZ num_R pi_ mu0 libm_R hypot3] in *.
    f_equal. clearbody rad len. assert (rad <> 0%R) by (apply Rgt_not_eq; exact Hr). assert (len <> 0%R) by (apply Rgt_not_eq; exact Hl). r3; field; repeat split; assumption.
  Qed.

  Lemma carrier_scale c I0 x v : I0 <> 0%R -> @one_carrier K M cfield c I0 x zero3 = Some v ->
    forall I b, @one_carrier K M cfield c I x b = Some (plus3 b (vscale (I / I0) v)).
  Proof.
    intros H0 E I b. destruct c as [o d|id|]; cbn [one_carrier] in *.
    - change (@nZ num_R 0) with 0%R in *. rewrite (neq_R0_false _ H0) in E.
      destruct (line_field M o d I0 x) as [u|] eqn:L; [|discriminate]. cbn [bind] in E. injection E as <-.
      destruct (Req_EM_T I 0) as [->|HI].
      + rewrite (proj2 (neq_R0 0) eq_refl). f_equal. destruct b as [[? ?] ?], u as [[? ?] ?]. r3; field; assumption.
      + rewrite (neq_R0_false _ HI). rewrite (line_scale o d I0 x u H0 L I HI). cbn [bind]. f_equal. r3; field; assumption.
    - injection E as <-. f_equal. rewrite (Lin id I), (Lin id I0).
      r3; field; assumption.
    - injection E as <-. f_equal. destruct b as [[? ?] ?]. r3; ring.
  Qed.

  Lemma carrier_base c I x b r : @one_carrier K M cfield c I x b = Some r ->
    exists v, @one_carrier K M cfield c I x zero3 = Some v /\ r = plus3 b v.
  Proof.
    intros E. destruct c as [o d|id|]; cbn [one_carrier] in *.
    - destruct (neq I (nZ 0)).
      + injection E as <-. exists zero3. split; [reflexivity|]. r3; ring.
      + destruct (line_field M o d I x) as [u|]; [|discriminate]. cbn [bind] in *. injection E as <-. eexists. split; [reflexivity|]. r3; ring.
    - injection E as <-. eexists. split; [reflexivity|]. r3; ring.
    - injection E as <-. exists zero3. split; [reflexivity|]. r3; ring.
  Qed.

  Lemma none_carriers l I x : fold_left (fun b c => bind b (@one_carrier K M cfield c I x)) l None = None.
  Proof. induction l as [|c l IH]; cbn; auto. Qed.

  Lemma carriers_scale l I0 x b0 r : I0 <> 0%R ->
    fold_left (fun b c => bind b (@one_carrier K M cfield c I0 x)) l (Some b0) = Some r ->
    exists v, r = plus3 b0 v /\
      forall I b, fold_left (fun b c => bind b (@one_carrier K M cfield c I x)) l (Some b) = Some (plus3 b (vscale (I / I0) v)).
  Proof.
    intros H0. revert b0 r. induction l as [|c l IH]; intros b0 r E; cbn [fold_left] in *.
    - injection E as <-. exists zero3. split; [r3; ring|]. intros I b. f_equal. r3; ring.
    - cbn [bind] in *. destruct (one_carrier M cfield c I0 x b0) as [b1|] eqn:E1; [|rewrite none_carriers in E; discriminate].
      destruct (carrier_base _ _ _ _ _ E1) as (v & Ev & ->). destruct (IH _ _ E) as (w & -> & W).
      exists (plus3 v w). split; [r3; ring|]. intros I b.
      rewrite (carrier_scale c I0 x v H0 Ev I b), W. f_equal. r3; ring.
  Qed.

  Lemma carriers_zero l x b : fold_left (fun b c => bind b (@one_carrier K M cfield c 0%R x)) l (Some b) = Some b.
  Proof.
    revert b. induction l as [|c l IH]; intros b; cbn [fold_left]; [reflexivity|]. cbn [bind].
    assert (E : @one_carrier K M cfield c 0%R x b = Some b).
    { destruct c as [o d|id|]; cbn [one_carrier]; [|f_equal; rewrite Lin; r3; ring|reflexivity].
      change (@nZ num_R 0) with 0%R. rewrite (proj2 (neq_R0 0) eq_refl). reflexivity. }
    rewrite E. apply IH.
  Qed.

  Lemma none_coils l I x : fold_left (fun b cl => @coil_field K M cfield I cl x b) l None = None.
  Proof. induction l as [|c l IH]; cbn [fold_left]; [reflexivity|]. unfold coil_field at 2. rewrite none_carriers. apply IH. Qed.

  Lemma coil_scale cl I0 x b0 r : I0 <> 0%R -> @coil_field K M cfield I0 cl x (Some b0) = Some r ->
    exists v, r = plus3 b0 v /\ forall I b, @coil_field K M cfield I cl x (Some b) = Some (plus3 b (vscale (I / I0) v)).
  Proof.
    intros H0 E. unfold coil_field in *. destruct (num_windings cl) as [w|].
    - cbn [nmul num_R] in *. destruct (Req_EM_T w 0) as [->|Hw].
      + rewrite Rmult_0_r, carriers_zero in E. injection E as <-. exists zero3. split; [r3; ring|].
        intros I b. rewrite Rmult_0_r, carriers_zero. f_equal. r3; ring.
      + assert (H1 : (I0 * w)%R <> 0%R) by (apply Rmult_integral_contrapositive; auto).
        destruct (carriers_scale _ (I0 * w)%R x b0 r H1 E) as (v & -> & V). exists v. split; [reflexivity|].
        intros I b. rewrite V. f_equal. r3; field; auto.
    - destruct (carriers_scale _ I0 x b0 r H0 E) as (v & -> & V). exists v. auto.
  Qed.

  Lemma coils_scale l I0 x b0 r : I0 <> 0%R ->
    fold_left (fun b cl => @coil_field K M cfield I0 cl x b) l (Some b0) = Some r ->
    exists v, r = plus3 b0 v /\ forall I b, fold_left (fun b cl => @coil_field K M cfield I cl x b) l (Some b) = Some (plus3 b (vscale (I / I0) v)).
  Proof.
    intros H0. revert b0 r. induction l as [|c l IH]; intros b0 r E; cbn [fold_left] in *.
    - injection E as <-. exists zero3. split; [r3; ring|]. intros I b. f_equal. r3; ring.
    - destruct (coil_field M cfield I0 c x (Some b0)) as [b1|] eqn:E1; [|rewrite none_coils in E; discriminate].
      destruct (coil_scale _ _ _ _ _ H0 E1) as (v & -> & V). destruct (IH _ _ E) as (w & -> & W).
      exists (plus3 v w). split; [r3; ring|]. intros I b. rewrite V, W. f_equal. r3; ring.
  Qed.

  (** One circuit: field proportional to the current. *)
  Lemma circuit_scale l I0 x v : I0 <> 0%R -> @circuit_field K M cfield (@mkCircuit num_R (Some I0) l) x (Some zero3) = Some v ->
    forall I b, @circuit_field K M cfield (@mkCircuit num_R (Some I) l) x (Some b) = Some (plus3 b (vscale (I / I0) v)).
  Proof.
    intros H0 E I b. unfold circuit_field in *. cbn [current coils] in *. change (@nZ num_R 0) with 0%R in *.
    rewrite (neq_R0_false _ H0) in E. destruct (coils_scale l I0 x zero3 v H0 E) as (w & -> & W).
    destruct (Req_EM_T I 0) as [->|HI].
    - rewrite (proj2 (neq_R0 0) eq_refl). f_equal. r3; field; assumption.
    - rewrite (neq_R0_false _ HI), W. f_equal. r3; field; assumption.
  Qed.

  Lemma circuit_none ct x : @circuit_field K M cfield ct x None = None.
  Proof. unfold circuit_field. destruct (current ct); [|reflexivity]. destruct (neq _ _); [reflexivity|]. apply none_coils. Qed.

  Lemma circuit_base ct x b r : @circuit_field K M cfield ct x (Some b) = Some r ->
    exists v, @circuit_field K M cfield ct x (Some zero3) = Some v /\ r = plus3 b v.
  Proof.
    intros E. unfold circuit_field in *. destruct (current ct) as [I|].
    2:{ injection E as <-. exists zero3. split; [reflexivity|r3; ring]. }
    change (@nZ num_R 0) with 0%R in *. destruct (Req_EM_T I 0) as [->|HI].
    - rewrite (proj2 (neq_R0 0) eq_refl) in *. injection E as <-. exists zero3. split; [reflexivity|r3; ring].
    - rewrite (neq_R0_false _ HI) in *. destruct (coils_scale _ I x b r HI E) as (v & -> & V). exists v.
      split; [|reflexivity]. rewrite V. f_equal. r3; field; assumption.
  Qed.

  (** ** Migration of the windings. *)
  Definition windings_set (ct : circuit num_R) : Prop :=
    (forall cl, In cl (coils ct) -> num_windings cl <> None) /\
    exists c0 rest w, coils ct = c0 :: rest /\ num_windings c0 = Some w /\ w <> 0%R.

  Lemma migrate_field (ct : circuit num_R) : windings_set ct ->
    exists ct', @migrate_circuit K ct = Some ct' /\ forall x b, @circuit_field K M cfield ct' x b = @circuit_field K M cfield ct x b.
  Proof.
    intros (Hs & c0 & rest & w & E & Ew & Hw). unfold migrate_circuit. rewrite E. eexists. split; [reflexivity|].
    intros x b. assert (Ww : @windings K c0 = w) by (unfold windings; rewrite Ew; reflexivity). rewrite Ww. unfold circuit_field. cbn [current coils].
    rewrite <- E. cbn [nmul ndiv nZ num_R]. change (@nZ num_R 0) with 0%R.
    assert (F : forall I l b, (forall cl, In cl l -> num_windings cl <> None) ->
      fold_left (fun b cl => @coil_field K M cfield (I * w)%R cl x b) (map (fun cl => @mkCoil num_R (Some (@windings K cl / w)%R) (carriers cl)) l) b
      = fold_left (fun b cl => @coil_field K M cfield I cl x b) l b).
    { intros I l. induction l as [|c l IH]; intros bb Hl; [reflexivity|]. cbn [fold_left map].
      replace (@coil_field K M cfield (I * w)%R(@mkCoil num_R (Some (@windings K c / w)%R) (carriers c)) x bb) with (@coil_field K M cfield I c x bb).
      - apply IH. intros cl Hin. apply Hl. right. exact Hin.
      - unfold coil_field. cbn [num_windings carriers]. unfold windings.
        destruct (num_windings c) as [u|] eqn:Eu; [|exfalso; apply (Hl c); [left; reflexivity|exact Eu]].
        cbn [nmul num_R]. replace (I * w * (u / w))%R with (I * u)%R by (field; exact Hw). reflexivity. }
    destruct (current ct) as [I|].
    - destruct (Req_EM_T I 0) as [->|HI].
      + rewrite Rmult_0_l, (proj2 (neq_R0 0) eq_refl). reflexivity.
      + assert ((I * w)%R <> 0%R) by (apply Rmult_integral_contrapositive; auto). rewrite !neq_R0_false by assumption. apply F. exact Hs.
    - rewrite Rmult_0_l, (proj2 (neq_R0 0) eq_refl). reflexivity.
  Qed.

  Lemma migrate_config (cf : config num_R) : (forall ct, In ct cf -> windings_set ct) ->
    exists cf', @NumWindingsToCircuitCurrents K cf = Some cf' /\ forall x, @config_field K M cfield cf' x = @config_field K M cfield cf x.
  Proof.
    intros H. assert (G : exists cf', @NumWindingsToCircuitCurrents K cf = Some cf' /\
      forall x b, fold_left (fun b ct => @circuit_field K M cfield ct x b) cf' b = fold_left (fun b ct => @circuit_field K M cfield ct x b) cf b).
    { induction cf as [|ct r IH]; [exists []; split; reflexivity|].
      destruct (migrate_field ct (H ct (or_introl eq_refl))) as (ct' & E & F).
      destruct IH as (r' & E' & F'); [intros c Hc; apply H; right; exact Hc|].
      exists (ct' :: r'). split; [cbn [NumWindingsToCircuitCurrents]; rewrite E, E'; reflexivity|].
      intros x b. cbn [fold_left]. rewrite F. apply F'. }
    destruct G as (cf' & E & F). exists cf'. split; [exact E|]. intros x. apply F.
  Qed.

  (** ** One circuit at a time. *)
  Lemma config_only (pre post : config num_R) ct x b :
    (forall c, In c pre \/ In c post -> current c = Some 0%R) ->
    fold_left (fun b c => @circuit_field K M cfield c x b) (pre ++ ct :: post) (Some b) = @circuit_field K M cfield ct x (Some b).
  Proof.
    intros H.
    assert (Z : forall (l : config num_R) o, (forall c, In c l -> current c = Some 0%R) -> fold_left (fun b c => @circuit_field K M cfield c x b) l o = o).
    { induction l as [|c l IH]; intros o Hl; [reflexivity|]. cbn [fold_left]. unfold circuit_field at 2. rewrite (Hl c (or_introl eq_refl)).
      change (@nZ num_R 0) with 0%R. rewrite (proj2 (neq_R0 0) eq_refl). apply IH. intros c' Hc'. apply Hl. right. exact Hc'. }
    rewrite fold_left_app. rewrite (Z pre) by (intros; apply H; auto). cbn [fold_left]. apply Z. intros; apply H; auto.
  Qed.
End Coils.
