(** Property theorems C29-C34 and C57-C61: radial profiles. *)
From Coq Require Import String ZArith List Bool Reals Lra Lia.
From Coquelicot Require Import Coquelicot.
From Verif Require Import Base BaseLemmas SumLemmas PartModel PartProofs ReduceProps ProfileModel ProfileSpec PolyProofs
  CubicProofs CubicEval AkimaProofs AkimaEval AkimaSym LineProofs AnalyticProofs AnalyticInt ProfileGridProofs.
Import ListNotations.
Notation length := List.length (only parsing).
Open Scope R_scope.

(** The value of the profile of type [name] for quantity [q], as the solver
    evaluates it: the name is looked up first; currents are integrated.
    [dm] is the largest double, [tiny] the smallest normal double. *)
Definition integrated (q : quantity) : bool := match q with Current => true | _ => false end.
Definition prof (dm tiny : R) (name : string) (q : quantity) (coeffs knots values : list R) (x : R) : outcome :=
  evalProfileFunction dm tiny (findParameterization name q) coeffs knots values (integrated q) x.

(** The three entry points of the solver are this function, on [0,1] without
    boundary expansion (bloat = 1). *)
Theorem C29_entry_points dm tiny mu0 pres_scale p x : 0 <= x <= 1 ->
  evalMassProfile dm tiny mu0 pres_scale 1 p x
    = obind (prof dm tiny (pi_type p) Pressure (pi_coeffs p) (pi_knots p) (pi_values p) x)
            (fun v => Val (v * (mu0 * pres_scale))) /\
  evalIotaProfile dm tiny p x = prof dm tiny (pi_type p) Iota (pi_coeffs p) (pi_knots p) (pi_values p) x /\
  evalCurrProfile dm tiny 1 p x = prof dm tiny (pi_type p) Current (pi_coeffs p) (pi_knots p) (pi_values p) x.
Proof.
  intros H. assert (E : Rmin (Rabs (x * 1)) 1 = x) by (rewrite Rmult_1_r, Rabs_right, Rmin_left by lra; reflexivity).
  unfold evalMassProfile, evalCurrProfile. cbv zeta. rewrite E. repeat split.
Qed.
Print Assumptions C29_entry_points.

(** C29: a power series is the polynomial; *)
Theorem C29_power_series dm tiny q c k v x : q <> Current ->
  prof dm tiny "power_series" q c k v x = Val (polynomial c x).
Proof. intros H. unfold prof. destruct q; [|contradiction|]; cbn -[evalPowerSeries polynomial]; rewrite power_series_eval; reflexivity. Qed.
Print Assumptions C29_power_series.
Theorem C29_power_series_i dm tiny c k v x :
  prof dm tiny "power_series_i" Current c k v x = Val (x * polynomial c x).
Proof. unfold prof. cbn -[evalPowerSeriesI polynomial]. rewrite power_series_i_eval. reflexivity. Qed.
Print Assumptions C29_power_series_i.

(** ... the enclosed current of a power series density is its integral from the
    axis, and its derivative is the density; *)
Theorem C29_current dm tiny c k v : exists F : R -> R,
  (forall x, prof dm tiny "power_series" Current c k v x = Val (F x)) /\
  F 0 = 0 /\ (forall x, derivable_pt_lim F x (polynomial c x)) /\ (forall x, is_RInt (polynomial c) 0 x (F x)).
Proof.
  exists (fun x => evalPowerSeries c x true). split; [reflexivity|]. split; [apply power_series_int_zero|]. split.
  - intros x. rewrite <- power_series_eval. apply power_series_antiderivative.
  - intros x. apply (is_RInt_ext (fun s => evalPowerSeries c s false)).
    { intros s _. apply power_series_eval. }
    replace (evalPowerSeries c x true) with (minus (evalPowerSeries c x true) (evalPowerSeries c 0 true))
      by (rewrite power_series_int_zero; unfold minus, plus, opp; simpl; ring).
    apply (is_RInt_derive (fun s => evalPowerSeries c s true) (fun s => evalPowerSeries c s false)).
    + intros y _. apply derive_is, power_series_antiderivative.
    + intros y _. apply continuity_pt_filterlim. apply (continuity_pt_ext (polynomial c)).
      { intros t. symmetry. apply power_series_eval. }
      destruct (polynomial_derivable c y) as (l & Hl). eapply derivable_continuity, Hl.
Qed.
Print Assumptions C29_current.
Example C29_current_case : exists x, polynomial [1; 2] x <> polynomial [1; 2] 0.
Proof. exists 1. unfold polynomial. change (zsum 0 2 (fun i => nth (Z.to_nat i) [1; 2] 0 * 1 ^ Z.to_nat i) <> zsum 0 2 (fun i => nth (Z.to_nat i) [1; 2] 0 * 0 ^ Z.to_nat i)).
  unfold zsum. change (zrange 0 2) with [0%Z; 1%Z]. cbn [rsum].
  change (Z.to_nat 0) with 0%nat. change (Z.to_nat 1) with 1%nat. simpl. lra. Qed.

(** ... and the flux derivative is the derivative of the flux polynomial. *)
Theorem C29_flux_derivative aphi x :
  derivable_pt_lim (torflux aphi) x (torfluxDeriv aphi x) /\
  torflux aphi x = x * polynomial aphi x.
Proof.
  split; [apply torflux_derivative|]. rewrite torflux_eval. unfold polynomial, zsum. rewrite <- rsum_scale.
  apply rsum_ext. intros i Hi. apply zrange_In in Hi.
  replace (Z.to_nat (i + 1)) with (S (Z.to_nat i)) by lia. unfold vat. simpl. ring.
Qed.
Print Assumptions C29_flux_derivative.

(** C30: integrating the toroidal flux derivative the solver uses from the axis
    to the edge gives signgs * phiedge / (2 pi). *)
Theorem C30_edge_flux signgs phiedge aphi : zsum 0 (vlen aphi) (vat aphi) <> 0 ->
  is_RInt (fun s => maxToroidalFlux signgs phiedge aphi * torfluxDeriv aphi s) 0 1 (signgs * phiedge / (2 * PI)).
Proof.
  intros H. rewrite <- (edge_flux signgs phiedge aphi); [apply flux_integral|]. rewrite torflux_one. exact H.
Qed.
Print Assumptions C30_edge_flux.
Example C30_case : zsum 0 (vlen [1; 1]) (vat [1; 1]) <> 0.
Proof. change (zsum 0 2 (vat [1; 1]) <> 0). unfold zsum. change (zrange 0 2) with [0%Z; 1%Z]. cbn [rsum]. unfold vat. change (Z.to_nat 0) with 0%nat. change (Z.to_nat 1) with 1%nat. simpl. lra. Qed.

(** C31: [spline_data knots values] are the inputs for which a spline is built. *)
Definition spline_data (knots values : list R) : Prop :=
  (4 <= length knots)%nat /\ length values = length knots /\ increasing knots.
(** A profile given by a real function on the knot range. *)
Definition total_on (f : R -> outcome) (g : R -> R) (a b : R) : Prop := forall x, a <= x <= b -> f x = Val (g x).

Theorem C31_akima dm tiny knots values c : spline_data knots values -> 0 < tiny <= 1 ->
  exists g, (forall q name, (q = Current /\ name = "akima_spline_i"%string) \/ (q <> Current /\ name = "akima_spline"%string) ->
               forall x, prof dm tiny name q c knots values x = Val (g x)) /\
    interpolates g knots values /\ cubic_pieces g knots 1 /\
    exists G, (forall x, prof dm tiny "akima_spline_ip" Current c knots values x = Val (G x)) /\
      integral_from g G (nth 0 knots 0) (last knots 0).
Proof.
  intros (H4 & Hv & Hi) Ht. exists (evalAkima tiny knots values). split; [|split; [|split]].
  - intros q name [[-> ->]|[Hq ->]] x; [reflexivity|]. destruct q; [reflexivity|contradiction|reflexivity].
  - apply akima_interpolates; assumption.
  - apply akima_C1; assumption.
  - exists (evalAkimaIntegrated tiny knots values). split; [reflexivity|]. apply akima_integral; assumption.
Qed.
Print Assumptions C31_akima.

Theorem C31_cubic dm tiny knots values c : spline_data knots values ->
  exists g, (forall q name, (q = Current /\ name = "cubic_spline_i"%string) \/ (q <> Current /\ name = "cubic_spline"%string) ->
               forall x, prof dm tiny name q c knots values x = Val (g x)) /\
    interpolates g knots values /\ cubic_pieces g knots 2 /\
    exists G, (forall x, prof dm tiny "cubic_spline_ip" Current c knots values x = Val (G x)) /\
      integral_from g G (nth 0 knots 0) (last knots 0).
Proof.
  intros (H4 & Hv & Hi). exists (evalCubic knots values). split; [|split; [|split]].
  - intros q name [[-> ->]|[Hq ->]] x; [reflexivity|]. destruct q; [reflexivity|contradiction|reflexivity].
  - apply cubic_interpolates; assumption.
  - apply cubic_C2; assumption.
  - exists (evalCubicIntegrated knots values). split; [reflexivity|]. apply cubic_integral; assumption.
Qed.
Print Assumptions C31_cubic.

Example spline_case : spline_data [0; 1/4; 1/2; 1] [1; 2; 0; 5].
Proof.
  split; [simpl; lia|]. split; [reflexivity|]. intros i j [H1 H2]. simpl in H2.
  do 4 (destruct i as [|i]; [do 4 (destruct j as [|j]; [simpl; lra || lia|]); lia|]). lia.
Qed.

(** C32: false. The line segment profile is not the piecewise linear function
    through its knots: the code uses the line of the following segment. *)
Theorem C32_line_segment_refuted : exists knots values x,
  (2 <= length knots)%nat /\ length values = length knots /\ increasing knots /\ nth 0 knots 0 <= x <= last knots 0 /\
  (forall dm tiny c, prof dm tiny "line_segment" Pressure c knots values x = Val (3 / 2)) /\
  ~ piecewise_linear (fun x => match prof 0 0 "line_segment" Pressure [] knots values x with Val r => r | _ => 0 end) knots values.
Proof.
  assert (I : increasing [0; 1/2; 1]).
  { intros i j [H1 H2]. simpl in H2. do 3 (destruct i as [|i]; [do 3 (destruct j as [|j]; [simpl; lra || lia|]); lia|]). lia. }
  assert (E : evalLineSegment [0; 1/2; 1] [0; 1; 0] (1/4) = 3 / 2).
  { rewrite (line_next [0; 1/2; 1] [0; 1; 0] ltac:(simpl; lia) eq_refl I 1).
    - unfold vat. simpl. field.
    - change (vlen [0; 1 / 2; 1]) with 3%Z. lia.
    - unfold vat. simpl. lra. }
  exists [0; 1/2; 1], [0; 1; 0], (1/4). split; [simpl; lia|]. split; [reflexivity|]. split; [exact I|].
  split; [simpl; lra|]. split.
  - intros. change (Val (evalLineSegment [0; 1/2; 1] [0; 1; 0] (1/4)) = Val (3 / 2)). rewrite E. reflexivity.
  - intros P. specialize (P 0%nat (1/4) ltac:(simpl; lia) ltac:(simpl; lra)).
    change (evalLineSegment [0; 1/2; 1] [0; 1; 0] (1/4) = nth 0 [0; 1; 0] 0 + (nth 1 [0; 1; 0] 0 - nth 0 [0; 1; 0] 0) * ((1/4 - nth 0 [0; 1/2; 1] 0) / (nth 1 [0; 1/2; 1] 0 - nth 0 [0; 1/2; 1] 0))) in P.
    rewrite E in P. cbn [nth] in P. lra.
Qed.
Print Assumptions C32_line_segment_refuted.

(** For every data set: between two knots the value lies on the chord of the NEXT
    segment, and is constant on the last one. *)
Theorem C32_actual_value dm tiny c knots values k x :
  (2 <= length knots)%nat -> length values = length knots -> increasing knots ->
  (S k < length knots)%nat -> nth k knots 0 < x <= nth (S k) knots 0 ->
  prof dm tiny "line_segment" Pressure c knots values x =
    Val (if Nat.eqb (S (S k)) (length knots) then nth (S k) values 0
         else nth (S k) values 0 + (nth (S (S k)) values 0 - nth (S k) values 0)
              * ((x - nth (S k) knots 0) / (nth (S (S k)) knots 0 - nth (S k) knots 0))).
Proof.
  intros H2 Hv Hi Hk Hx. change (Val (evalLineSegment knots values x) = Val (if Nat.eqb (S (S k)) (length knots) then nth (S k) values 0
         else nth (S k) values 0 + (nth (S (S k)) values 0 - nth (S k) values 0)
              * ((x - nth (S k) knots 0) / (nth (S (S k)) knots 0 - nth (S k) knots 0)))).
  assert (V : forall l i, nth i l 0 = vat l (Z.of_nat i)) by (intros; unfold vat; rewrite Nat2Z.id; reflexivity).
  f_equal. destruct (Nat.eqb_spec (S (S k)) (length knots)) as [E|E].
  - rewrite line_last; try assumption.
    + unfold vat. f_equal. unfold vlen. lia.
    + unfold vat. replace (Z.to_nat (vlen knots - 2)) with k by (unfold vlen; lia). apply Hx.
  - rewrite (line_next knots values H2 Hv Hi (Z.of_nat k + 1)%Z).
    + rewrite !V. replace (Z.of_nat (S (S k))) with (Z.of_nat k + 1 + 1)%Z by lia. replace (Z.of_nat (S k)) with (Z.of_nat k + 1)%Z by lia. reflexivity.
    + unfold vlen. lia.
    + rewrite !V in Hx. replace (Z.of_nat k + 1 - 1)%Z with (Z.of_nat k) by lia. replace (Z.of_nat k + 1)%Z with (Z.of_nat (S k)) by lia. exact Hx.
Qed.
Print Assumptions C32_actual_value.

(** The integrated variant reads past its vectors for every s beyond the last
    knot, and divides 0 by 0 on the axis if no knot is negative. *)
Theorem C32_integrated_refuted dm tiny c knots values :
  (2 <= length knots)%nat -> length values = length knots -> increasing knots ->
  (forall x, last knots 0 < x -> prof dm tiny "line_segment_ip" Current c knots values x = OutOfRange) /\
  (0 <= nth 0 knots 0 -> prof dm tiny "line_segment_ip" Current c knots values 0 = NotFinite).
Proof.
  intros H2 Hv Hi. split.
  - intros x Hx. change (evalLineSegmentIntegrated knots values x = OutOfRange). apply line_int_beyond; try assumption.
    unfold vat, vlen. replace (last knots 0) with (nth (Z.to_nat (Z.of_nat (length knots) - 1)) knots 0) in Hx; [exact Hx|].
    clear -H2. replace (Z.to_nat (Z.of_nat (length knots) - 1)) with (length knots - 1)%nat by lia.
    destruct knots as [|a l] using rev_ind; [simpl in H2; lia|].
    rewrite last_last, app_length. simpl length. rewrite app_nth2 by lia.
    replace (length l + 1 - 1 - length l)%nat with O by lia. reflexivity.
  - intros H0. change (evalLineSegmentIntegrated knots values 0 = NotFinite). apply line_int_origin; assumption.
Qed.
Print Assumptions C32_integrated_refuted.

(** What does hold: exact at the knots, and the integral is the trapezoidal sum at
    the knots. *)
Theorem C32_at_knots_partial dm tiny c knots values :
  (2 <= length knots)%nat -> length values = length knots -> increasing knots ->
  forall k, (k < length knots)%nat ->
    prof dm tiny "line_segment" Pressure c knots values (nth k knots 0) = Val (nth k values 0) /\
    ((0 < k)%nat -> prof dm tiny "line_segment_ip" Current c knots values (nth k knots 0)
       = Val (zsum 0 (Z.of_nat k) (fun j => (nth (Z.to_nat j) values 0 + nth (Z.to_nat (j + 1)) values 0) / 2
                                           * (nth (Z.to_nat (j + 1)) knots 0 - nth (Z.to_nat j) knots 0)))).
Proof.
  intros H2 Hv Hi k Hk. split.
  - change (Val (evalLineSegment knots values (nth k knots 0)) = Val (nth k values 0)). f_equal. apply line_interpolates; assumption.
  - intros H0. change (evalLineSegmentIntegrated knots values (nth k knots 0) = Val (zsum 0 (Z.of_nat k) (fun j => (nth (Z.to_nat j) values 0 + nth (Z.to_nat (j + 1)) values 0) / 2
                                           * (nth (Z.to_nat (j + 1)) knots 0 - nth (Z.to_nat j) knots 0)))).
    replace (nth k knots 0) with (vat knots (Z.of_nat k)) by (unfold vat; rewrite Nat2Z.id; reflexivity).
    rewrite line_int_knot; try assumption; [reflexivity|]. unfold vlen. lia.
Qed.
Print Assumptions C32_at_knots_partial.

(** C33: false for sum_atan, for every single-term coefficient set with non-zero
    amplitude: the interior tends to c0 + c1 * pi / 2, the edge value is c0 + c1. *)
Theorem C33_sum_atan_refuted dm tiny k v c0 c1 c2 c3 c4 : c1 <> 0 -> 0 < c2 -> 0 < c4 ->
  ~ edge_continuous (fun x r => prof dm tiny "sum_atan" Iota [c0; c1; c2; c3; c4] k v x = Val r) /\
  ~ edge_continuous (fun x r => prof dm tiny "sum_atan" Current [c0; c1; c2; c3; c4] k v x = Val r).
Proof. intros H1 H2 H4. split; exact (sum_atan_jump c0 c1 c2 c3 c4 H1 H2 H4). Qed.
Print Assumptions C33_sum_atan_refuted.
Example C33_sum_atan_case : (1 <> 0) /\ 0 < 1 /\ 0 < 2. Proof. lra. Qed.

(** The other parametrisations are continuous up to the edge, for the coefficients
    for which they are defined there. *)
Theorem C33_continuous_partial dm tiny c k v :
  let cont name q := edge_continuous (fun x r => prof dm tiny name q c k v x = Val r) in
  (forall q, cont "power_series"%string q) /\
  cont "power_series_i"%string Current /\
  cont "nice_quadratic"%string Iota /\
  (forall q, rational_denominator c 1 <> 0 -> cont "rational"%string q) /\
  (forall q, q <> Iota -> (2 <= vlen c)%Z -> vat c 1 <> 0 -> cont "gauss_trunc"%string q) /\
  (forall q, q <> Iota -> (3 <= vlen c)%Z -> 0 < vat c 1 -> 0 < vat c 2 -> cont "two_power"%string q) /\
  (forall q, q <> Iota -> (3 <= vlen c)%Z -> 0 < vat c 1 -> 0 < vat c 2 -> gs_ok c -> cont "two_power_gs"%string q) /\
  (lorentz_ok c -> cont "two_lorentz"%string Pressure) /\
  (forall q, q <> Iota -> cont "pedestal"%string q).
Proof.
  cbv zeta. repeat split.
  - intros []; apply power_series_edge.
  - apply power_series_i_edge.
  - apply nice_quadratic_edge.
  - intros [] H; apply rational_edge; exact H.
  - intros [] Hq Hl H1; [apply gauss_edge|apply gauss_int_edge|contradiction]; assumption.
  - intros [] Hq Hl H1 H2; [apply two_power_edge|apply two_power_int_edge|contradiction]; assumption.
  - intros [] Hq Hl H1 H2 Ok; [apply two_power_gs_edge|apply two_power_gs_int_edge|contradiction]; assumption.
  - intros H. apply two_lorentz_edge. exact H.
  - intros [] Hq; [apply pedestal_edge|apply pedestal_int_edge|contradiction].
Qed.
Print Assumptions C33_continuous_partial.

(** C34: false. A name that is not in the table, or not available for the quantity,
    gives the zero profile; no error outcome arises. *)
Theorem C34_bad_type_refuted : exists p : profile_in,
  (forall q, ~ exists e, In e (tl all_params) /\ pname e = pi_type p /\ allowed e q = true) /\
  pi_coeffs p <> [] /\
  forall dm tiny mu0 scale bloat x,
    evalMassProfile dm tiny mu0 scale bloat p x = Val 0 /\
    evalIotaProfile dm tiny p x = Val 0 /\ evalCurrProfile dm tiny bloat p x = Val 0.
Proof.
  exists (mk_profile_in "two_powers" [1; 2; 3] [] []). split; [|split; [discriminate|]].
  - intros q H. apply lookup_spec in H. apply H. destruct q; reflexivity.
  - intros. split; [apply lookup_zero_mass; reflexivity|split; reflexivity].
Qed.
Print Assumptions C34_bad_type_refuted.

(** In general: the lookup succeeds exactly for the names available for the
    quantity, and every other name means a zero profile. *)
Theorem C34_lookup name q :
  (findParameterization name q <> 0%Z <->
   exists e, In e (tl all_params) /\ pname e = name /\ allowed e q = true) /\
  (~ (exists e, In e (tl all_params) /\ pname e = name /\ allowed e q = true) ->
   forall dm tiny c k v x, prof dm tiny name q c k v x = Val 0).
Proof.
  split; [apply lookup_spec|]. intros H dm tiny c k v x. unfold prof.
  destruct (Z.eq_dec (findParameterization name q) 0) as [E|E]; [rewrite E; reflexivity|].
  apply lookup_spec in E. contradiction.
Qed.
Print Assumptions C34_lookup.
(** Three current types are in the table but have no evaluation. *)
Theorem C34_unimplemented_refuted dm tiny c k v x :
  forall name, In name ["sum_cossq_s"; "sum_cossq_sqrts"; "sum_cossq_s_free"]%string ->
    (exists e, In e (tl all_params) /\ pname e = name /\ allowed e Current = true) /\
    prof dm tiny name Current c k v x = Val 0.
Proof.
  intros name H. split.
  - apply lookup_spec. destruct H as [<-|[<-|[<-|[]]]]; discriminate.
  - destruct H as [<-|[<-|[<-|[]]]]; reflexivity.
Qed.
Print Assumptions C34_unimplemented_refuted.

(** C57: peaked pressure profiles decrease from c0 on the axis to 0 at the edge. *)
Theorem C57_peaked dm tiny c k v : 0 <= vat c 0 ->
  let ok name := peaked (fun x r => prof dm tiny name Pressure c k v x = Val r) (vat c 0) in
  ((2 <= vlen c)%Z -> vat c 1 <> 0 -> ok "gauss_trunc"%string) /\
  ((3 <= vlen c)%Z -> 0 < vat c 1 -> 0 < vat c 2 -> ok "two_power"%string) /\
  (lorentz_ok c -> 0 <= vat c 1 <= 1 -> ok "two_lorentz"%string).
Proof.
  intros H0. cbv zeta. repeat split; intros.
  1-3: apply (gauss_peaked c); assumption.
  1-3: apply (two_power_peaked c); assumption.
  all: apply (two_lorentz_peaked c); assumption.
Qed.
Print Assumptions C57_peaked.
Example C57_case : lorentz_ok [1; 1/2; 1; 2; 3; 1; 2; 3].
Proof. unfold lorentz_ok. change (vlen [1; 1/2; 1; 2; 3; 1; 2; 3]) with 8%Z. unfold vat. simpl. repeat split; lra || lia. Qed.

(** C58: exactness of the splines. *)
Theorem C58_cubic_parabola dm tiny knots values a b d cf : spline_data knots values ->
  (forall i, (i < length knots)%nat -> nth i values 0 = a + b * nth i knots 0 + d * (nth i knots 0) ^ 2) ->
  forall x, nth 0 knots 0 <= x <= last knots 0 ->
    prof dm tiny "cubic_spline" Pressure cf knots values x = Val (a + b * x + d * x ^ 2).
Proof.
  intros (H4 & Hv & Hi) H x Hx. change (Val (evalCubic knots values x) = Val (a + b * x + d * x ^ 2)). f_equal.
  apply cubic_parabola; assumption.
Qed.
Print Assumptions C58_cubic_parabola.
Theorem C58_akima_line dm tiny knots values a b cf : spline_data knots values -> 0 < tiny <= 1 ->
  (forall i, (i < length knots)%nat -> nth i values 0 = a + b * nth i knots 0) ->
  forall x, nth 0 knots 0 <= x <= last knots 0 ->
    prof dm tiny "akima_spline" Pressure cf knots values x = Val (a + b * x).
Proof.
  intros (H4 & Hv & Hi) Ht H x Hx. change (Val (evalAkima tiny knots values x) = Val (a + b * x)). f_equal.
  apply akima_line; assumption.
Qed.
Print Assumptions C58_akima_line.
Theorem C58_akima_mirror dm tiny knots values cf : spline_data knots values -> 0 < tiny <= 1 ->
  forall x, nth 0 knots 0 <= x <= last knots 0 ->
    prof dm tiny "akima_spline" Pressure cf (mirror knots) (rev values) (- x)
    = prof dm tiny "akima_spline" Pressure cf knots values x.
Proof.
  intros (H4 & Hv & Hi) Ht x Hx. change (Val (evalAkima tiny (mirror knots) (rev values) (- x)) = Val (evalAkima tiny knots values x)). f_equal.
  apply akima_mirror; assumption.
Qed.
Print Assumptions C58_akima_mirror.

(** C59: with a prescribed net toroidal current, the enclosed current at the edge is
    signgs * mu0 * curtor / (2 pi) whatever the scale of the profile [curr]; *)
Theorem C59_edge_current eps mu0 signgs curtor (curr : R -> outcome) e : 0 <= eps ->
  curr 1 = Val e -> Rabs (eps * curtor) < Rabs e ->
  exists it, itor eps mu0 signgs curtor e = Val it /\
    obind (curr 1) (fun c => Val (c * it)) = Val (signgs * mu0 * curtor / (2 * PI)).
Proof.
  intros He Hc H. destruct (itor_edge eps mu0 signgs curtor e He H) as (it & E & P).
  exists it. split; [exact E|]. rewrite Hc. cbn. f_equal. exact P.
Qed.
Print Assumptions C59_edge_current.
Example C59_case : Rabs (1 / 1000 * 10) < Rabs 2. Proof. rewrite !Rabs_right by lra. lra. Qed.

(** ... and multiplying the profile by a constant changes nothing. *)
Theorem C59_scale_invariant eps mu0 signgs curtor g g' kf e it it' ns jH : 0 <= eps -> kf <> 0 ->
  (forall x, gi_curr g' x = obind (gi_curr g x) (fun v => Val (kf * v))) -> gi_aphi g' = gi_aphi g ->
  Rabs (eps * curtor) < Rabs e -> Rabs (eps * curtor) < Rabs (kf * e) ->
  itor eps mu0 signgs curtor e = Val it -> itor eps mu0 signgs curtor (kf * e) = Val it' ->
  currH g' it' ns jH = currH g it ns jH.
Proof.
  intros He Hk Hg Ha H1 H2 E1 E2.
  destruct (itor_edge eps mu0 signgs curtor e He H1) as (i1 & F1 & P1). rewrite F1 in E1. apply val_inj in E1. subst i1.
  destruct (itor_edge eps mu0 signgs curtor (kf * e) He H2) as (i2 & F2 & P2). rewrite F2 in E2. apply val_inj in E2. subst i2.
  assert (N : e <> 0) by (intros ->; rewrite Rabs_R0 in H1; pose proof (Rabs_pos (eps * curtor)); lra).
  assert (K : kf * it' = it).
  { apply (Rmult_eq_reg_l e); [|exact N]. rewrite P1, <- P2. ring. }
  unfold currH. rewrite Ha, Hg. destruct (gi_curr g _); cbn [obind]; [|reflexivity|reflexivity]. f_equal. rewrite <- K. ring.
Qed.
Print Assumptions C59_scale_invariant.
(** A profile whose edge value vanishes switches the prescribed current off. *)
Theorem C59_vanishing_edge mu0 signgs curtor : curtor <> 0 ->
  forall eps, itor eps mu0 signgs curtor 0 = Val 0.
Proof. intros H eps. apply itor_small. rewrite Rabs_R0. apply Rabs_pos. Qed.
Print Assumptions C59_vanishing_edge.

(** C60: the normalisation of lambda counts every half-grid surface exactly once,
    for every number of threads: lamscale^2 is the mean square of the flux derivative. *)
Theorem C60_lamscale g ns T lfreeb r : is_partition ns T lfreeb r ->
  let rmsPhiP := for_up 0 T (fun t acc => acc + local_rmsPhiP g (r t) ns) 0 in
  let deltaS := 1 / (IZR ns - 1) in
  let lamscale := sqrt (rmsPhiP * deltaS) in
  lamscale ^ 2 = zsum 0 (ns - 1) (fun jH => (gi_mtf g * torfluxDeriv (gi_aphi g) ((IZR jH + 1 / 2) / (IZR ns - 1))) ^ 2)
                 / (IZR ns - 1).
Proof.
  intros HP. cbv zeta. rewrite (rms_total g ns T lfreeb r HP). destruct HP as (HT & H2 & _).
  assert (N : 0 < IZR ns - 1) by (assert (IZR 2 <= IZR ns) by (apply IZR_le; lia); lra).
  rewrite pow2_sqrt.
  - unfold phipH, half_pos. field. lra.
  - apply Rmult_le_pos; [|left; apply Rdiv_lt_0_compat; lra].
    unfold zsum. induction (zrange 0 (ns - 1)) as [|a l IH]; cbn [rsum]; [lra|]. pose proof (pow2_ge_0 (phipH g ns a)). lra.
Qed.
Print Assumptions C60_lamscale.
Example C60_case : is_partition 7 3 true (fun t => match adjustRadialPartitioning 3 t 7 true with Some r => r | None => mk_rpart 0 0 0 0 0 0 0 0 0 end).
Proof.
  split; [lia|]. split; [lia|]. intros t Ht. assert (t = 0 \/ t = 1 \/ t = 2)%Z as [-> | [-> | ->]] by lia; reflexivity.
Qed.

(** C61: false. Scaling all coefficients of the flux polynomial leaves the toroidal
    flux unchanged, but moves the points at which the profiles are evaluated. *)
Theorem C61_flux_scale_refuted : exists aphi kf g g' ns jH,
  kf <> 0 /\ torflux aphi 1 <> 0 /\ gi_aphi g = aphi /\ gi_aphi g' = map (Rmult kf) aphi /\
  gi_iota g' = gi_iota g /\ gi_flip g' = gi_flip g /\
  (forall s, gi_mtf g' * torfluxDeriv (gi_aphi g') s = gi_mtf g * torfluxDeriv (gi_aphi g) s) /\
  iotaH g ns jH <> iotaH g' ns jH.
Proof.
  set (iota := fun x => Val (evalPowerSeries [0; 1] x false)).
  set (G := fun a => mk_grid_in (maxToroidalFlux 1 1 a) a iota iota iota 1 1 1 false).
  assert (T1 : forall x, torflux [1] x = x).
  { intros x. rewrite torflux_eval. change (vlen [1]) with 1%Z. unfold zsum. change (zrange 0 1) with [0%Z]. cbn [rsum]. unfold vat. change (Z.to_nat 0) with 0%nat. change (Z.to_nat (0 + 1)) with 1%nat. simpl. ring. }
  exists [1], 2, (G [1]), (G (map (Rmult 2) [1])), 3%Z, 0%Z.
  split; [lra|]. split; [rewrite T1; lra|]. do 4 (split; [reflexivity|]). split.
  - intros s. cbn [G gi_mtf gi_aphi]. apply phip_scale; [lra|]. rewrite T1. lra.
  - unfold iotaH. cbn [G gi_aphi gi_iota gi_flip]. rewrite torflux_scale, !T1.
    replace (half_pos 3 0) with (1 / 4) by (unfold half_pos; field).
    rewrite !Rmin_left by lra. unfold iota. cbn [obind flip_sign]. intros H. apply val_inj in H.
    rewrite !power_series_eval in H. unfold polynomial in H. change (Z.of_nat (length [0; 1])) with 2%Z in H.
    unfold zsum in H. change (zrange 0 2) with [0%Z; 1%Z] in H. cbn [rsum] in H. change (Z.to_nat 0) with 0%nat in H. change (Z.to_nat 1) with 1%nat in H. simpl in H. lra.
Qed.
Print Assumptions C61_flux_scale_refuted.
(** The toroidal flux itself does not depend on the scale. *)
Theorem C61_flux_itself_partial signgs phiedge aphi kf s : kf <> 0 -> torflux aphi 1 <> 0 ->
  maxToroidalFlux signgs phiedge (map (Rmult kf) aphi) * torfluxDeriv (map (Rmult kf) aphi) s
  = maxToroidalFlux signgs phiedge aphi * torfluxDeriv aphi s.
Proof. apply phip_scale. Qed.
Print Assumptions C61_flux_itself_partial.
