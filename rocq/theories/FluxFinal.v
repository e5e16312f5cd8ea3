From Coq Require Import ZArith List Bool Reals Lra Lia.
From Verif Require Import Base BaseLemmas SumLemmas ProfileModel PolyProofs FluxModel FluxSpec FluxProofs.
Import ListNotations.
Open Scope R_scope.

Lemma pos_full ns j : pos ns j = full_pos ns j.
Proof. reflexivity. Qed.

Lemma phi_val sign phiedge aphi ns g j : sign * sign = 1 -> torflux aphi 1 <> 0 -> (0 <= j < ns)%Z ->
  gi_mtf g = maxToroidalFlux sign phiedge aphi -> gi_aphi g = aphi ->
  recomputeToroidalFlux sign ns (phipF g ns) (fun _ => 0) j
  = phiedge / torflux aphi 1 * (deltaS ns * zsum 0 j (fun i => torfluxDeriv aphi (full_pos ns i))).
Proof.
  intros Hs HT Hj G1 G2. rewrite phi_sum by lia. unfold phipF. rewrite G1, G2, zsum_scale.
  unfold maxToroidalFlux. destruct (Req_EM_T (torflux aphi 1) 0) as [E|_]; [contradiction|].
  pose proof PI_RGT_0.
  replace (sign * 2 * PI * deltaS ns * (sign * phiedge / (2 * PI) / torflux aphi 1 * zsum 0 j (fun i => torfluxDeriv aphi (full_pos ns i))))
    with (sign * sign * (phiedge / torflux aphi 1 * (deltaS ns * zsum 0 j (fun i => torfluxDeriv aphi (full_pos ns i))))) by (field; lra).
  rewrite Hs. ring.
Qed.

Lemma flux_error sign phiedge aphi ns g L j : sign * sign = 1 -> (2 <= ns)%Z -> (0 <= j < ns)%Z ->
  torflux aphi 1 <> 0 -> gi_mtf g = maxToroidalFlux sign phiedge aphi -> gi_aphi g = aphi ->
  (forall x y, 0 <= x <= 1 -> 0 <= y <= 1 -> Rabs (torfluxDeriv aphi x - torfluxDeriv aphi y) <= L * Rabs (x - y)) ->
  Rabs (recomputeToroidalFlux sign ns (phipF g ns) (fun _ => 0) j - phiedge * (torflux aphi (pos ns j) / torflux aphi 1))
    <= Rabs (phiedge / torflux aphi 1) * L * pos ns j / (IZR ns - 1).
Proof.
  intros Hs Hns Hj HT G1 G2 HL. rewrite (phi_val sign phiedge aphi ns g j Hs HT Hj G1 G2).
  assert (E : phiedge / torflux aphi 1 * (deltaS ns * zsum 0 j (fun i => torfluxDeriv aphi (full_pos ns i))) - phiedge * (torflux aphi (pos ns j) / torflux aphi 1)
    = phiedge / torflux aphi 1 * (deltaS ns * zsum 0 j (fun i => torfluxDeriv aphi (full_pos ns i)) - torflux aphi (full_pos ns j))).
  { change (pos ns j) with (full_pos ns j). generalize (zsum 0 j (fun i => torfluxDeriv aphi (full_pos ns i))). intros. field. exact HT. }
  rewrite E.
  rewrite Rabs_mult. replace (Rabs (phiedge / torflux aphi 1) * L * pos ns j / (IZR ns - 1)) with (Rabs (phiedge / torflux aphi 1) * (L * deltaS ns * full_pos ns j)).
  2:{ change (pos ns j) with (full_pos ns j). unfold deltaS. field. apply IZR_le in Hns. lra. }
  apply Rmult_le_compat_l; [apply Rabs_pos|]. apply left_sum; assumption.
Qed.

Lemma linear_deriv aphi x : (forall x, torflux aphi x = x * torflux aphi 1) -> torfluxDeriv aphi x = torflux aphi 1.
Proof.
  intros H. apply (uniqueness_limite (torflux aphi) x); [apply torflux_derivative|].
  apply (derivable_pt_lim_ext (fun y => torflux aphi 1 * y)).
  - intros y. rewrite (H y). ring.
  - generalize (torflux aphi 1). intros a. pose proof (derivable_pt_lim_scal id a x 1 (derivable_pt_lim_id x)) as D.
    rewrite Rmult_1_r in D. exact D.
Qed.

Lemma pos_last ns : (2 <= ns)%Z -> pos ns (ns - 1) = 1.
Proof. intros H. unfold pos. rewrite minus_IZR. field. apply IZR_le in H. lra. Qed.

Lemma uniform sign phiedge aphi ns g : sign * sign = 1 -> (2 <= ns)%Z ->
  torflux aphi 1 <> 0 -> (forall x, torflux aphi x = x * torflux aphi 1) ->
  gi_mtf g = maxToroidalFlux sign phiedge aphi -> gi_aphi g = aphi ->
  enclosed ns phiedge (torflux aphi) (recomputeToroidalFlux sign ns (phipF g ns) (fun _ => 0)) /\
  recomputeToroidalFlux sign ns (phipF g ns) (fun _ => 0) (ns - 1) = phiedge.
Proof.
  intros Hs Hns HT HU G1 G2.
  assert (E : enclosed ns phiedge (torflux aphi) (recomputeToroidalFlux sign ns (phipF g ns) (fun _ => 0))).
  { intros j Hj. rewrite (phi_val sign phiedge aphi ns g j Hs HT Hj G1 G2).
    rewrite (zsum_ext 0 j _ (fun _ => torflux aphi 1)) by (intros; apply linear_deriv, HU).
    rewrite zsum_const by lia. rewrite (HU (pos ns j)), Z.sub_0_r; change (pos ns j) with (full_pos ns j); rewrite delta_full. field. exact HT. }
  split; [exact E|]. rewrite E by lia. rewrite pos_last by lia. field. exact HT.
Qed.

Lemma sq_flux x : torflux [0; 1] x = x * x.
Proof. unfold torflux. change (vlen [0%R; 1%R] - 1)%Z with 1%Z. rewrite !for_down_step, for_down_empty by lia. unfold vat. simpl. ring. Qed.
Lemma sq_deriv x : torfluxDeriv [0; 1] x = 2 * x.
Proof. unfold torfluxDeriv. change (vlen [0%R; 1%R] - 1)%Z with 1%Z. rewrite !for_down_step, for_down_empty by lia. unfold vat. simpl. ring. Qed.
Lemma gauss j : (0 <= j)%Z -> zsum 0 j IZR = IZR j * (IZR j - 1) / 2.
Proof.
  revert j. apply (natlike_ind (fun j => zsum 0 j IZR = IZR j * (IZR j - 1) / 2)).
  - rewrite zsum_empty by lia. lra.
  - intros x Hx IH. unfold Z.succ. rewrite zsum_snoc, IH, plus_IZR by lia. field.
Qed.

Lemma edge_refuted : exists aphi, torflux aphi 1 = 1 /\
  forall sign phiedge ns g, sign * sign = 1 -> phiedge <> 0 -> (2 <= ns)%Z ->
    gi_mtf g = maxToroidalFlux sign phiedge aphi /\ gi_aphi g = aphi ->
    recomputeToroidalFlux sign ns (phipF g ns) (fun _ => 0) (ns - 1) = phiedge * (IZR ns - 2) / (IZR ns - 1) /\
    recomputeToroidalFlux sign ns (phipF g ns) (fun _ => 0) (ns - 1) <> phiedge.
Proof.
  exists [0; 1]. split; [rewrite sq_flux; ring|]. intros sign phiedge ns g Hs Hp Hns (G1 & G2).
  assert (E : recomputeToroidalFlux sign ns (phipF g ns) (fun _ => 0) (ns - 1) = phiedge * (IZR ns - 2) / (IZR ns - 1)).
  { rewrite (phi_val sign phiedge [0; 1] ns g (ns - 1) Hs); try assumption; try lia.
    2:{ rewrite sq_flux. lra. }
    rewrite (zsum_ext 0 (ns - 1) _ (fun i => 2 * deltaS ns * IZR i)) by (intros; rewrite sq_deriv, delta_full; ring).
    rewrite zsum_scale, gauss, sq_flux, minus_IZR by lia. unfold deltaS. field. apply IZR_le in Hns. lra. }
  split; [exact E|]. rewrite E. intros F. apply IZR_le in Hns. apply Hp.
  assert (Q : phiedge * (IZR ns - 2) = phiedge * (IZR ns - 1)) by (rewrite <- F at 2; field; lra). lra.
Qed.

Lemma flux_case : torflux [1] 1 <> 0 /\ (forall x, torflux [1] x = x * torflux [1] 1) /\
  (forall x y, 0 <= x <= 1 -> 0 <= y <= 1 -> Rabs (torfluxDeriv [0; 1] x - torfluxDeriv [0; 1] y) <= 2 * Rabs (x - y)).
Proof.
  assert (E : forall x, torflux [1] x = x). { intros x. unfold torflux. change (vlen [1%R] - 1)%Z with 0%Z. rewrite !for_down_step, for_down_empty by lia. unfold vat. simpl. ring. }
  split; [rewrite E; lra|split; [intros; rewrite !E; ring|]].
  intros x y _ _. rewrite !sq_deriv. replace (2 * x - 2 * y) with (2 * (x - y)) by ring. rewrite Rabs_mult, (Rabs_pos_eq 2); lra.
Qed.

Lemma dpos ns j i : pos ns j - pos ns i = IZR (j - i) * deltaS ns.
Proof. change pos with full_pos. rewrite !delta_full, minus_IZR. ring. Qed.
Lemma chi_all ns phipH iotaH j : (0 <= j < ns)%Z ->
  snd (fluxProfileChi ns phipH iotaH (fun _ => 0)) j = 2 * PI * deltaS ns * zsum 0 j (fun i => phipH i * iotaH i).
Proof.
  intros Hj. destruct (Z.eq_dec j 0) as [->|N]; [|apply chi_at; lia].
  rewrite chi_zero, zsum_empty by lia. ring.
Qed.

Lemma chi_central sign ns phipH iotaH chipH0 chipF0 j : sign * sign = 1 -> (0 < j < ns - 1)%Z ->
  (snd (fluxProfileChi ns phipH iotaH (fun _ => 0)) (j + 1)%Z - snd (fluxProfileChi ns phipH iotaH (fun _ => 0)) (j - 1)%Z) / (pos ns (j + 1) - pos ns (j - 1))
  = sign * woutDeriv sign ns (chipFull ns (chipHalf ns phipH iotaH chipH0) chipF0) (fun _ => 0) j.
Proof.
  intros Hs Hj. rewrite deriv_at, chipFull_at, !chipHalf_at, !chi_all by lia. rewrite dpos. replace (j + 1 - (j - 1))%Z with 2%Z by lia.
  replace (zsum 0 (j + 1) (fun i => phipH i * iotaH i)) with (zsum 0 ((j - 1) + 1 + 1) (fun i => phipH i * iotaH i)) by (f_equal; lia).
  rewrite !zsum_snoc by lia. replace (j - 1 + 1)%Z with j by lia.
  pose proof (delta_pos ns ltac:(lia)).
  replace (sign * (sign * 2 * PI * (1 / 2 * (iotaH j * phipH j + iotaH (j - 1)%Z * phipH (j - 1)%Z))))
    with (sign * sign * (PI * (iotaH j * phipH j + iotaH (j - 1)%Z * phipH (j - 1)%Z))) by field.
  rewrite Hs. field. lra.
Qed.

Lemma sign_refuted ns phipH iotaH chipH0 chipF0 j : (0 < j < ns - 1)%Z ->
  let chi := snd (fluxProfileChi ns phipH iotaH (fun _ => 0)) in
  let chipf := woutDeriv kSignOfJacobian ns (chipFull ns (chipHalf ns phipH iotaH chipH0) chipF0) (fun _ => 0) in
  (chi (j + 1)%Z - chi (j - 1)%Z) / (pos ns (j + 1) - pos ns (j - 1)) = - chipf j /\
  (chipf j <> 0 -> ~ radial_derivative ns chi chipf).
Proof.
  intros Hj chi chipf.
  assert (E : (chi (j + 1)%Z - chi (j - 1)%Z) / (pos ns (j + 1) - pos ns (j - 1)) = - chipf j).
  { unfold chi. rewrite (chi_central kSignOfJacobian ns phipH iotaH chipH0 chipF0 j); [|unfold kSignOfJacobian; ring|exact Hj].
    fold chipf. unfold kSignOfJacobian. ring. }
  split; [exact E|]. intros N D. specialize (D j Hj). lra.
Qed.

Lemma up_to_sign sign ns phipH iotaH chipH0 chipF0 : sign * sign = 1 ->
  radial_derivative ns (fun j => sign * snd (fluxProfileChi ns phipH iotaH (fun _ => 0)) j)
    (woutDeriv sign ns (chipFull ns (chipHalf ns phipH iotaH chipH0) chipF0) (fun _ => 0)) /\
  snd (fluxProfileChi ns phipH iotaH (fun _ => 0)) 0%Z = 0.
Proof.
  intros Hs. split; [|exact (chi_zero ns phipH iotaH (fun _ => 0))]. intros j Hj. rewrite <- Rmult_minus_distr_l. unfold Rdiv at 1. rewrite Rmult_assoc.
  fold (Rdiv (snd (fluxProfileChi ns phipH iotaH (fun _ => 0)) (j + 1)%Z - snd (fluxProfileChi ns phipH iotaH (fun _ => 0)) (j - 1)%Z) (pos ns (j + 1) - pos ns (j - 1))).
  rewrite (chi_central sign ns phipH iotaH chipH0 chipF0 j Hs Hj), <- Rmult_assoc, Hs. ring.
Qed.

Lemma ratio sign ns phip iotaH j : sign * sign = 1 -> (0 <= j < ns - 1)%Z ->
  let phi := recomputeToroidalFlux sign ns (fun _ => phip) (fun _ => 0) in
  let chi := snd (fluxProfileChi ns (fun _ => phip) iotaH (fun _ => 0)) in
  (phi (j + 1)%Z - phi j) / (pos ns (j + 1) - pos ns j) = woutDeriv sign ns (fun _ => phip) (fun _ => 0) j /\
  chi (j + 1)%Z - chi j = sign * iotaH j * (phi (j + 1)%Z - phi j).
Proof.
  intros Hs Hj phi chi. unfold phi, chi. rewrite !phi_sum, !chi_all, deriv_at, dpos, !zsum_snoc by lia.
  replace (j + 1 - j)%Z with 1%Z by lia. pose proof (delta_pos ns ltac:(lia)). split; [field; lra|].
  replace (sign * iotaH j * (sign * 2 * PI * deltaS ns * (zsum 0 j (fun _ => phip) + phip) - sign * 2 * PI * deltaS ns * zsum 0 j (fun _ => phip)))
    with (sign * sign * (iotaH j * 2 * PI * deltaS ns * phip)) by ring.
  rewrite Hs. ring.
Qed.

Lemma edge_overshoot sign ns phipH iotaH chipH0 chipF0 a b : (3 <= ns)%Z ->
  line_between ns a b (fun j => iotaH j * phipH j) ->
  let chipf := woutDeriv sign ns (chipFull ns (chipHalf ns phipH iotaH chipH0) chipF0) (fun _ => 0) in
  (forall j, (0 < j < ns - 1)%Z -> chipf j = sign * 2 * PI * (a + b * pos ns j)) /\
  chipf (ns - 1)%Z = sign * 2 * PI * (a + b * (1 + 1 / (2 * (IZR ns - 1)))).
Proof.
  intros Hn HL chipf. unfold line_between in HL. cbv beta in HL. pose proof (IZR_le _ _ Hn) as Hn'. split.
  - intros j Hj. unfold chipf. rewrite deriv_at, chipFull_at, !chipHalf_at by lia.
    rewrite !HL by lia. unfold pos. replace (j - 1 + 1)%Z with j by ring. rewrite plus_IZR, minus_IZR. field. lra.
  - unfold chipf. rewrite deriv_at by lia. unfold chipFull. rewrite upd_eq, !chipHalf_at by lia.
    rewrite !HL by lia. unfold pos. rewrite !plus_IZR, !minus_IZR. field. lra.
Qed.
Lemma edge_line sign ns phipH iotaH chipH0 chipF0 a b : (3 <= ns)%Z -> sign <> 0 -> b <> 0 ->
  line_between ns a b (fun j => iotaH j * phipH j) ->
  let chipf := woutDeriv sign ns (chipFull ns (chipHalf ns phipH iotaH chipH0) chipF0) (fun _ => 0) in
  (forall j, (0 < j < ns - 1)%Z -> chipf j = sign * 2 * PI * (a + b * pos ns j)) /\
  chipf (ns - 1)%Z = sign * 2 * PI * (a + b * (1 + 1 / (2 * (IZR ns - 1)))) /\
  chipf (ns - 1)%Z <> sign * 2 * PI * (a + b * 1).
Proof.
  intros Hn Hs Hb HL chipf. destruct (edge_overshoot sign ns phipH iotaH chipH0 chipF0 a b Hn HL) as (A & B).
  split; [exact A|]. split; [exact B|]. unfold chipf. rewrite B. intros E. pose proof PI_RGT_0. pose proof (IZR_le _ _ Hn).
  assert (Q : sign * 2 * PI <> 0) by (apply Rmult_integral_contrapositive_currified; [apply Rmult_integral_contrapositive_currified; [exact Hs|lra]|lra]).
  apply Rmult_eq_reg_l in E; [|exact Q]. apply Rplus_eq_reg_l in E. apply Rmult_eq_reg_l in E; [|exact Hb].
  assert (P : 0 < 1 / (2 * (IZR ns - 1))) by (apply Rdiv_lt_0_compat; lra). lra.
Qed.
Lemma line_case : line_between 3 1 (-1 / 2) (fun j => (1 - (2 * IZR j + 1) / 8) * 1).
Proof. intros j Hj. unfold pos. rewrite plus_IZR. field. Qed.
