(** A concrete state for the Shafranov integrals. *)
From Coq Require Import ZArith List Bool Reals Lia Lra.
From Verif Require Import Base BaseLemmas SizesModel JxbModel GeoModel ShafModel ShafSpec ShafProofs.
Open Scope R_scope.
Definition s0 : sizes := mkSizes true 1 2 0 2 0 2 1 false 4 2 2 2 2 (fun _ => / 2) 2 2 1 0 2 1 0.
Definition g0 : full_geo := mkGeo (fun _ => 2) (fun _ => 0) (fun _ => 1) (fun _ => 0) (fun _ => 1) (fun _ => 0) (fun _ => 0) (fun _ => 0) (fun _ => 0) (fun _ => 0) (fun _ => 1) (fun _ => 1).
Definition h0 : half_fields := mkHalf (fun _ => -1) (fun _ => 2) (fun _ => 1) (fun _ => 5) (fun _ => 1) (fun _ => 1).
Definition d0 : handover := mkHand 2 2 (fun i => 5 + IZR i) (fun _ => 1) 3 2.
Lemma up2 {S} (f : Z -> S -> S) a : for_up 0 2 f a = f 1%Z (f 0%Z a). Proof. reflexivity. Qed.
Ltac go := cbn [s0 g0 h0 d0 sz_nZnT sz_nThetaEff sz_nZeta sz_wInt r_e r_o z_e z_o zu_e zu_o rv_e rv_o zv_e zv_o ruFull zuFull gsqrt r12 bsupv total_pressure dVdsH presH rBtor bSubVVac vac_p vac_b_phi currv rcen fst snd Z.sub Z.add Z.opp Z.pos_sub Pos.pred_double];
  rewrite ?up2; cbn [fst snd].
Lemma case_ok : rshaf s0 3 h0 (-1) d0 = 2 /\ rcen d0 <> 0 /\ r_lao s0 3 g0 = 1 /\ sumbpol s0 3 h0 (-1) 1 <> 0 /\
  bpol2vac s0 3 g0 h0 d0 true 1 = 11 /\ betapol s0 3 h0 (-1) 1 = / 2.
Proof.
  pose proof PI_RGT_0 as P.
  assert (SB : sumbpol s0 3 h0 (-1) 1 = 8 * vnorm 1 /\ sump 3 h0 1 = 2 * vnorm 1).
  { unfold sumbpol, sumbtot, sumbtor, sump, field_sums, tau. go. split; lra. }
  assert (VN : vnorm 1 <> 0) by (unfold vnorm, anorm; nra).
  destruct SB as [SB SP].
  split; [|split; [|split; [|split; [|split]]]].
  - unfold rshaf, shaf_sums, tau. go. field.
  - go. lra.
  - unfold r_lao, volume_p, cross_area_p, sums. go. rewrite !Rabs_right by lra. field. lra.
  - rewrite SB. lra.
  - assert (H1 : (0 <= 0 < sz_nZeta s0)%Z) by (cbn; lia). assert (H2 : (0 <= 1 < sz_nThetaEff s0)%Z) by (cbn; lia).
    eapply eq_trans; [exact (proj1 (vacuum_order s0 3 g0 h0 d0 0 1 H1 H2))|]. cbn. lra.
  - unfold betapol. rewrite SB, SP. field. exact VN.
Qed.
