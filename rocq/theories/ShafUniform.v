(** Uniform edge field and pressure: the values of the Shafranov integrals. *)
From Coq Require Import ZArith List Bool Reals Lia Lra.
From Verif Require Import Base BaseLemmas SizesModel JxbModel GeoModel ShafModel ShafSpec ShafProofs ShafCase.
Open Scope R_scope.
Section U.
Variables (s : sizes) (ns : Z) (g : full_geo) (h : half_fields) (sg ds : R) (d : handover) (vac : bool) (b p : R).
Hypothesis Hb : forall kl, (0 <= kl < sz_nZnT s)%Z -> bpol2vac s ns g h d vac kl = b.
Hypothesis Nb : b <> 0.
Hypothesis NV : volume_p s ns g <> 0.
Hypothesis NA : surf_area_p s ns g <> 0.
Lemma bpol_area_u : 4 * PI * PI * bpol_area s ns g h d vac = b * surf_area_p s ns g.
Proof.
  unfold bpol_area, surf_area_p.
  assert (E : q1 b (for_up 0 (sz_nZnT s) (fun kl acc => acc + surf_area s ns g kl) 0) (for_up 0 (sz_nZnT s) (fun kl acc => acc + bpol2vac s ns g h d vac kl * surf_area s ns g kl) 0)).
  { apply loop_rel; [unfold q1; lra|]. intros k x y Hk Q. unfold q1 in *. rewrite Q, Hb by exact Hk. ring. }
  unfold q1 in E. rewrite E. ring.
Qed.
Lemma factor_u : factor s ns g h d vac = 1 / (volume_p s ns g * b).
Proof.
  unfold factor, aminr1.
  replace (4 * PI * PI * (volume_p s ns g / surf_area_p s ns g) * bpol_area s ns g h d vac)
    with (volume_p s ns g / surf_area_p s ns g * (4 * PI * PI * bpol_area s ns g h d vac)) by ring.
  rewrite bpol_area_u. field. repeat split; assumption.
Qed.
Hypothesis Hp : forall kl, (0 <= kl < sz_nZnT s)%Z -> phat s ns g h d vac kl = p.
Hypothesis Hz : forall kl, (0 <= kl < sz_nZnT s)%Z -> let i := ((ns - 1) * sz_nZnT s + kl)%Z in zuFull g i = zu_e g i + zu_o g i.
Hypothesis OR : 0 <= fst (sums s ns g) /\ 0 <= snd (sums s ns g).
Lemma sig_u : sigr0 s ns g h d vac = facnorm s ns g h d vac * p * fst (sums s ns g) /\
  snd (fst (sig s ns g h d vac)) = facnorm s ns g h d vac * p * snd (sums s ns g).
Proof.
  unfold sigr0, sig, sums. set (F := facnorm s ns g h d vac).
  apply (loop_rel (fun (x : R * R * R) (y : R * R) => fst (fst x) = F * p * fst y /\ snd (fst x) = F * p * snd y)); [cbn; split; lra|].
  intros kl [[a1 a2] a3] [b1 b2] Hk [Q1 Q2]. cbn [fst snd] in *. rewrite Q1, Q2, Hp by exact Hk. rewrite (Hz kl Hk). unfold redge. split; ring.
Qed.
Lemma uniform : cross_area_p s ns g <> 0 -> rshaf s ns h sg d <> 0 ->
  smaleli s ns g h sg ds d vac = sumbpol s ns h sg ds / volume_p s ns g / b /\
  betai s ns g h ds d vac = 2 * pavg s ns g h ds / b /\
  s2 s ns g h sg d vac = f_lao s ns g h sg d * p / b /\
  s11 s ns g h sg d vac + s2 s ns g h sg d vac - s3 s ns g h d vac = 2 * p / b.
Proof.
  intros NC NR. pose proof PI_RGT_0 as PP. destruct sig_u as [S0 S1]. destruct OR as [O1 O2].
  assert (C : cross_area_p s ns g = 2 * PI * fst (sums s ns g)) by (unfold cross_area_p; rewrite Rabs_right by lra; reflexivity).
  assert (V : volume_p s ns g = 2 * PI * PI * snd (sums s ns g)) by (unfold volume_p; rewrite Rabs_right by lra; reflexivity).
  assert (F : facnorm s ns g h d vac = 4 * PI * PI / (volume_p s ns g * b)) by (unfold facnorm; rewrite factor_u; field; auto).
  split; [|split; [|split]].
  - unfold smaleli. rewrite factor_u. field. auto.
  - unfold betai, pavg. rewrite factor_u. field. auto.
  - unfold s2, f_lao, r_lao. rewrite S0, F. rewrite C in NC |- *. assert (fst (sums s ns g) <> 0) by (intros E; rewrite E in NC; lra). field. repeat split; auto; lra.
  - unfold s11, s2, s3, er, sigz1. rewrite S1, F. rewrite V in NV |- *. assert (snd (sums s ns g) <> 0) by (intros E; rewrite E in NV; lra). field. repeat split; auto; lra.
Qed.
End U.
(** The case's geometry with a uniform vacuum field *)
Definition d1 : handover := mkHand 2 2 (fun _ => 5) (fun _ => 1) 3 2.
Lemma case_u : (forall kl, (0 <= kl < sz_nZnT s0)%Z -> bpol2vac s0 3 g0 h0 d1 true kl = 9) /\
  (forall kl, (0 <= kl < sz_nZnT s0)%Z -> phat s0 3 g0 h0 d1 true kl = 9 / 2) /\
  0 < fst (sums s0 3 g0) /\ 0 < snd (sums s0 3 g0) /\ surf_area_p s0 3 g0 <> 0.
Proof.
  assert (K : forall kl, (0 <= kl < sz_nZnT s0)%Z -> bpol2vac s0 3 g0 h0 d1 true kl = 9 /\ phat s0 3 g0 h0 d1 true kl = 9 / 2).
  { intros kl Hk. cbn in Hk. assert (H1 : (0 <= 0 < sz_nZeta s0)%Z) by (cbn; lia). assert (H2 : (0 <= kl < sz_nThetaEff s0)%Z) by (cbn; lia).
    destruct (vacuum_order s0 3 g0 h0 d1 0 kl H1 H2) as [A B]. replace (0 * sz_nThetaEff s0 + kl)%Z with kl in A, B by lia. rewrite A, B.
    unfold redge. cbn [d1 vac_p vac_b_phi bSubVVac g0 r_e r_o]. split; lra. }
  split; [intros kl Hk; exact (proj1 (K kl Hk))|]. split; [intros kl Hk; exact (proj2 (K kl Hk))|].
  assert (S : sums s0 3 g0 = (2, 4)) by (unfold sums; go; f_equal; lra). rewrite S. cbn. split; [lra|]. split; [lra|].
  unfold surf_area_p, surf_area. go. pose proof PI_RGT_0. assert (0 < sqrt ((2 + 0) * (2 + 0) * (1 * 1 + 1 * 1) + ((0 + 0) * 1 - (0 + 0) * 1) * ((0 + 0) * 1 - (0 + 0) * 1))) by (apply sqrt_lt_R0; lra).
  set (q := sqrt _) in *. apply Rgt_not_eq, Rlt_gt. apply Rmult_lt_0_compat; [apply Rmult_lt_0_compat; lra|lra].
Qed.
