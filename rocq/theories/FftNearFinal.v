(** The vendored routines as kernels, and the bounds for a run. *)
From Coq Require Import ZArith List Bool Reals Lia Lra.
From Verif Require Import Base BaseLemmas SumLemmas GeoMag SizesModel FourierModel FourierProofs PartModel DftModel DftSpec DftTables DftProofs DftForces DftProps
  FftModel FftSpec FftProofs FftProps FftLang FftCodelets FftSim FftCodSpec FftCodProps FftNearSpec FftNearProofs FftNearForces.
Open Scope R_scope.

(** A routine called as the kernel run(out, in) with its static arrays as in [st]:
    fft_toroidal.cc:278, 539, 645.  A call that goes wrong has no value (0 here; C125
    excludes it). *)
Definition call_kernel (r : codelet * Z) (n_in n_out : Z) (st : cst) : kernel := fun out inp w =>
  let m := upd (upd (c_mem st) 0%Z (fun k => Some (inp k))) 1%Z (fun k => Some (out k)) in
  match cd_run (fst r) (snd r) n_in n_out {| c_iv := c_iv st; c_dv := c_dv st; c_mem := m |} with
  | Some st' => match c_mem st' 1%Z w with Some v => v | None => 0 end
  | None => 0
  end.

Lemma half_pos N : (0 <= N)%Z -> (0 < half_len N)%Z.
Proof. intros H. unfold half_len. assert (0 <= N / 2)%Z by (apply Z.div_pos; lia). lia. Qed.
Lemma call_near inv N cnt r st : (0 <= N)%Z -> find_routine inv N cnt = Some r -> ready (fst r) st ->
  near eps inv N cnt (call_kernel r (cnt * read_len inv N) (cnt * write_len inv N) st).
Proof.
  intros HN HF HR out inp. pose proof (C125_routines inv N cnt r HF) as G. destruct r as [cd c]. cbn [fst snd] in *. destruct G as [_ G].
  set (st2 := {| c_iv := c_iv st; c_dv := c_dv st; c_mem := upd (upd (c_mem st) 0%Z (fun k => Some (inp k))) 1%Z (fun k => Some (out k)) |}).
  destruct (G inp st2) as (st' & y & A1 & A2 & A3 & _).
  - destruct HR as (s0 & s1 & H1 & H2). exists s0, s1. split; [exact H1|]. intros a Ha Hl k. unfold st2. cbn [c_mem].
    rewrite !upd_cases. destruct (Z.eqb_spec a 1); [lia|]. destruct (Z.eqb_spec a 0); [lia|]. apply H2; assumption.
  - intros k Hk. reflexivity.
  - intros i w Hi Hw. unfold call_kernel. cbn [fst snd]. fold st2. rewrite A1.
    rewrite A2; [apply A3; assumption|]. split; [|]; [assert (0 <= write_len inv N)%Z by lia; nia|nia].
Qed.
Lemma eps_pos : 0 <= eps. Proof. unfold eps. lra. Qed.
Lemma size_pos s x q j m : (0 <= m)%Z -> (0 <= sz_ntor s)%Z -> (0 <= sz_nfp s)%Z -> 0 <= size_of s x q j m.
Proof.
  intros Hm Hn Hf. unfold size_of. destruct (parts_of q) as [[c1 a1] [c2 a2]].
  assert (0 <= row_size s (x c1 a1) j m) by apply row_pos. assert (0 <= row_size s (x c2 a2) j m) by apply row_pos.
  assert (0 <= weight s q m) by (destruct q; cbn; try lra; apply IZR_le; nia). pose proof (sqrt_pos 2).
  apply Rmult_le_pos; [apply Rmult_le_pos; assumption|lra].
Qed.

Section R.
Context {lasym : bool} {nfp mpol ntor ntheta nzeta mg ng T th ns : Z} {lfreeb : bool} {s : sizes} {p : rpart}.
Hypothesis HS : setting lasym nfp mpol ntor ntheta nzeta mg ng T th ns lfreeb s p.
Hypothesis N3 : (0 < sz_ntor s)%Z.
Variables (b0 : basis_tables) (e : R).
Hypothesis E0 : 0 <= e.
Lemma nfp_pos : (0 <= sz_nfp s)%Z.
Proof. destruct (setting_ok _ _ _ _ _ _ _ _ _ _ _ _ _ _ HS) as (OK & _). pose proof (so_nfp s OK). lia. Qed.
Lemma geometry_all xmpq sqrtSF c2r x X0 Y0 q ev j k l : near e true (sz_nZeta s) (12 * sz_mpol s) c2r ->
  (nsMinF1 p <= j < nsMaxF1 p)%Z -> (0 <= k < sz_nZeta s)%Z -> (0 <= l < sz_nThetaReduced s)%Z ->
  Rabs (g_q (snd (FourierToReal3DFft s (tables s b0) p xmpq sqrtSF c2r x X0 Y0)) q ev (at_pt s (j - nsMinF1 p) k l)
        - g_q (FourierToReal3D s p xmpq sqrtSF (sym_v s (tables s b0) p x)) q ev (at_pt s (j - nsMinF1 p) k l))
  <= e * zsum 0 (sz_mpol s) (fun m => if Bool.eqb ev (Z.even m) then size_of s x q (j - nsMinF1 p) m else 0).
Proof.
  intros HC Hj Hk Hl. destruct (setting_ok _ _ _ _ _ _ _ _ _ _ _ _ _ _ HS) as (OK & _). change (tables s b0) with (tab s b0).
  eapply Rle_trans; [apply (geometry_near s OK N3 b0 p e c2r E0 nfp_pos HC); assumption|].
  apply Rmult_le_compat_l; [exact E0|]. apply FluxProofs.zsum_le. intros m Hm. pose proof (so_ntor s OK).
  pose proof (size_pos s x q (j - nsMinF1 p) m ltac:(lia) ltac:(lia) nfp_pos). destruct (m_on j m), (Bool.eqb ev (Z.even m)); cbn [andb]; lra.
Qed.
Lemma con_all xmpq sqrtSF c2r x X0 Y0 j k l : near e true (sz_nZeta s) (12 * sz_mpol s) c2r ->
  (nsMinF1 p <= j < nsMaxF1 p)%Z -> (nsMinF p <= j < nsMaxFIncludingLcfs p)%Z -> (0 <= k < sz_nZeta s)%Z -> (0 <= l < sz_nThetaReduced s)%Z ->
  let g := snd (FourierToReal3DFft s (tables s b0) p xmpq sqrtSF c2r x X0 Y0) in
  let g' := FourierToReal3D s p xmpq sqrtSF (sym_v s (tables s b0) p x) in
  let f m := if Z.even m then xmpq m else xmpq m * sqrtSF (j - nsMinF1 p)%Z in
  let bound q := e * zsum 0 (sz_mpol s) (fun m => Rabs (f m) * size_of s x q (j - nsMinF1 p) m) in
  Rabs (g_rCon g (at_pt s (j - nsMinF p) k l) - g_rCon g' (at_pt s (j - nsMinF p) k l)) <= bound G_r1 /\
  Rabs (g_zCon g (at_pt s (j - nsMinF p) k l) - g_zCon g' (at_pt s (j - nsMinF p) k l)) <= bound G_z1.
Proof.
  intros HC Hj Hjc Hk Hl g g' f bound. destruct (setting_ok _ _ _ _ _ _ _ _ _ _ _ _ _ _ HS) as (OK & _). unfold g, g'. change (tables s b0) with (tab s b0).
  destruct (con_near s OK N3 b0 p e c2r E0 nfp_pos HC xmpq sqrtSF x X0 Y0 j k l Hj Hjc Hk Hl) as [A B].
  pose proof (so_ntor s OK).
  assert (G : forall q, e * zsum 0 (sz_mpol s) (fun m => if m_on j m then Rabs (con_f p xmpq sqrtSF j m) * size_of s x q (j - nsMinF1 p) m else 0) <= bound q).
  { intros q. unfold bound. apply Rmult_le_compat_l; [exact E0|]. apply FluxProofs.zsum_le. intros m Hm.
    pose proof (size_pos s x q (j - nsMinF1 p) m ltac:(lia) ltac:(lia) nfp_pos). pose proof (Rabs_pos (f m)).
    destruct (m_on j m); [apply Req_le; reflexivity|]. apply Rmult_le_pos; assumption. }
  split; (eapply Rle_trans; [|apply G]); assumption.
Qed.
Lemma fsize_pos xmpq d j m n c : (0 <= m)%Z -> (0 <= n)%Z -> 0 <= force_size s xmpq d j m n c.
Proof.
  intros Hm Hn. unfold force_size. destruct (setting_ok _ _ _ _ _ _ _ _ _ _ _ _ _ _ HS) as (OK & _). cbv zeta.
  pose proof (so_nZeta s OK). pose proof nfp_pos.
  assert (A : 0 <= IZR m) by (apply IZR_le; lia). assert (B : 0 <= IZR (n * sz_nfp s)) by (apply IZR_le; nia).
  assert (HM : forall a b, 0 <= a -> 0 <= a * Rabs b) by (intros; apply Rmult_le_pos; [assumption|apply Rabs_pos]).
  destruct (Z_le_gt_dec (sz_nThetaReduced s) 0) as [L|L].
  - rewrite zsum_zero; [lra|]. intros k Hk. apply zsum_empty. lia.
  - apply Rmult_le_pos.
    + unfold Rdiv. apply Rmult_le_pos; [apply sqrt_pos|]. destruct (Z.eq_dec (sz_nZeta s * (sz_nThetaReduced s - 1)) 0) as [E|E].
      * rewrite E, Rinv_0. lra.
      * left. apply Rinv_0_lt_compat, IZR_lt. nia.
    + apply GeoMag.zsum_nonneg. intros k Hk. apply GeoMag.zsum_nonneg. intros l Hl.
      destruct c; repeat apply Rplus_le_le_0_compat; try apply Rabs_pos; apply HM; try assumption; apply Rabs_pos.
Qed.
Lemma forces_all xmpq vacuum_on r2c d I0 O0 c b j m n : near e false (sz_nZeta s) (12 * sz_mpol s) r2c ->
  (0 <= m < sz_mpol s)%Z -> (0 <= n <= sz_ntor s)%Z ->
  Rabs (snd (ForcesToFourier3DFft s (tables s b0) p xmpq r2c ns lfreeb vacuum_on d I0 O0) c b (at_mn s (j - nsMinF p) m n)
      - ForcesToFourier3D s (tables s b0) p xmpq ns lfreeb vacuum_on d sym_kind (fun _ _ _ => 0) c b (at_mn s (j - nsMinF p) m n))
  <= e * force_size s xmpq d (j - nsMinF p) m n c.
Proof.
  intros HC Hm Hn. destruct (setting_ok _ _ _ _ _ _ _ _ _ _ _ _ _ _ HS) as (OK & _). change (tables s b0) with (tab s b0).
  pose proof (so_nZeta s OK). destruct (exact_ok (sz_nZeta s) (kBatch * sz_mpol s) ltac:(lia)) as [_ HX].
  rewrite <- (backward_eq s OK N3 b0 p _ HX xmpq ns lfreeb vacuum_on d I0 O0).
  eapply Rle_trans; [apply (forces_close s OK N3 b0 p e r2c _ E0 nfp_pos HC HX xmpq ns lfreeb vacuum_on d I0 O0 c b j m n Hm Hn)|].
  pose proof (fsize_pos xmpq d (j - nsMinF p) m n c ltac:(lia) ltac:(lia)).
  destruct (_ && _); [lra|]. apply Rmult_le_pos; assumption.
Qed.
End R.

Lemma make_lasym lasym nfp mpol ntor ntheta nzeta mg ng s : make_sizes lasym nfp mpol ntor ntheta nzeta mg ng = Some s -> sz_lasym s = lasym.
Proof.
  unfold make_sizes. destruct ((nfp <? 1)%Z || (mpol <? 1)%Z || (ntor <? 0)%Z); [discriminate|]. cbv zeta. intros E. inversion E. reflexivity.
Qed.
Lemma vendored nfp mpol ntor ntheta nzeta mg ng T th ns lfreeb s p (b0 : basis_tables) rc rr stc strr
    (xmpq sqrtSF : Z -> R) (x : coefs) (d da : forces) (vacuum_on : bool) (g0 ga0 : geom) (X0 Y0 inb0 outb0 : Z -> R) :
  setting false nfp mpol ntor ntheta nzeta mg ng T th ns lfreeb s p -> (0 < sz_ntor s)%Z ->
  find_routine true (sz_nZeta s) (12 * sz_mpol s) = Some rc -> ready (fst rc) stc ->
  find_routine false (sz_nZeta s) (12 * sz_mpol s) = Some rr -> ready (fst rr) strr ->
  let cnt := (12 * sz_mpol s)%Z in let N := sz_nZeta s in
  let pl := Some (call_kernel rc (cnt * read_len true N) (cnt * write_len true N) stc,
                  call_kernel rr (cnt * read_len false N) (cnt * write_len false N) strr) in
  (forall q even_m j k l, (nsMinF1 p <= j < nsMaxF1 p)%Z -> (0 <= k < N)%Z -> (0 <= l < sz_nThetaReduced s)%Z ->
    Rabs (g_q (geometryFromFourierFft pl s (tables s b0) p xmpq sqrtSF x g0 ga0 X0 Y0) q even_m (at_pt s (j - nsMinF1 p) k l)
          - g_q (geometryFromFourier s (tables s b0) p xmpq sqrtSF x g0 ga0) q even_m (at_pt s (j - nsMinF1 p) k l))
    <= 5 / 10 ^ 16 * zsum 0 (sz_mpol s) (fun m => if Bool.eqb even_m (Z.even m) then size_of s x q (j - nsMinF1 p) m else 0)) /\
  (forall c b j m n, (0 <= m < sz_mpol s)%Z -> (0 <= n <= sz_ntor s)%Z ->
    Rabs (forcesToFourierFft pl s (tables s b0) p xmpq ns lfreeb vacuum_on d da inb0 outb0 c b (at_mn s (j - nsMinF p) m n)
          - forcesToFourier s (tables s b0) p xmpq ns lfreeb vacuum_on d da c b (at_mn s (j - nsMinF p) m n))
    <= 5 / 10 ^ 16 * force_size s xmpq d (j - nsMinF p) m n c).
Proof.
  intros HS N3 Fc Rc Fr Rr cnt N pl. destruct (setting_ok _ _ _ _ _ _ _ _ _ _ _ _ _ _ HS) as (OK & _). pose proof (so_nZeta s OK).
  assert (E3 : sz_lthreed s = true) by (rewrite (so_3d s OK); apply Z.gtb_lt; exact N3).
  assert (EA : sz_lasym s = false) by (destruct HS as (_ & HM & _); exact (make_lasym _ _ _ _ _ _ _ _ _ HM)).
  split.
  - intros q ev j k l Hj Hk Hl. unfold geometryFromFourierFft, geometryFromFourier, pl. rewrite E3, EA.
    apply (geometry_all HS N3 b0 _ eps_pos); try assumption. apply call_near; [lia|assumption|assumption].
  - intros c b j m n Hm Hn. unfold forcesToFourierFft, forcesToFourier, pl. rewrite E3, EA.
    apply (forces_all HS N3 b0 _ eps_pos); try assumption. apply call_near; [lia|assumption|assumption].
Qed.
Lemma case_ok : exists s p rc rr stc strr, setting false 5 6 6 0 0 6 6 2 0 11 true s p /\ (0 < sz_ntor s)%Z /\
  find_routine true (sz_nZeta s) (12 * sz_mpol s) = Some rc /\ ready (fst rc) stc /\
  find_routine false (sz_nZeta s) (12 * sz_mpol s) = Some rr /\ ready (fst rr) strr /\
  size_of s (fun c b i => match c, b with cR, b_cc => if (i =? 0)%Z then 1 else 0 | _, _ => 0 end) G_r1 0 0 = sqrt 2.
Proof.
  destruct C124_case as (s & p & HS & N3 & HN & Hm & _).
  pose (st0 := {| c_iv := fun _ => None; c_dv := fun _ => None; c_mem := fun _ _ => Some 1%R |}).
  destruct (proj2 (C125_coverage true 16 6)) as (rc & Fc); [cbn; tauto|].
  destruct (proj2 (C125_coverage false 16 6)) as (rr & Fr); [cbn; tauto|].
  assert (SC : exists stc, ready (fst rc) stc).
  { pose proof (C125_routines _ _ _ _ Fc) as G. destruct rc as [cd c]. destruct G as [I _]. destruct (I st0) as (st1 & _ & H). exists st1. exact H. }
  assert (SR : exists stc, ready (fst rr) stc).
  { pose proof (C125_routines _ _ _ _ Fr) as G. destruct rr as [cd c]. destruct G as [I _]. destruct (I st0) as (st1 & _ & H). exists st1. exact H. }
  destruct SC as (stc & Hc). destruct SR as (str & Hr). exists s, p, rc, rr, stc, str. change (12 * 6)%Z with 72%Z in Fc, Fr. rewrite HN, Hm.
  split; [exact HS|]. split; [exact N3|]. split; [exact Fc|]. split; [exact Hc|]. split; [exact Fr|]. split; [exact Hr|].
  destruct (setting_ok _ _ _ _ _ _ _ _ _ _ _ _ _ _ HS) as (OK & _).
  unfold size_of, parts_of, weight, row_size. replace (0 * sz_mpol s + 0)%Z with 0%Z by ring.
  rewrite (zsum_single 0 (sz_ntor s + 1) 0).
  - rewrite (zsum_zero 0 (sz_ntor s + 1) (fun n => Rabs 0)) by (intros; apply Rabs_R0). replace (0 * (sz_ntor s + 1) + 0 =? 0)%Z with true by (symmetry; apply Z.eqb_eq; ring). rewrite Rabs_R1. ring.
  - lia.
  - intros n Hn N0. destruct (Z.eqb_spec (0 * (sz_ntor s + 1) + n) 0); [lia|]. apply Rabs_R0.
Qed.
