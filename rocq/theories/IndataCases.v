(** Integers out of range; inputs that are mishandled; concrete cases. *)
From Coq Require Import String ZArith List Bool Lia SpecFloat.
From Verif Require Import Base BaseLemmas Num IndataModel IndataSpec IndataProofs IndataCheck IndataRound IndataMore.
Import ListNotations.
Open Scope Z_scope.

Section I.
  Context {K : num}.

  Lemma int_setting_of j (x : indata K) name proj : FromJson (JObj j) = Ok x -> In (name, proj) int_settings ->
    exists d, setting is_int j name d (proj x).
  Proof.
    intros E H. apply FromJson_reads in E. unfold reads_as in E. cbv zeta in E.
    destruct E as ((_ & A1 & A2 & A3 & A4 & A5 & A6 & A7) & (_ & _ & _ & _ & _ & _ & A8) & _ & _ & _ & (_ & _ & _ & A9 & _) & (A10 & _) & _).
    cbn [In int_settings] in H. repeat (destruct H as [H|H]; [inversion H; subst; eexists; eassumption|]). contradiction.
  Qed.

  Theorem int_exact j (x : indata K) name proj z : FromJson (JObj j) = Ok x -> In (name, proj) int_settings -> member j name = Some (JInt z) ->
    fits32 (proj x) /\ (exists k, z = proj x + k * 2 ^ 32) /\ (fits32 z -> proj x = z).
  Proof.
    intros E H M. destruct (int_setting_of j x name proj E H) as (d & S). unfold setting in S. rewrite M in S. destruct S as (l & k & E1 & E2 & E3).
    inversion E1; subst l. split; [exact E3|]. split; [eauto|]. intros F. unfold fits32 in *. assert (k = 0) by lia. subst. lia.
  Qed.

  Lemma parse_int_large z : z < - 2 ^ 63 \/ 2 ^ 64 <= z -> parse_int z = (JNum (nZ z) : json K).
  Proof. intros H. unfold parse_int. destruct (Z.leb_spec (- 2 ^ 63) z), (Z.ltb_spec z (2 ^ 64)); cbn; auto; lia. Qed.

  Theorem int_large j name (proj : indata K -> Z) z : In (name, proj) int_settings -> z < - 2 ^ 63 \/ 2 ^ 64 <= z -> member j name = Some (parse_int z) ->
    forall x : indata K, FromJson (JObj j) <> Ok x.
  Proof.
    intros H Hz M x E. rewrite parse_int_large in M by exact Hz. destruct (int_setting_of j x name proj E H) as (d & S). unfold setting in S. rewrite M in S.
    destruct S as (l & k & E1 & _). discriminate.
  Qed.

  Theorem int_list_exact j (x : indata K) ws : FromJson (JObj j) = Ok x -> 
    (member j "ns_array" = Some (JArr ws) -> (forall w, In w ws -> exists z, w = JInt z /\ fits32 z) -> ws = map JInt (ns_array x)) /\
    (member j "niter_array" = Some (JArr ws) -> (forall w, In w ws -> exists z, w = JInt z /\ fits32 z) -> ws = map JInt (niter_array x)).
  Proof.
    intros E. apply FromJson_reads in E. unfold reads_as in E. cbv zeta in E. destruct E as (_ & (A1 & _ & A2 & _) & _).
    assert (G : forall l (r : list Z), Forall2 (is_int (K := K)) l r -> (forall w, In w l -> exists z, w = JInt z /\ fits32 z) -> l = map JInt r).
    { induction 1 as [|w z l r (lit & k & -> & -> & Hz) F IH]; intros H; [reflexivity|]. cbn. f_equal.
      - destruct (H _ (or_introl eq_refl)) as (z' & E1 & E2). inversion E1; subst. f_equal. unfold fits32 in *. assert (k = 0) by lia. subst. lia.
      - apply IH. intros w Hw. apply H. right. exact Hw. }
    split; intros M H; [unfold setting in A1; rewrite M in A1; destruct A1 as (l & E1 & F)|unfold setting in A2; rewrite M in A2; destruct A2 as (l & E1 & F)];
      inversion E1; subst l; exact (G _ _ F H).
  Qed.

  (** *** Mishandled inputs, for any arithmetic. *)
  Definition entry_m_negative : list (string * json K) :=
    [("rbc"%string, JArr [JObj [("m"%string, JInt (-1)); ("n"%string, JInt 0); ("value"%string, JNum (nZ 1))]])].
  Lemma negative_m_ub : FromJson (JObj entry_m_negative) = UB.
  Proof. reflexivity. Qed.
  Definition lasym_only : list (string * json K) := [("lasym"%string, JBool true)].
  Lemma lasym_throws : FromJson (JObj lasym_only) = Throws.
  Proof. reflexivity. Qed.
  Definition mpol_negative : list (string * json K) := [("mpol"%string, JInt (-1)); ("rbc"%string, JArr [])].
  Lemma mpol_negative_ub : FromJson (JObj mpol_negative) = UB.
  Proof. reflexivity. Qed.

  Definition modify (x : indata K) (las : bool) (ft : list K) (dt : K) : indata K :=
    mkIndata las (nfp x) (mpol x) (ntor x) (mpol_geometry x) (ntor_geometry x) (ntheta x) (nzeta x)
      (ns_array x) ft (niter_array x) (phiedge x) (ncurr x)
      (pmass_type x) (am x) (am_aux_s x) (am_aux_f x) (pres_scale x) (gamma x) (spres_ped x)
      (piota_type x) (ai x) (ai_aux_s x) (ai_aux_f x) (pcurr_type x) (ac x) (ac_aux_s x) (ac_aux_f x) (curtor x) (bloat x)
      (lfreeb x) (mgrid_file x) (extcur x) (nvacskip x) (free_boundary_method x)
      (nstep x) (aphi x) dt (tcon0 x) (lforbal x) (iteration_style x) (return_outputs x)
      (raxis_c x) (zaxis_s x) (raxis_s x) (zaxis_c x) (rbc x) (zbs x) (rbs x) (zbc x).
  Lemma short_ftol_ub : IsConsistent (modify default_indata false [] (nZ 1)) = UB.
  Proof. reflexivity. Qed.
End I.

(** doubles *)
Definition nan64 : num_f64 := S754_nan.
Lemma nan_delt_accepted : IsConsistent (modify (K := num_f64) default_indata false [nZ 0] nan64) = Ok tt.
Proof. vm_compute. reflexivity. Qed.
Lemma lasym_unset_ub : IsConsistent (modify (K := num_f64) default_indata true [nZ 0] (nZ 1)) = UB.
Proof. vm_compute. reflexivity. Qed.

Definition wrap_json : list (string * json num_f64) := [("nfp"%string, parse_int 4294967301)].
Definition result_nfp (o : outcome (indata num_f64)) : option Z := match o with Ok x => Some (nfp x) | _ => None end.
Lemma wrap_nfp_c : result_nfp (FromJson (JObj wrap_json)) = Some 5.
Proof. vm_compute. reflexivity. Qed.
Lemma wrap_nfp : exists x, FromJson (JObj wrap_json) = Ok x /\ nfp x = 5.
Proof.
  generalize wrap_nfp_c. destruct (FromJson (JObj wrap_json)) as [x| | |]; cbn [result_nfp]; intros E; try discriminate. exists x. split; [reflexivity|congruence].
Qed.

(** *** A case that meets the hypotheses. *)
Definition ent (m n v : Z) : json num_f64 := JObj [("m"%string, JInt m); ("n"%string, JInt n); ("value"%string, JInt v)].
Definition case_json : list (string * json num_f64) :=
  [("nfp"%string, JInt 5); ("mpol"%string, JInt 3); ("ntor"%string, JInt 1);
   ("ns_array"%string, JArr [JInt 11; JInt 31]); ("ftol_array"%string, JArr [JInt 0; JInt 0]); ("niter_array"%string, JArr [JInt 100; JInt 200]);
   ("raxis_c"%string, JArr [JInt 6]);
   ("rbc"%string, JArr [ent 0 0 6; ent 1 0 2; ent 1 0 3; ent 7 0 9; ent 1 4 9; ent 1 (-1) 1]); ("zbs"%string, JArr [ent 1 0 1])]%Z.
Lemma case_plain : plain_json case_json.
Proof.
  unfold plain_json, plain_entries. cbn. repeat split; intros;
    repeat match goal with
    | H : Some _ = Some _ |- _ => inversion H; subst; clear H
    | H : None = Some _ |- _ => discriminate H
    | H : In _ (_ :: _) |- _ => cbn in H
    | H : _ \/ _ |- _ => destruct H as [H|H]
    | H : False |- _ => contradiction
    | H : JObj _ = JObj _ |- _ => inversion H; subst; clear H
    | H : ent _ _ _ = JObj _ |- _ => unfold ent in H
    end; cbn in *; repeat match goal with H : Some _ = Some _ |- _ => inversion H; subst; clear H | H : None = Some _ |- _ => discriminate H end; try lia; try discriminate.
Qed.
Definition case_out (o : outcome (indata num_f64)) : option (Z * list (list num_f64) * list num_f64) :=
  match o with Ok x => Some (nfp x, m_body (rbc x), raxis_c x) | _ => None end.
Lemma case_value : exists x, FromJson (JObj case_json) = Ok x /\ nfp x = 5 /\
  m_body (rbc x) = [[nZ 0; nZ 6; nZ 0]; [nZ 1; nZ 3; nZ 0]; [nZ 0; nZ 0; nZ 0]] /\ raxis_c x = [nZ 6; nZ 0].
Proof.
  assert (E : case_out (FromJson (JObj case_json)) = Some (5, [[nZ 0; nZ 6; nZ 0]; [nZ 1; nZ 3; nZ 0]; [nZ 0; nZ 0; nZ 0]], [nZ 6; nZ 0])) by (vm_compute; reflexivity).
  destruct (FromJson (JObj case_json)) as [x| | |]; cbn [case_out] in E; try discriminate. exists x. inversion E. auto.
Qed.

Definition case_x : indata num_f64 :=
  mkIndata false 5 2 1 (-1) (-1) 0 36 [11; 31] [nZ 1; nZ 0] [100; 200] (nZ 1) 1
    "power_series" [nZ 1; nZ (-2)] [] [] (nZ 1) (nZ 0) (nZ 1) "power_series" [] [] [] "cubic_spline_ip" [] [nZ 0; nZ 1] [nZ 3; nZ 4] (nZ 7) (nZ 2)
    true "mgrid.nc" [nZ 100; nZ (-3)] 6 ONLY_COILS 10 [nZ 1] (nfrac 1 2) (nZ 1) true PARVMEC true
    [nZ 6; nfrac 1 10] [nZ 0; nZ (-1)] None None
    (mkMat 2 3 [[nZ 0; nZ 6; nfrac 1 10]; [nZ (-1); nZ 2; nZ 0]]) (mkMat 2 3 [[nZ 0; nZ 0; nZ 1]; [nZ 0; nZ 2; nZ 0]]) None None.
Lemma case_x_meets : IsConsistent case_x = Ok tt /\ lasym case_x = false /\ ints_fit case_x /\ all_finite case_x /\ matching_lengths case_x /\ well_sized case_x /\
  plus_zero (rbc case_x) /\ plus_zero (zbs case_x).
Proof.
  split; [vm_compute; reflexivity|]. split; [reflexivity|].
  split. { unfold ints_fit, fits32. cbn. repeat split; intros; intuition lia. }
  split. { unfold all_finite, fin_mat, fin_list. cbn [ftol_array am am_aux_s am_aux_f ai ai_aux_s ai_aux_f ac ac_aux_s ac_aux_f extcur aphi raxis_c zaxis_s rbc zbs m_body case_x In].
    repeat split; intros; repeat match goal with H : _ \/ _ |- _ => destruct H as [H|H] | H : False |- _ => contradiction end; subst;
      repeat match goal with H : In _ _ |- _ => cbn [In] in H | H : _ \/ _ |- _ => destruct H as [H|H] | H : False |- _ => contradiction end; subst; vm_compute; reflexivity. }
  split. { repeat split. }
  split. { unfold well_sized, shaped. cbn. repeat split; intros; try discriminate; repeat match goal with H : _ \/ _ |- _ => destruct H as [H|H] | H : False |- _ => contradiction end; subst; reflexivity. }
  unfold plus_zero. split; intros row v Hr Hv; cbn [case_x rbc zbs m_body In] in Hr;
    repeat match goal with H : _ \/ _ |- _ => destruct H as [H|H] | H : False |- _ => contradiction end; subst; cbn [In] in Hv;
    repeat match goal with H : _ \/ _ |- _ => destruct H as [H|H] | H : False |- _ => contradiction end; subst; vm_compute; congruence.
Qed.

Definition case_lasym : indata num_f64 :=
  mkIndata true 5 2 1 (-1) (-1) 0 36 [11; 31] [nZ 1; nZ 0] [100; 200] (nZ 1) 1
    "power_series" [nZ 1; nZ (-2)] [] [] (nZ 1) (nZ 0) (nZ 1) "power_series" [] [] [] "cubic_spline_ip" [] [nZ 0; nZ 1] [nZ 3; nZ 4] (nZ 7) (nZ 2)
    true "mgrid.nc" [nZ 100; nZ (-3)] 6 ONLY_COILS 10 [nZ 1] (nfrac 1 2) (nZ 1) true PARVMEC true
    [nZ 6; nfrac 1 10] [nZ 0; nZ (-1)] (Some [nZ 0; nZ 1]) (Some [nZ 2; nZ 1])
    (mkMat 2 3 [[nZ 0; nZ 6; nfrac 1 10]; [nZ (-1); nZ 2; nZ 0]]) (mkMat 2 3 [[nZ 0; nZ 0; nZ 1]; [nZ 0; nZ 2; nZ 0]])
    (Some (mkMat 2 3 [[nZ 0; nZ 0; nZ 0]; [nZ 0; nZ 1; nZ 0]])) (Some (mkMat 2 3 [[nZ 0; nZ 0; nZ 0]; [nZ 0; nZ 0; nZ 1]])).
Lemma case_lasym_ok : IsConsistent case_lasym = Ok tt /\ exists j, ToJson case_lasym = Ok j.
Proof. split; [vm_compute; reflexivity|]. eexists. unfold ToJson. cbn [lasym case_lasym raxis_s zaxis_c first_coefficient opt_get obind rd nth_error Z.to_nat rbs zbc]. reflexivity. Qed.
