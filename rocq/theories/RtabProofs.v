(** Proofs about the response table of the external field. *)
From Coq Require Import ZArith List Bool Lia.
From Verif Require Import RtabModel RtabSpec.
Import ListNotations.
Open Scope nat_scope.
Section P.
Variable A : Type.
Variable of_int : Z -> A.
Notation state := (state A). Notation params := (params A). Notation mat := (mat A).
Notation tabs := (tabs A). Notation bufs := (bufs A). Notation objs := (objs A).
Notation read := (read A). Notation step := (step A of_int). Notation to_cpp := (to_cpp A of_int).

Lemma set_nth_spec {X} (l : list X) n g m :
  nth_error (set_nth l n g) m = if Nat.eqb m n then option_map g (nth_error l m) else nth_error l m.
Proof.
  revert n m. induction l as [|x r IH]; intros n m.
  - cbn [set_nth]. assert (E : nth_error (@nil X) m = None) by (destruct m; reflexivity). rewrite E. destruct (Nat.eqb m n); reflexivity.
  - destruct n, m; cbn; try reflexivity. apply IH.
Qed.
Lemma set_nth_len {X} (l : list X) n g : length (set_nth l n g) = length l.
Proof. revert n. induction l; destruct n; cbn; congruence. Qed.
Lemma comp_eqb_spec a b : comp_eqb a b = true <-> a = b.
Proof. destruct a, b; cbn; split; congruence. Qed.
Lemma app_old {X} (l r : list X) n x : nth_error l n = Some x -> nth_error (l ++ r) n = Some x.
Proof. intros H. rewrite nth_error_app1; [exact H|]. apply nth_error_Some. congruence. Qed.
Lemma app_inv {X} (l : list X) x n y : nth_error (l ++ [x]) n = Some y -> nth_error l n = Some y \/ (n = length l /\ y = x).
Proof.
  intros H. destruct (Nat.lt_ge_cases n (length l)) as [L|L].
  - left. rewrite nth_error_app1 in H by exact L. exact H.
  - right. rewrite nth_error_app2 in H by exact L. destruct (n - length l) as [|m] eqn:E; cbn in H; [|destruct m; discriminate]. split; [lia|congruence].
Qed.

(** ** Parameters *)
Lemma params_there p : typed A p -> small A p -> exists q, to_cpp_parameters A of_int p = Some q /\ forall f, q f = p f.
Proof.
  intros T S.
  destruct (T F_norm) as [v1 E1], (T F_symm) as [v2 E2], (T F_nfp) as [v3 E3], (T F_rmin) as [v4 E4], (T F_rmax) as [v5 E5],
    (T F_nr) as [v6 E6], (T F_zmin) as [v7 E7], (T F_zmax) as [v8 E8], (T F_nz) as [v9 E9], (T F_nphi) as [v10 E10].
  assert (I : forall f z, p f = VInt A z -> int32 z = true).
  { intros f z H. apply S in H. unfold int32. apply andb_true_intro. split; [apply Z.leb_le|apply Z.ltb_lt]; lia. }
  unfold to_cpp_parameters, model_fields. cbn [map init_types cast_all]. unfold init_types.
  rewrite E1, E2, E3, E4, E5, E6, E7, E8, E9, E10. cbn [cast_all cast].
  rewrite (I _ _ E3), (I _ _ E6), (I _ _ E9), (I _ _ E10). cbn [option_map].
  eexists. split; [reflexivity|]. intros f. destruct f; cbn [member struct_members field_eqb]; congruence.
Qed.
Lemma params_back p q : typed A p -> to_cpp_parameters A of_int p = Some q -> small A p /\ forall f, q f = p f.
Proof.
  intros T H.
  assert (S : small A p).
  { destruct (T F_norm) as [v1 E1], (T F_symm) as [v2 E2], (T F_nfp) as [v3 E3], (T F_rmin) as [v4 E4], (T F_rmax) as [v5 E5],
      (T F_nr) as [v6 E6], (T F_zmin) as [v7 E7], (T F_zmax) as [v8 E8], (T F_nz) as [v9 E9], (T F_nphi) as [v10 E10].
    unfold to_cpp_parameters, model_fields, init_types in H. cbn [map] in H.
    rewrite E1, E2, E3, E4, E5, E6, E7, E8, E9, E10 in H. cbn [cast_all cast] in H.
    destruct (int32 v3) eqn:I3; [|discriminate]. destruct (int32 v6) eqn:I6; [|discriminate].
    destruct (int32 v9) eqn:I9; [|discriminate]. destruct (int32 v10) eqn:I10; [|discriminate].
    assert (J : forall z, int32 z = true -> (- 2 ^ 31 <= z < 2 ^ 31)%Z).
    { intros z I. unfold int32 in I. apply andb_true_iff in I. destruct I as [I J]. apply Z.leb_le in I. apply Z.ltb_lt in J. lia. }
    intros f z E. destruct f; rewrite ?E1, ?E2, ?E3, ?E4, ?E5, ?E6, ?E7, ?E8, ?E9, ?E10 in E; try discriminate; injection E as <-; apply J; assumption. }
  split; [exact S|]. destruct (params_there p T S) as (q' & Q & K). rewrite Q in H. injection H as <-. exact K.
Qed.

(** ** Invariant of tame histories *)
Definition ref_ok (s : state) (p : params) (k : comp) (a : aref) : Prop :=
  match a with
  | Own i => i < length (bufs s)
  | View c k' => k' = k /\ exists t, nth_error (tabs s) c = Some t /\ forall f, c_params A t f = p f
  end.
Definition inv (s : state) : Prop :=
  (forall c t, nth_error (tabs s) c = Some t -> typed A (c_params A t)) /\
  (forall o t, nth_error (objs s) o = Some t -> typed A (p_params A t) /\ forall k, ref_ok s (p_params A t) k (p_ref A t k)).
Lemma ref_mono s s' p k a : (forall c t, nth_error (tabs s) c = Some t -> exists t', nth_error (tabs s') c = Some t' /\ forall f, c_params A t' f = c_params A t f) ->
  length (bufs s) <= length (bufs s') -> ref_ok s p k a -> ref_ok s' p k a.
Proof.
  intros HT HB. destruct a as [i|c k']; cbn; [lia|]. intros (E & t & N & Q). split; [exact E|].
  destruct (HT c t N) as (t' & N' & Q'). exists t'. split; [exact N'|]. intros f. rewrite Q'. apply Q.
Qed.
Lemma typed_ext p q : (forall f, q f = p f) -> typed A p -> typed A q.
Proof. intros E T f. specialize (T f). destruct f; rewrite E; exact T. Qed.

Lemma read_ok s p k a : ref_ok s p k a -> exists m, read s a = Some m.
Proof.
  destruct a as [i|c k']; cbn.
  - intros H. destruct (nth_error (bufs s) i) eqn:E; [eexists; reflexivity|]. apply nth_error_None in E. lia.
  - intros (_ & t & N & _). rewrite N. cbn. eexists; reflexivity.
Qed.

(** The two ways of the conversion *)
Lemma to_cpp_cases s t c s' : to_cpp s t = Some (c, s') ->
  (s' = s /\ exists k1 k2 k3, p_ref A t Br = View c k1 /\ p_ref A t Bp = View c k2 /\ p_ref A t Bz = View c k3) \/
  (c = length (tabs s) /\ exists q r b z, to_cpp_parameters A of_int (p_params A t) = Some q /\
     read s (p_ref A t Br) = Some r /\ read s (p_ref A t Bp) = Some b /\ read s (p_ref A t Bz) = Some z /\
     s' = mkS A (tabs s ++ [mkC A q (fun k => match k with Br => r | Bp => b | Bz => z end)]) (bufs s) (objs s)).
Proof.
  unfold RtabModel.to_cpp. intros H.
  assert (FR : forall X, match to_cpp_parameters A of_int (p_params A t), read s (p_ref A t Br), read s (p_ref A t Bp), read s (p_ref A t Bz) with
    | Some q, Some r, Some p, Some z => Some (length (tabs s), mkS A (tabs s ++ [mkC A q (fun k => match k with Br => r | Bp => p | Bz => z end)]) (bufs s) (objs s))
    | _, _, _, _ => None end = Some (c, s') -> X \/
    (c = length (tabs s) /\ exists q r b z, to_cpp_parameters A of_int (p_params A t) = Some q /\
     read s (p_ref A t Br) = Some r /\ read s (p_ref A t Bp) = Some b /\ read s (p_ref A t Bz) = Some z /\
     s' = mkS A (tabs s ++ [mkC A q (fun k => match k with Br => r | Bp => b | Bz => z end)]) (bufs s) (objs s))).
  { clear H. intros X H. right.
    destruct (to_cpp_parameters A of_int (p_params A t)) as [q|]; [|discriminate].
    destruct (read s (p_ref A t Br)) as [r|]; [|discriminate].
    destruct (read s (p_ref A t Bp)) as [b|]; [|discriminate].
    destruct (read s (p_ref A t Bz)) as [z|]; [|discriminate].
    injection H as <- <-. split; [reflexivity|]. exists q, r, b, z. repeat split; reflexivity. }
  destruct (base (p_ref A t Br)) as [u|] eqn:B1; [|apply FR; exact H].
  destruct (base (p_ref A t Bp)) as [v|] eqn:B2; [|apply FR; exact H].
  destruct (base (p_ref A t Bz)) as [w|] eqn:B3; [|apply FR; exact H].
  destruct (Nat.eqb u v && Nat.eqb u w) eqn:E; [|apply FR; exact H].
  left. injection H as <- <-. split; [reflexivity|]. apply andb_true_iff in E. destruct E as [E1 E2].
  apply Nat.eqb_eq in E1, E2. subst v w.
  destruct (p_ref A t Br) as [|c1 k1]; [discriminate|]. destruct (p_ref A t Bp) as [|c2 k2]; [discriminate|]. destruct (p_ref A t Bz) as [|c3 k3]; [discriminate|].
  cbn in B1, B2, B3. injection B1 as ->. injection B2 as ->. injection B3 as ->. exists k1, k2, k3. repeat split; reflexivity.
Qed.

Lemma inv_app_tab s t : inv s -> typed A (c_params A t) -> inv (mkS A (tabs s ++ [t]) (bufs s) (objs s)).
Proof.
  intros [I1 I2] T. split.
  - cbn. intros c u N. apply app_inv in N. destruct N as [N|[_ ->]]; [exact (I1 c u N)|exact T].
  - cbn [RtabModel.objs]. intros o u N. destruct (I2 o u N) as [Ty R]. split; [exact Ty|]. intros k. refine (ref_mono s _ _ _ _ _ _ (R k)); cbn; [|lia].
    intros c x Nx. exists x. split; [apply app_old; exact Nx|reflexivity].
Qed.
Lemma inv_wrap s c o : inv s -> from_cpp A s c = Some o -> inv (mkS A (tabs s) (bufs s) (objs s ++ [o])).
Proof.
  intros [I1 I2] F. unfold from_cpp in F. destruct (nth_error (tabs s) c) as [t|] eqn:N; [|discriminate]. cbn in F. injection F as <-.
  split; [exact I1|]. cbn [RtabModel.objs]. intros o u M. apply app_inv in M. destruct M as [M|[_ ->]].
  - destruct (I2 o u M) as [Ty R]. split; [exact Ty|]. intros k. refine (ref_mono s _ _ _ _ _ _ (R k)); cbn; [|lia]. intros; eexists; split; [eassumption|reflexivity].
  - cbn [p_params p_ref]. split; [exact (I1 c t N)|]. intros k. cbn. split; [reflexivity|]. exists t. split; [exact N|reflexivity].
Qed.
Lemma inv_seto s s1 o g : inv s -> tabs s1 = tabs s -> length (bufs s) <= length (bufs s1) -> objs s1 = objs s ->
  (forall t, nth_error (objs s) o = Some t -> typed A (p_params A (g t)) /\ forall k, ref_ok s1 (p_params A (g t)) k (p_ref A (g t) k)) ->
  inv (mkS A (tabs s1) (bufs s1) (set_nth (objs s1) o g)).
Proof.
  intros [I1 I2] ET LB EO G. split; cbn [RtabModel.tabs RtabModel.objs].
  - rewrite ET. exact I1.
  - rewrite EO. intros m u N. rewrite set_nth_spec in N. destruct (Nat.eqb m o) eqn:E.
    + apply Nat.eqb_eq in E. subst m. destruct (nth_error (objs s) o) as [t|] eqn:M; [|discriminate]. cbn in N. injection N as <-. exact (G t eq_refl).
    + destruct (I2 m u N) as [Ty R]. split; [exact Ty|]. intros k. refine (ref_mono s _ _ _ _ _ _ (R k)); cbn; [rewrite ET|exact LB].
      intros; eexists; split; [eassumption|reflexivity].
Qed.
Lemma inv_write s a i j v : inv s -> inv (write A s a i j v).
Proof.
  intros [I1 I2]. destruct a as [b|c k]; unfold write.
  - split; [exact I1|]. cbn [RtabModel.objs]. intros o u N. destruct (I2 o u N) as [Ty R]. split; [exact Ty|]. intros q. refine (ref_mono s _ _ _ _ _ _ (R q)); cbn.
    + intros; eexists; split; [eassumption|reflexivity].
    + rewrite set_nth_len. lia.
  - split; cbn [RtabModel.tabs RtabModel.objs].
    + intros d u N. rewrite set_nth_spec in N. destruct (Nat.eqb d c); [|exact (I1 d u N)].
      destruct (nth_error (tabs s) d) as [t|] eqn:M; [|discriminate]. cbn in N. injection N as <-. exact (I1 d t M).
    + intros o u N. destruct (I2 o u N) as [Ty R]. split; [exact Ty|]. intros q. refine (ref_mono s _ _ _ _ _ _ (R q)); cbn; [|lia].
      intros d t M. rewrite set_nth_spec, M. destruct (Nat.eqb d c); cbn; eexists; split; reflexivity.
Qed.
Lemma inv_convert s t c s' : inv s -> typed A (p_params A t) -> to_cpp s t = Some (c, s') -> inv s'.
Proof.
  intros I Ty H. apply to_cpp_cases in H. destruct H as [[-> _]|(_ & q & r & b & z & Q & _ & _ & _ & ->)]; [exact I|].
  apply inv_app_tab; [exact I|]. cbn. refine (typed_ext _ _ _ Ty). exact (proj2 (params_back _ _ Ty Q)).
Qed.
Lemma inv_step s x : inv s -> tame A s x -> inv (step s x).
Proof.
  intros I T. destruct x as [t|c|p r b z|o k i j v|o k m|o k o' k'|o p|o]; cbn [RtabModel.step]; cbn [tame] in T.
  - assert (I1 := inv_app_tab s t I T). destruct (from_cpp A _ _) as [o|] eqn:F; [|exact I1]. exact (inv_wrap _ _ _ I1 F).
  - destruct (from_cpp A s c) as [o|] eqn:F; [|exact I]. exact (inv_wrap _ _ _ I F).
  - destruct I as [I1 I2]. split; [exact I1|]. cbn [RtabModel.objs]. intros o u N. apply app_inv in N. destruct N as [N|[_ ->]].
    + destruct (I2 o u N) as [Ty R]. split; [exact Ty|]. intros q. refine (ref_mono s _ _ _ _ _ _ (R q)); cbn; [|rewrite app_length; cbn; lia].
      intros; eexists; split; [eassumption|reflexivity].
    + split; [exact T|]. intros k. destruct k; cbn; rewrite app_length; cbn; lia.
  - destruct (nth_error (objs s) o) as [t|]; [|exact I]. apply inv_write. exact I.
  - apply (inv_seto s (mkS A (tabs s) (bufs s ++ [m]) (objs s))); cbn; [exact I|reflexivity|rewrite app_length; lia|reflexivity|].
    intros t N. destruct (proj2 I o t N) as [Ty R]. split; [exact Ty|]. intros q. unfold setk. destruct (comp_eqb q k); [cbn; rewrite app_length; cbn; lia|].
    refine (ref_mono s _ _ _ _ _ _ (R q)); cbn; [|rewrite app_length; lia]. intros; eexists; split; [eassumption|reflexivity].
  - destruct (nth_error (objs s) o') as [t'|] eqn:N'; [|exact I]. destruct T as [<- T].
    apply (inv_seto s s); cbn; [exact I|reflexivity|lia|reflexivity|].
    intros t N. destruct (proj2 I o t N) as [Ty R]. split; [exact Ty|]. intros q. unfold setk. destruct (comp_eqb q k) eqn:E; [|exact (R q)].
    apply comp_eqb_spec in E. subst q. pose proof (proj2 (proj2 I o' t' N') k) as R'. destruct (p_ref A t' k) as [i|c k2]; cbn in *; [exact R'|].
    destruct R' as (E & u & M & Q). split; [exact E|]. exists u. split; [exact M|]. intros f. rewrite Q. symmetry. exact (T t t' N eq_refl f).
  - apply (inv_seto s s); cbn; [exact I|reflexivity|lia|reflexivity|]. destruct T as [Ty T]. intros t N. split; [exact Ty|]. intros k.
    destruct (T t k N) as [i E]. pose proof (proj2 (proj2 I o t N) k) as R. rewrite E in R |- *. exact R.
  - destruct (nth_error (objs s) o) as [t|] eqn:N; [|exact I]. destruct (to_cpp s t) as [[c s1]|] eqn:F; [|exact I].
    exact (inv_convert s t c s1 I (proj1 (proj2 I o t N)) F).
Qed.
Lemma inv_run h s : inv s -> all_tame A of_int s h -> inv (fold_left step h s).
Proof.
  revert s. induction h as [|x r IH]; intros s I T; [exact I|]. cbn. destruct T as [T1 T2]. apply IH; [apply inv_step; assumption|exact T2].
Qed.
Lemma inv0 : inv (mkS A [] [] []).
Proof. split; intros n t N; cbn in N; destruct n; discriminate. Qed.

(** ** The conversion *)
Lemma read_tabs s t a m : read s a = Some m -> read (mkS A (tabs s ++ [t]) (bufs s) (objs s)) a = Some m.
Proof.
  destruct a as [i|c k]; cbn; [exact (fun H => H)|]. destruct (nth_error (tabs s) c) as [u|] eqn:N; [|discriminate].
  rewrite (app_old _ [t] _ _ N). exact (fun H => H).
Qed.
Lemma convert_frame s t c s' o p r b z : to_cpp s t = Some (c, s') -> shows A s o p r b z -> shows A s' o p r b z.
Proof.
  intros H S. apply to_cpp_cases in H. destruct H as [[-> _]|(_ & q & r1 & b1 & z1 & _ & _ & _ & _ & ->)]; [exact S|].
  destruct S as (u & N & P & R1 & R2 & R3). exists u. cbn [RtabModel.objs]. split; [exact N|]. split; [exact P|].
  split; [|split]; apply read_tabs; assumption.
Qed.
Lemma convert_ok h o t p r b z : all_tame A of_int (mkS A [] [] []) h ->
  let s := run A of_int h in nth_error (objs s) o = Some t -> shows A s o p r b z -> small A p ->
  exists c s', to_cpp s t = Some (c, s') /\ holds A s' c p r b z /\
    (forall o' p' r' b' z', shows A s o' p' r' b' z' -> shows A s' o' p' r' b' z').
Proof.
  intros T s N S Sm. assert (I : inv s) by exact (inv_run h _ inv0 T).
  destruct S as (t' & N' & P & R1 & R2 & R3). rewrite N in N'. injection N' as <-.
  destruct (proj2 I o t N) as [Ty R].
  assert (Sm' : small A (p_params A t)) by (intros f w E; rewrite P in E; exact (Sm f w E)).
  destruct (params_there _ Ty Sm') as (q & Q & QE).
  assert (H : exists c s', to_cpp s t = Some (c, s')).
  { unfold RtabModel.to_cpp. rewrite Q, R1, R2, R3.
    destruct (base (p_ref A t Br)); [destruct (base (p_ref A t Bp)); [destruct (base (p_ref A t Bz)); [destruct (_ && _)|]|]|]; eexists; eexists; reflexivity. }
  destruct H as (c & s' & H). exists c, s'. split; [exact H|]. split; [|intros; eapply convert_frame; eassumption].
  apply to_cpp_cases in H. destruct H as [(-> & k1 & k2 & k3 & V1 & V2 & V3)|(-> & q' & r' & b' & z' & Q' & R1' & R2' & R3' & ->)].
  - pose proof (R Br) as O1. pose proof (R Bp) as O2. pose proof (R Bz) as O3. rewrite V1 in O1, R1. rewrite V2 in O2, R2. rewrite V3 in O3, R3.
    cbn in O1, O2, O3, R1, R2, R3. destruct O1 as (-> & u & M & E). destruct O2 as (-> & _). destruct O3 as (-> & _).
    rewrite M in R1, R2, R3. cbn in R1, R2, R3. injection R1 as <-. injection R2 as <-. injection R3 as <-.
    exists u. split; [exact M|]. split; [intros f; rewrite E; apply P|]. repeat split.
  - rewrite Q in Q'. injection Q' as <-. rewrite R1 in R1'. rewrite R2 in R2'. rewrite R3 in R3'. injection R1' as <-. injection R2' as <-. injection R3' as <-.
    eexists. split; [cbn; rewrite nth_error_app2 by lia; rewrite Nat.sub_diag; reflexivity|]. cbn. split; [intros f; rewrite QE; apply P|]. repeat split.
Qed.
(** Out of range: the conversion of owned arrays raises *)
Lemma convert_raises s t i : typed A (p_params A t) -> ~ small A (p_params A t) -> p_ref A t Br = Own i -> to_cpp s t = None.
Proof.
  intros Ty NS E. destruct (to_cpp s t) as [[c s']|] eqn:H; [|reflexivity]. apply to_cpp_cases in H.
  destruct H as [(_ & k1 & k2 & k3 & V & _)|(_ & q & r & b & z & Q & _)]; [congruence|]. destruct NS. exact (proj1 (params_back _ _ Ty Q)).
Qed.

(** ** A copied table is not linked *)
Definition unseen (c : nat) (s : state) : Prop := forall o t k k', nth_error (objs s) o = Some t -> p_ref A t k <> View c k'.
Definition wraps (c : nat) (x : op A) : Prop := match x with Wrap _ c' => c' = c | _ => False end.
Lemma unseen_seto c s s1 o g : unseen c s -> objs s1 = objs s ->
  (forall t k k', nth_error (objs s) o = Some t -> p_ref A (g t) k <> View c k') -> unseen c (mkS A (tabs s1) (bufs s1) (set_nth (objs s1) o g)).
Proof.
  intros U E G m t k k' N. cbn in N. rewrite set_nth_spec, E in N. destruct (Nat.eqb m o) eqn:Q; [|exact (U m t k k' N)].
  apply Nat.eqb_eq in Q. subst m. destruct (nth_error (objs s) o) as [u|] eqn:M; [|discriminate]. cbn in N. injection N as <-. exact (G u k k' eq_refl).
Qed.
Lemma unseen_add c s o : unseen c s -> (forall k k', p_ref A o k <> View c k') -> unseen c (mkS A (tabs s) (bufs s) (objs s ++ [o])).
Proof. intros U G m t k k' N. cbn in N. apply app_inv in N. destruct N as [N|[_ ->]]; [exact (U m t k k' N)|apply G]. Qed.
Lemma step_unseen c s x t : nth_error (tabs s) c = Some t -> unseen c s -> ~ wraps c x ->
  nth_error (tabs (step s x)) c = Some t /\ unseen c (step s x).
Proof.
  intros N U W. assert (L : c < length (tabs s)) by (apply nth_error_Some; congruence).
  destruct x as [u|d|p r b z|o k i j v|o k m|o k o' k'|o p|o]; cbn [RtabModel.step].
  - assert (N1 : nth_error (tabs s ++ [u]) c = Some t) by (apply app_old; exact N).
    unfold from_cpp. cbn [RtabModel.tabs]. rewrite nth_error_app2 by lia. rewrite Nat.sub_diag. cbn [nth_error option_map].
    split; [exact N1|]. apply (unseen_add c (mkS A (tabs s ++ [u]) (bufs s) (objs s))); [exact U|]. intros k k' E. cbn in E. injection E as E _. lia.
  - unfold from_cpp. destruct (nth_error (tabs s) d) as [u|]; cbn [option_map]; [|split; assumption].
    split; [exact N|]. apply (unseen_add c s); [exact U|]. intros k k' E. cbn in E. injection E as E _. apply W. exact E.
  - split; [exact N|]. apply (unseen_add c (mkS A (tabs s) (bufs s ++ [r; b; z]) (objs s))); [exact U|]. intros k k'. destruct k; cbn; discriminate.
  - destruct (nth_error (objs s) o) as [q|] eqn:M; [|split; assumption]. destruct (p_ref A q k) as [n|d e] eqn:E; cbn [write].
    + split; [exact N|exact U].
    + split; [|exact U]. cbn. rewrite set_nth_spec. destruct (Nat.eqb c d) eqn:Q; [|exact N]. apply Nat.eqb_eq in Q. subst d. destruct (U o q k e M E).
  - split; [exact N|]. apply (unseen_seto c s (mkS A (tabs s) (bufs s ++ [m]) (objs s))); [exact U|reflexivity|].
    intros q j k' M. cbn. unfold setk. destruct (comp_eqb j k); [discriminate|exact (U o q j k' M)].
  - destruct (nth_error (objs s) o') as [q'|] eqn:M'; [|split; assumption]. split; [exact N|]. apply (unseen_seto c s s); [exact U|reflexivity|].
    intros q j e M. cbn. unfold setk. destruct (comp_eqb j k); [exact (U o' q' k' e M')|exact (U o q j e M)].
  - split; [exact N|]. apply (unseen_seto c s s); [exact U|reflexivity|]. intros q j e M. exact (U o q j e M).
  - destruct (nth_error (objs s) o) as [q|]; [|split; assumption]. destruct (to_cpp s q) as [[d s1]|] eqn:F; [|split; assumption].
    apply to_cpp_cases in F. destruct F as [[-> _]|(_ & ? & ? & ? & ? & _ & _ & _ & _ & ->)]; [split; assumption|].
    split; [cbn; apply app_old; exact N|exact U].
Qed.
Lemma unlinked s t i k c s' p r b z h :
  (forall o u j e m, nth_error (objs s) o = Some u -> p_ref A u j = View e m -> e < length (tabs s)) ->
  p_ref A t k = Own i -> to_cpp s t = Some (c, s') -> holds A s' c p r b z -> (forall x, In x h -> ~ wraps c x) ->
  holds A (fold_left step h s') c p r b z.
Proof.
  intros V E H Ho W.
  assert (U : unseen c s').
  { apply to_cpp_cases in H. destruct H as [(-> & k1 & k2 & k3 & V1 & V2 & V3)|(-> & q' & r' & b' & z' & Q' & R1' & R2' & R3' & ->)].
    - destruct k; congruence.
    - intros o u j m N X. cbn in N. specialize (V o u j _ m N X). lia. }
  destruct Ho as (u & N & Rest).
  assert (G : nth_error (tabs (fold_left step h s')) c = Some u).
  { clear H. revert s' U N W. induction h as [|x h IH]; intros s' U N W; [exact N|]. cbn.
    destruct (step_unseen c s' x u N U (W x (or_introl eq_refl))) as [N1 U1]. apply IH; [exact U1|exact N1|]. intros y Y. apply W. right. exact Y. }
  exists u. split; [exact G|exact Rest].
Qed.
(** Every view belongs to a table, whatever the program did *)
Definition valid (s : state) : Prop := forall o u j e m, nth_error (objs s) o = Some u -> p_ref A u j = View e m -> e < length (tabs s).
Lemma valid_step s x : valid s -> valid (step s x).
Proof.
  intros V. destruct x as [u|d|p r b z|o k i j v|o k m|o k o' k'|o p|o]; cbn [RtabModel.step].
  - unfold from_cpp. cbn [RtabModel.tabs]. rewrite nth_error_app2 by lia. rewrite Nat.sub_diag. cbn [nth_error option_map].
    intros o q j e m N X. cbn in N |- *. rewrite app_length. cbn. apply app_inv in N. destruct N as [N|[_ ->]]; [specialize (V o q j e m N X); lia|]. cbn in X. injection X as <- _. lia.
  - unfold from_cpp. destruct (nth_error (tabs s) d) as [u|] eqn:M; cbn [option_map]; [|exact V].
    intros o q j e m N X. cbn in N |- *. apply app_inv in N. destruct N as [N|[_ ->]]; [exact (V o q j e m N X)|]. cbn in X. injection X as <- _. apply nth_error_Some. congruence.
  - intros o q j e m N X. cbn in N |- *. apply app_inv in N. destruct N as [N|[_ ->]]; [exact (V o q j e m N X)|]. destruct j; discriminate.
  - destruct (nth_error (objs s) o) as [q|]; [|exact V]. intros a u n e m N X. destruct (p_ref A q k); cbn in N |- *; [|rewrite set_nth_len]; exact (V a u n e m N X).
  - intros a u n e w N X. cbn in N |- *. rewrite set_nth_spec in N. destruct (Nat.eqb a o); [|exact (V a u n e w N X)].
    destruct (nth_error (objs s) a) as [q|] eqn:M; [|discriminate]. cbn in N. injection N as <-. cbn in X. unfold setk in X. destruct (comp_eqb n k); [discriminate|exact (V a q n e w M X)].
  - destruct (nth_error (objs s) o') as [q'|] eqn:M'; [|exact V]. intros a u n e w N X. cbn in N |- *. rewrite set_nth_spec in N. destruct (Nat.eqb a o); [|exact (V a u n e w N X)].
    destruct (nth_error (objs s) a) as [q|] eqn:M; [|discriminate]. cbn in N. injection N as <-. cbn in X. unfold setk in X. destruct (comp_eqb n k); [exact (V o' q' k' e w M' X)|exact (V a q n e w M X)].
  - intros a u n e w N X. cbn in N |- *. rewrite set_nth_spec in N. destruct (Nat.eqb a o); [|exact (V a u n e w N X)].
    destruct (nth_error (objs s) a) as [q|] eqn:M; [|discriminate]. cbn in N. injection N as <-. exact (V a q n e w M X).
  - destruct (nth_error (objs s) o) as [q|]; [|exact V]. destruct (to_cpp s q) as [[d s1]|] eqn:F; [|exact V].
    apply to_cpp_cases in F. destruct F as [[-> _]|(_ & ? & ? & ? & ? & _ & _ & _ & _ & ->)]; [exact V|].
    intros a u n e w N X. cbn in N |- *. rewrite app_length. specialize (V a u n e w N X). lia.
Qed.
Lemma valid_run h s : valid s -> valid (fold_left step h s).
Proof. revert s. induction h as [|x h IH]; intros s V; [exact V|]. cbn. apply IH, valid_step, V. Qed.
Lemma unlinked_run h0 t i k c s' p r b z h : let s := run A of_int h0 in
  p_ref A t k = Own i -> to_cpp s t = Some (c, s') -> holds A s' c p r b z -> (forall x, In x h -> ~ wraps c x) ->
  holds A (fold_left step h s') c p r b z.
Proof.
  intros s. apply unlinked. apply (valid_run h0). intros o u j e m N. cbn in N. destruct o; discriminate.
Qed.
End P.
