(** Proofs about the input in the HDF5 file. *)
From Coq Require Import ZArith List Bool String Lia.
From Verif Require Import HdfModel HdfProofs IhdfModel IhdfSpec.
Import ListNotations.
Open Scope string_scope.
Open Scope list_scope.

Section P.
Variable A : Type.
Variable debug : bool.

(** The file as a list, [a] for the entries of the optional arrays *)
Definition entry (g : string -> value A) (m : method) (s : style) (a : string -> list (string * value A)) (w : wstmt) : file A :=
  match w with
  | W n => [(n, g n)] | WMethod => [("free_boundary_method", VStr A (method_name m))]
  | WStyle => [("iteration_style", VStr A (style_name s))] | WAsym n => a n
  end.
Definition contents g m s a : file A := flat_map (entry g m s a) wprog.

Lemma write_sym x : get A x "lasym" = VBool A false -> write_to A debug x = Ok (contents (get A x) (meth A x) (sty A x) (fun _ => [])).
Proof.
  intros L. assert (E : lasym A x = false) by (unfold lasym; rewrite L; reflexivity).
  unfold write_to, wprog, contents. 
  cbv -[get lasym meth sty method_name style_name coefficient]. rewrite E. reflexivity.
Qed.

Section Load.
Variables (g : string -> value A) (m : method) (s : style) (y0 : input A) (mpol ntor rr rc zr zc : Z) (d e : Z -> Z -> A).
Hypothesis HL : g "lasym" = VBool A false.
Hypothesis HM : g "mpol" = VInt A mpol.
Hypothesis HN : g "ntor" = VInt A ntor.
Hypothesis HR : g "rbc" = VMat A rr rc d.
Hypothesis HZ : g "zbs" = VMat A zr zc e.
(** The same function with these five values visible to computation *)
Definition g5 (n : string) : value A :=
  if String.eqb n "lasym" then VBool A false else if String.eqb n "mpol" then VInt A mpol else if String.eqb n "ntor" then VInt A ntor
  else if String.eqb n "rbc" then VMat A rr rc d else if String.eqb n "zbs" then VMat A zr zc e else g n.
Lemma g5_eq n : g5 n = g n.
Proof.
  unfold g5. repeat match goal with |- context [String.eqb n ?k] => let E := fresh "E" in destruct (String.eqb n k) eqn:E; [apply String.eqb_eq in E; subst n; auto|] end.
  reflexivity.
Qed.
Lemma contents_ext a : contents g m s a = contents g5 m s a.
Proof.
  unfold contents. induction wprog as [|w r IH]; [reflexivity|]. cbn [flat_map]. rewrite IH. f_equal. destruct w; cbn [entry]; rewrite ?g5_eq; reflexivity.
Qed.
Lemma check_ok (y : input A) v : get A y "mpol" = VInt A mpol -> get A y "ntor" = VInt A ntor -> (exists q, v = VMat A mpol (2 * ntor + 1) q) -> check A y v = Ok v.
Proof. intros H1 H2 [q ->]. unfold check. rewrite H1, H2. cbn [int]. rewrite !Z.eqb_refl. reflexivity. Qed.

Lemma run_app {S I} (step : S -> I -> out S) l1 l2 t : run step (l1 ++ l2) t = bind (run step l1 t) (run step l2).
Proof. revert t. induction l1 as [|i r IH]; intros t; [reflexivity|]. cbn. destruct (step t i); cbn; auto. Qed.
Definition early : list rstmt := firstn 46 rprog.
Definition final : list rstmt := [RMat "rbc"; RMat "zbs"; RAsymMat "rbs"; RAsymMat "zbc"].
Lemma rprog_split : rprog = early ++ final.
Proof. reflexivity. Qed.
Definition names (l : list rstmt) : list string := flat_map (fun r => match r with R n | RKeep n | RFalse n => [n] | _ => [] end) l.
(** The object after the scalars and vectors *)
Definition mid (m0 : method) (s0 : style) : input A := mkIn A (base A y0) (rev (map (fun n => (n, g5 n)) (names early)) ++ upd A y0) m0 s0 (opt A y0).
Definition old_value (n : string) : list (string * value A) :=
  if existsb (String.eqb n) later then if String.eqb n "return_outputs_even_if_not_converged" then [(n, VBool A false)] else [] else [(n, g5 n)].
Definition mid_old (m0 : method) : input A := mkIn A (base A y0) (rev (flat_map old_value (names early)) ++ upd A y0) m0 VMEC_8_52 (opt A y0).

Lemma early_new : run (rstep A (contents g5 m s (fun _ => []))) early y0 = Ok (mid m s).
Proof. clear. destruct m, s; vm_compute; reflexivity. Qed.
Lemma early_old : run (rstep A (older A (contents g5 m s (fun _ => [])))) early y0 = Ok (mid_old m).
Proof. clear. destruct m, s; vm_compute; reflexivity. Qed.

Lemma finish f y : rr = mpol -> (rc = 2 * ntor + 1)%Z -> zr = mpol -> (zc = 2 * ntor + 1)%Z -> look A f "rbc" = Some (VMat A rr rc d) -> look A f "zbs" = Some (VMat A zr zc e) ->
  get A y "lasym" = VBool A false -> get A y "mpol" = VInt A mpol -> get A y "ntor" = VInt A ntor ->
  run (rstep A f) final y = Ok (put A (put A y "rbc" (VMat A rr rc d)) "zbs" (VMat A zr zc e)).
Proof.
  intros E1 E2 E3 E4 F1 F2 L M N. unfold final. cbn [run bind rstep]. unfold read_mat, read. rewrite F1. cbn [bind].
  rewrite (check_ok y _ M N) by (subst rr rc zr zc; eexists; reflexivity). cbn [bind]. rewrite F2. cbn [bind].
  rewrite (check_ok (put A y "rbc" _)); [|exact M|exact N|subst rr rc zr zc; eexists; reflexivity]. cbn [bind].
  assert (E : forall v w, lasym A (put A (put A y "rbc" v) "zbs" w) = false).
  { intros v w. unfold lasym. change (get A (put A (put A y "rbc" v) "zbs" w) "lasym") with (get A y "lasym"). rewrite L. reflexivity. }
  rewrite !E. cbn [bind]. rewrite !E. reflexivity.
Qed.
Lemma check_bad (y : input A) r c q : get A y "mpol" = VInt A mpol -> get A y "ntor" = VInt A ntor -> ~ (r = mpol /\ c = 2 * ntor + 1)%Z -> check A y (VMat A r c q) = Status.
Proof.
  intros H1 H2 H. unfold check. rewrite H1, H2. cbn [int]. destruct (Z.eqb_spec r mpol); [|reflexivity]. destruct (Z.eqb_spec c (2 * ntor + 1)); [tauto|reflexivity].
Qed.
Lemma finish_bad f y : look A f "rbc" = Some (VMat A rr rc d) -> look A f "zbs" = Some (VMat A zr zc e) ->
  get A y "mpol" = VInt A mpol -> get A y "ntor" = VInt A ntor -> ~ (rr = mpol /\ rc = 2 * ntor + 1 /\ zr = mpol /\ zc = 2 * ntor + 1)%Z ->
  run (rstep A f) final y = Status.
Proof.
  intros F1 F2 M N B. unfold final. cbn [run bind rstep]. unfold read_mat, read. rewrite F1. cbn [bind].
  destruct (Z.eq_dec rr mpol) as [e1|n1]; [|rewrite check_bad; [reflexivity|exact M|exact N|tauto]].
  destruct (Z.eq_dec rc (2 * ntor + 1)) as [e2|n2]; [|rewrite check_bad; [reflexivity|exact M|exact N|tauto]].
  rewrite (check_ok y _ M N) by (subst rr rc; eexists; reflexivity). cbn [bind]. rewrite F2. cbn [bind].
  rewrite check_bad; [reflexivity|exact M|exact N|tauto].
Qed.
Lemma load_bad : ~ (rr = mpol /\ rc = 2 * ntor + 1 /\ zr = mpol /\ zc = 2 * ntor + 1)%Z -> load_into A (contents g m s (fun _ => [])) y0 = Status.
Proof using HL HM HN HR HZ.
  intros B. rewrite contents_ext. unfold load_into. rewrite rprog_split, run_app, early_new. cbn [bind]. apply finish_bad; try reflexivity. exact B.
Qed.

Section Good.
Hypothesis E1 : rr = mpol. Hypothesis E2 : (rc = 2 * ntor + 1)%Z. Hypothesis E3 : zr = mpol. Hypothesis E4 : (zc = 2 * ntor + 1)%Z.
Lemma load_new : exists y, load_into A (contents g m s (fun _ => [])) y0 = Ok y /\
  (forall n, In n members -> get A y n = g n) /\ meth A y = m /\ sty A y = s /\ opt A y = opt A y0.
Proof using HL HM HN HR HZ E1 E2 E3 E4.
  rewrite contents_ext. eexists. split; [|split; [|split; [|split]]].
  - unfold load_into. rewrite rprog_split, run_app, early_new. cbn [bind]. apply finish; first [exact E1|exact E2|exact E3|exact E4|reflexivity].
  - intros n I. rewrite <- g5_eq. unfold members in I. cbn [In] in I. repeat (destruct I as [<-|I]; [reflexivity|]). destruct I.
  - reflexivity.
  - reflexivity.
  - reflexivity.
Qed.
Lemma load_old : exists y, load_into A (older A (contents g m s (fun _ => []))) y0 = Ok y /\
  (forall n, In n members -> ~ In n later -> get A y n = g n) /\ meth A y = m /\ opt A y = opt A y0 /\ sty A y = VMEC_8_52 /\
  get A y "mpol_geometry" = get A y0 "mpol_geometry" /\ get A y "ntor_geometry" = get A y0 "ntor_geometry" /\
  get A y "return_outputs_even_if_not_converged" = VBool A false.
Proof using HL HM HN HR HZ E1 E2 E3 E4.
  rewrite contents_ext. eexists. split; [|split].
  - unfold load_into. rewrite rprog_split, run_app, early_old. cbn [bind]. apply finish; first [exact E1|exact E2|exact E3|exact E4|reflexivity].
  - intros n I J. rewrite <- g5_eq. unfold members in I. cbn [In] in I.
    repeat (destruct I as [<-|I]; [first [reflexivity | exfalso; apply J; cbn; tauto]|]). destruct I.
  - repeat split.
Qed.
End Good.
End Load.

Lemma symmetric_ok x : symmetric A x -> saved_and_loaded A debug x.
Proof.
  intros [L O (mpol & ntor & d & e & M & N & R1 & Z1)] y0 O0.
  destruct (load_new (get A x) (meth A x) (sty A x) y0 mpol ntor mpol (2 * ntor + 1)%Z mpol (2 * ntor + 1)%Z d e L M N R1 Z1 eq_refl eq_refl eq_refl eq_refl) as (y & E & G & Em & Es & Eo).
  exists (contents (get A x) (meth A x) (sty A x) (fun _ => [])), y. split; [exact (write_sym x L)|]. split; [exact E|].
  split; [exact G|]. split; [exact Em|]. split; [exact Es|]. intros n I. rewrite Eo, O0, (O n I). reflexivity.
Qed.
Lemma older_ok x y0 : symmetric A x -> exists f y, write_to A debug x = Ok f /\ load_into A (older A f) y0 = Ok y /\
  (forall n, In n members -> ~ In n later -> get A y n = get A x n) /\ meth A y = meth A x /\ opt A y = opt A y0 /\ sty A y = VMEC_8_52 /\
  get A y "mpol_geometry" = get A y0 "mpol_geometry" /\ get A y "ntor_geometry" = get A y0 "ntor_geometry" /\
  get A y "return_outputs_even_if_not_converged" = VBool A false.
Proof.
  intros [L O (mpol & ntor & d & e & M & N & R1 & Z1)].
  destruct (load_old (get A x) (meth A x) (sty A x) y0 mpol ntor mpol (2 * ntor + 1)%Z mpol (2 * ntor + 1)%Z d e L M N R1 Z1 eq_refl eq_refl eq_refl eq_refl) as (y & H).
  exists (contents (get A x) (meth A x) (sty A x) (fun _ => [])), y. split; [exact (write_sym x L)|]. exact H.
Qed.

Lemma shape_checked x y0 mpol ntor rr rc zr zc d e : get A x "lasym" = VBool A false -> get A x "mpol" = VInt A mpol -> get A x "ntor" = VInt A ntor ->
  get A x "rbc" = VMat A rr rc d -> get A x "zbs" = VMat A zr zc e -> ~ (rr = mpol /\ rc = 2 * ntor + 1 /\ zr = mpol /\ zc = 2 * ntor + 1)%Z ->
  exists f, write_to A debug x = Ok f /\ load_into A f y0 = Status.
Proof.
  intros L M N R1 Z1 B. eexists. split; [exact (write_sym x L)|]. exact (load_bad (get A x) _ _ y0 mpol ntor rr rc zr zc d e L M N R1 Z1 B).
Qed.
Definition wname (w : wstmt) : string := match w with W n | WAsym n => n | WMethod => "free_boundary_method" | WStyle => "iteration_style" end.
Lemma look_app f1 f2 n : look A (f1 ++ f2) n = match look A f1 n with Some v => Some v | None => look A f2 n end.
Proof. induction f1 as [|[k v] r IH]; cbn; [reflexivity|]. destruct (String.eqb n k); [reflexivity|exact IH]. Qed.
Lemma run_w x a l : forall f, lasym A x = true ->
  (forall n, In (WAsym n) l -> coefficient A debug (opt A x n) = Ok (VDbl A (a n)) \/ (debug = true /\ coefficient A debug (opt A x n) = Assert)) ->
  NoDup (map wname l) -> (forall w, In w l -> look A f (wname w) = None) ->
  run (wstep A debug x) l f = Ok (f ++ flat_map (entry (get A x) (meth A x) (sty A x) (fun n => [(n, VDbl A (a n))])) l) \/
  (debug = true /\ run (wstep A debug x) l f = Assert).
Proof.
  induction l as [|w r IH]; intros f L C N F; [left; cbn; rewrite app_nil_r; reflexivity|].
  cbn [map] in N. apply NoDup_cons_iff in N. destruct N as [N1 N2].
  assert (Fw := F w (or_introl eq_refl)).
  assert (S : (exists v, entry (get A x) (meth A x) (sty A x) (fun n => [(n, VDbl A (a n))]) w = [(wname w, v)] /\ wstep A debug x f w = Ok (f ++ [(wname w, v)])) \/
              (debug = true /\ wstep A debug x f w = Assert)).
  { destruct w as [n| | |n]; cbn [wname] in Fw; cbn [wstep entry wname]; unfold add.
    - left. rewrite Fw. eexists. split; reflexivity.
    - left. rewrite Fw. eexists. split; reflexivity.
    - left. rewrite Fw. eexists. split; reflexivity.
    - rewrite L. destruct (C n (or_introl eq_refl)) as [E|[D E]]; rewrite E; cbn [bind]; [left|right; auto]. rewrite Fw. eexists. split; reflexivity. }
  cbn [run flat_map]. destruct S as [(v & S1 & S2)|[D S2]]; rewrite S2; cbn [bind]; [|right; auto].
  rewrite S1. destruct (IH (f ++ [(wname w, v)])) as [E|E]; auto.
  - intros n I. apply C. right. exact I.
  - intros w' I. rewrite look_app, F by (right; exact I). cbn. destruct (String.eqb (wname w') (wname w)) eqn:Q; [|reflexivity].
    apply String.eqb_eq in Q. exfalso. apply N1. rewrite <- Q. apply in_map. exact I.
  - left. rewrite E, <- app_assoc. reflexivity.
Qed.

Lemma coefficient_asym x : asymmetric A x -> exists a, forall n, In n asym_arrays ->
  coefficient A debug (opt A x n) = Ok (VDbl A (a n)) \/ (debug = true /\ coefficient A debug (opt A x n) = Assert).
Proof.
  intros [L V M]. destruct (V "raxis_s") as (a0 & l0 & O1); [cbn; tauto|].
  exists (fun n => match opt A x n with Some (VVec _ (a :: _)) => a | Some (VMat _ _ _ d) => d 0%Z 0%Z | _ => a0 end).
  intros n I. assert (J : In n ["raxis_s"; "zaxis_c"] \/ In n ["rbs"; "zbc"]) by (unfold asym_arrays in I; cbn in *; tauto).
  destruct J as [J|J].
  - destruct (V n J) as (a & l & O). rewrite O. cbn [coefficient]. destruct debug; cbn [andb]; [|left; reflexivity].
    destruct (negb _); [right; auto|left; reflexivity].
  - destruct (M n J) as (r & c & d & O & P1 & P2). rewrite O. cbn [coefficient].
    destruct (Z.leb_spec r 0); [lia|]. destruct (Z.leb_spec c 0); [lia|].
    destruct debug; cbn [andb orb]; [|left; reflexivity]. destruct (negb _); [right; auto|left; reflexivity].
Qed.

Section LoadAsym.
Variables (g : string -> value A) (m : method) (s : style) (a : string -> A) (y0 : input A).
Definition g1 (n : string) : value A := if String.eqb n "lasym" then VBool A true else g n.
Lemma load_asym_g1 : load_into A (contents g1 m s (fun n => [(n, VDbl A (a n))])) y0 = Undef.
Proof. destruct m, s; vm_compute; reflexivity. Qed.
End LoadAsym.
Lemma load_asym g m s a y0 : g "lasym" = VBool A true -> load_into A (contents g m s (fun n => [(n, VDbl A (a n))])) y0 = Undef.
Proof.
  intros L. rewrite <- (load_asym_g1 g m s a y0). f_equal. unfold contents. induction wprog as [|w r IH]; [reflexivity|].
  cbn [flat_map]. rewrite IH. f_equal. destruct w; cbn [entry]; try reflexivity. unfold g1. destruct (String.eqb n "lasym") eqn:E; [|reflexivity].
  apply String.eqb_eq in E. subst n. rewrite L. reflexivity.
Qed.
Lemma asym_fails x y0 : asymmetric A x ->
  (debug = true /\ write_to A debug x = Assert) \/ exists f, write_to A debug x = Ok f /\ load_into A f y0 = Undef.
Proof.
  intros H. destruct (coefficient_asym x H) as [a C]. destruct (run_w x a wprog []) as [E|E].
  - unfold lasym. rewrite (as_l A x H). reflexivity.
  - intros n I. apply C. unfold wprog in I. cbn [In] in I. repeat (destruct I as [I|I]; [first [discriminate I | injection I as <-; cbn; tauto]|]). destruct I.
  - apply nodupb_ok. vm_compute. reflexivity.
  - reflexivity.
  - right. eexists. split; [exact E|]. apply load_asym. exact (as_l A x H).
  - left. exact E.
Qed.
End P.
