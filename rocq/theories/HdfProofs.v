(** Proofs about the HDF5 file. *)
From Coq Require Import ZArith List Bool String Lia.
From Verif Require Import HdfModel HdfData HdfSpec.
Import ListNotations.
Open Scope string_scope.
Open Scope list_scope.

Fixpoint mem (n : string) (l : list string) : bool := match l with [] => false | m :: r => String.eqb n m || mem n r end.
Fixpoint nodupb (l : list string) : bool := match l with [] => true | n :: r => negb (mem n r) && nodupb r end.
Lemma mem_in n l : mem n l = true <-> In n l.
Proof.
  induction l as [|m r IH]; cbn; [split; [discriminate|tauto]|]. rewrite orb_true_iff, String.eqb_eq, IH. split; intros [H|H]; auto.
Qed.
Lemma nodupb_ok l : nodupb l = true -> NoDup l.
Proof.
  induction l as [|n r IH]; cbn; intros H; [constructor|]. apply andb_true_iff in H. destruct H as [H1 H2]. constructor; [|apply IH; exact H2].
  intros I. apply mem_in in I. rewrite I in H1. discriminate.
Qed.
Definition sub (a b : list string) : bool := forallb (fun n => mem n b) a.
Lemma sub_ok a b : sub a b = true -> forall n, In n a -> In n b.
Proof. unfold sub. rewrite forallb_forall. intros H n I. apply mem_in, H, I. Qed.

Section P.
Variable A : Type.
Variable zero : A.
Variable stod : string -> A.
Notation obj := (obj A). Notation file := (file A). Notation find := (find A). Notation exists_ := (exists_ A).
Notation exec := (exec A zero stod).

Definition entries (g : string) (x : obj) (l : list string) : file := map (fun n => ((g, n), x n)) l.
Lemma find_app f1 f2 g n : find (f1 ++ f2) g n = match find f1 g n with Some v => Some v | None => find f2 g n end.
Proof. induction f1 as [|[[g' n'] v] r IH]; cbn; [reflexivity|]. destruct (String.eqb g g' && String.eqb n n'); [reflexivity|exact IH]. Qed.
Lemma find_entries g x l n : In n l -> find (entries g x l) g n = Some (x n).
Proof.
  induction l as [|m r IH]; cbn; [tauto|]. intros I. rewrite String.eqb_refl. cbn [andb]. destruct (String.eqb n m) eqn:E; [apply String.eqb_eq in E; congruence|].
  apply IH. destruct I as [->|I]; [rewrite String.eqb_refl in E; discriminate|exact I].
Qed.
Lemma find_entries_no g x l n : ~ In n l -> find (entries g x l) g n = None.
Proof.
  induction l as [|m r IH]; cbn; [reflexivity|]. intros I. rewrite String.eqb_refl. cbn [andb]. destruct (String.eqb n m) eqn:E; [apply String.eqb_eq in E; destruct I; auto|].
  apply IH. tauto.
Qed.
Lemma find_other g g' x l n : g <> g' -> find (entries g' x l) g n = None.
Proof. intros D. induction l as [|m r IH]; cbn; [reflexivity|]. destruct (String.eqb g g') eqn:E; [apply String.eqb_eq in E; contradiction|]. exact IH. Qed.

Lemma write_all_ok g x f l : (forall n, find f g n = None) -> NoDup l -> (forall n, In n l -> forall s r, x n <> VStrs A (s :: r)) ->
  forall done, (forall n, In n l -> ~ In n done) ->
  write_all A g x (f ++ entries g x done) l = Some (f ++ entries g x (done ++ l))%list.
Proof.
  intros F. induction l as [|n r IH]; intros ND S done D; cbn [write_all]; [rewrite app_nil_r; reflexivity|].
  inversion ND as [|? ? NI ND']; subst.
  assert (W : write A g x (f ++ entries g x done) n = Some (f ++ entries g x (done ++ [n]))%list).
  { unfold write, HdfModel.exists_. rewrite find_app, F, find_entries_no by (apply D; left; reflexivity).
    unfold entries. rewrite map_app, app_assoc. cbn [map]. specialize (S n (or_introl eq_refl)). destruct (x n) as [| | | | | |[|s q]|] eqn:E; try reflexivity. destruct (S s q eq_refl). }
  rewrite W. rewrite IH.
  - rewrite <- app_assoc. reflexivity.
  - exact ND'.
  - intros m I. apply S. right. exact I.
  - intros m I J. apply in_app_iff in J. destruct J as [J|[->|[]]]; [exact (D m (or_intror I) J)|contradiction].
Qed.
Definition groups_of (f : file) (gs : list string) : Prop := forall g n v, find f g n = Some v -> In g gs.
Lemma save_ok ps x : NoDup (map key ps) -> (forall p, In p ps -> NoDup (written p)) ->
  (forall p n, In p ps -> In n (written p) -> forall s r, x (key p) n <> VStrs A (s :: r)) ->
  forall f gs, groups_of f gs -> (forall p, In p ps -> ~ In (key p) gs) ->
  exists f', save A ps x f gs = Some f' /\ (forall g n v, find f g n = Some v -> find f' g n = Some v) /\
    forall p n, In p ps -> In n (written p) -> find f' (key p) n = Some (x (key p) n).
Proof.
  induction ps as [|p r IH]; intros NK NW S f gs G D; cbn [save].
  - exists f. split; [reflexivity|]. split; [auto|]. intros p n [].
  - cbn in NK. inversion NK as [|? ? NI NK']; subst.
    assert (Q : existsb (String.eqb (key p)) gs = false).
    { destruct (existsb (String.eqb (key p)) gs) eqn:E; [|reflexivity]. apply existsb_exists in E. destruct E as (g & I & E). apply String.eqb_eq in E. subst g. destruct (D p (or_introl eq_refl) I). }
    rewrite Q.
    assert (FN : forall n, find f (key p) n = None).
    { intros n. destruct (find f (key p) n) as [v|] eqn:E; [|reflexivity]. destruct (D p (or_introl eq_refl)). exact (G _ _ _ E). }
    pose proof (write_all_ok (key p) (x (key p)) f (written p) FN (NW p (or_introl eq_refl)) (fun n I => S p n (or_introl eq_refl) I) [] (fun n _ F => F)) as W.
    cbn [entries map app] in W. rewrite app_nil_r in W. rewrite W.
    destruct (IH NK' (fun q I => NW q (or_intror I)) (fun q n I => S q n (or_intror I)) (f ++ entries (key p) (x (key p)) (written p))%list (key p :: gs)) as (f' & SV & KP & AL).
    + intros g n v E. rewrite find_app in E. destruct (find f g n) as [u|] eqn:E1; [right; exact (G _ _ _ E1)|].
      destruct (string_dec g (key p)) as [->|NE]; [left; reflexivity|]. rewrite find_other in E by exact NE. discriminate.
    + intros q I [E|J]; [apply NI; rewrite E; apply in_map; exact I|exact (D q (or_intror I) J)].
    + exists f'. split; [exact SV|]. split.
      * intros g n v E. apply KP. rewrite find_app, E. reflexivity.
      * intros q n [<-|I] J; [|exact (AL q n I J)]. apply KP. rewrite find_app, FN. apply find_entries. exact J.
Qed.

(** ** Loading *)
Definition targets (i : instr) : list string :=
  match i with
  | Rd n | RdC n _ | RdZ n _ | T2 n _ | T2o n _ | T2p n _ _ => [n] | RdVersion => ["version_"] | RdExt => ["nextcur"; "extcur"] | RdHalf l => map fst l
  end.
Definition check (W done : list string) (i : instr) : bool :=
  match i with
  | Rd n | RdC n _ | RdZ n _ => mem n W
  | RdVersion => mem "version_" W
  | RdExt => mem "nextcur" W && mem "extcur" W && mem "lfreeb" done
  | RdHalf l => mem "iotas" W && sub (map fst l) W
  | T2 n m | T2o n m => String.eqb n m && mem n W && mem "ns" done && mem "mnmax" done && mem "mnmax_nyq" done
  | T2p n m s => String.eqb n m && mem n W && mem "ns" done && mem s done
  end.
Fixpoint check_all (W done : list string) (p : list instr) : option (list string) :=
  match p with [] => Some done | i :: r => if check W done i then check_all W (targets i ++ done) r else None end.
(** What the special statements need of the data *)
Definition special (x : obj) (i : instr) : Prop :=
  match i with
  | RdExt => currents_ok A x
  | T2 n _ | T2o n _ => t2 A x (x n) = x n
  | T2p n _ s => t2p A zero x s (x n) = x n
  | _ => True
  end.
Section One.
Variables (g : string) (f : file) (x : obj) (W : list string).
Hypothesis HF : forall n, In n W -> find f g n = Some (x n).
Lemma ex n : In n W -> exists_ f g n = true.
Proof. intros I. unfold HdfModel.exists_. rewrite (HF n I). reflexivity. Qed.
Lemma same_set l y n : same A l x y -> same A (n :: l) x (set A y n (x n)).
Proof.
  intros S m I. unfold set. destruct (String.eqb m n) eqn:E; [apply String.eqb_eq in E; congruence|]. apply S. destruct I as [<-|I]; [rewrite String.eqb_refl in E; discriminate|exact I].
Qed.
Lemma frame_set (y : obj) n v m : m <> n -> set A y n v m = y m.
Proof. intros D. unfold set. destruct (String.eqb m n) eqn:E; [apply String.eqb_eq in E; contradiction|reflexivity]. Qed.
Lemma rd_ok l y n : In n W -> same A l x y -> exists y', rd A g f y n n = Some y' /\ same A (n :: l) x y' /\ forall m, m <> n -> y' m = y m.
Proof.
  intros I S. unfold rd. rewrite (HF n I). eexists. split; [reflexivity|]. split; [apply same_set; exact S|]. intros m D. apply frame_set. exact D.
Qed.
Lemma exec_ok done y i : same A done x y -> check W done i = true -> special x i ->
  exists y', exec g f y i = Some y' /\ same A (targets i ++ done) x y' /\ forall m, ~ In m (targets i) -> y' m = y m.
Proof.
  intros S C P.
  assert (ONE : forall n, In n W -> exists y', rd A g f y n n = Some y' /\ same A ([n] ++ done) x y' /\ forall m, ~ In m [n] -> y' m = y m).
  { intros n I. destruct (rd_ok done y n I S) as (y' & E & K & F). exists y'. split; [exact E|]. split; [exact K|]. intros m D. apply F. intros ->. apply D. left; reflexivity. }
  assert (SET : forall n, exists y', Some (set A y n (x n)) = Some y' /\ same A ([n] ++ done) x y' /\ forall m, ~ In m [n] -> y' m = y m).
  { intros n. eexists. split; [reflexivity|]. split; [apply same_set; exact S|]. intros m D. apply frame_set. intros ->. apply D. left; reflexivity. }
  destruct i as [n|n old|n like| | |l|n m|n m|n m s]; cbn [check targets special HdfModel.exec] in *.
  - apply mem_in in C. exact (ONE n C).
  - apply mem_in in C. rewrite (ex n C). exact (ONE n C).
  - apply mem_in in C. rewrite (ex n C). exact (ONE n C).
  - apply mem_in in C. rewrite (ex _ C). exact (ONE _ C).
  - apply andb_true_iff in C. destruct C as [C C3]. apply andb_true_iff in C. destruct C as [C1 C2]. apply mem_in in C1, C2, C3.
    rewrite (S _ C3). destruct P as [P|(P & P1 & P2)]; rewrite P.
    + destruct (rd_ok done y _ C1 S) as (y1 & E1 & K1 & F1). rewrite E1. destruct (rd_ok _ y1 _ C2 K1) as (y2 & E2 & K2 & F2). rewrite E2.
      eexists. split; [reflexivity|]. split; [intros m I; apply K2; cbn in *; tauto|]. intros m D. cbn in D. rewrite F2, F1; auto.
    + rewrite <- P1, <- P2. eexists. split; [reflexivity|]. split; [intros m I; apply (same_set _ _ "extcur" (same_set _ _ "nextcur" S)); cbn in *; tauto|].
      intros m D. cbn in D. rewrite !frame_set; auto.
  - apply andb_true_iff in C. destruct C as [C1 C2]. apply mem_in in C1. rewrite (ex _ C1). pose proof (sub_ok _ _ C2) as L. clear C1 C2 P ONE SET.
    revert y S. assert (G : forall dn y, same A dn x y -> exists y', fold_o A (fun y p => rd A g f y (fst p) (fst p)) l y = Some y' /\ same A (map fst l ++ dn) x y' /\ forall m, ~ In m (map fst l) -> y' m = y m).
    { induction l as [|[n o] r IH]; intros dn y S; cbn [fold_o fst map].
      - exists y. repeat split; auto.
      - destruct (rd_ok dn y n (L n (or_introl eq_refl)) S) as (y1 & E1 & K1 & F1). rewrite E1.
        destruct (IH (fun q I => L q (or_intror I)) (n :: dn) y1 K1) as (y2 & E2 & K2 & F2). exists y2. split; [exact E2|]. split.
        + intros q I. apply K2. cbn in I. apply in_app_iff. destruct I as [<-|I]; [right; left; reflexivity|]. apply in_app_iff in I. destruct I; [left|right; right]; assumption.
        + intros q D. cbn in D. rewrite F2, F1; auto. }
    exact (G done).
  - apply andb_true_iff in C. destruct C as [C C4]. apply andb_true_iff in C. destruct C as [C C3]. apply andb_true_iff in C. destruct C as [C C2]. apply andb_true_iff in C. destruct C as [C0 C1].
    apply String.eqb_eq in C0. subst m. apply mem_in in C1, C2, C3, C4. rewrite (HF n C1).
    assert (T : t2 A y (x n) = x n) by (unfold t2 in *; rewrite (S _ C2), (S _ C3), (S _ C4); exact P). rewrite T. exact (SET n).
  - apply andb_true_iff in C. destruct C as [C C4]. apply andb_true_iff in C. destruct C as [C C3]. apply andb_true_iff in C. destruct C as [C C2]. apply andb_true_iff in C. destruct C as [C0 C1].
    apply String.eqb_eq in C0. subst m. apply mem_in in C1, C2, C3, C4. rewrite (ex n C1), (HF n C1).
    assert (T : t2 A y (x n) = x n) by (unfold t2 in *; rewrite (S _ C2), (S _ C3), (S _ C4); exact P). rewrite T. exact (SET n).
  - apply andb_true_iff in C. destruct C as [C C3]. apply andb_true_iff in C. destruct C as [C C2]. apply andb_true_iff in C. destruct C as [C0 C1].
    apply String.eqb_eq in C0. subst m. apply mem_in in C1, C2, C3. rewrite (HF n C1).
    assert (T : t2p A zero y s (x n) = x n) by (unfold t2p in *; rewrite (S _ C2), (S _ C3); exact P). rewrite T. exact (SET n).
Qed.
Lemma load_ok p : forall done y fin, same A done x y -> check_all W done p = Some fin -> (forall i, In i p -> special x i) ->
  exists y', load_into A zero stod g p f y = Some y' /\ same A fin x y' /\ forall m, (forall i, In i p -> ~ In m (targets i)) -> y' m = y m.
Proof.
  induction p as [|i r IH]; intros done y fin S C P; cbn [check_all] in C.
  - injection C as <-. exists y. repeat split; auto.
  - destruct (check W done i) eqn:Q; [|discriminate]. destruct (exec_ok done y i S Q (P i (or_introl eq_refl))) as (y1 & E1 & K1 & F1).
    destruct (IH _ y1 fin K1 C (fun j I => P j (or_intror I))) as (y2 & E2 & K2 & F2). exists y2. split; [|split; [exact K2|]].
    + unfold load_into in *. cbn [fold_o]. rewrite E1. exact E2.
    + intros m D. rewrite F2 by (intros j I; apply D; right; exact I). apply F1. apply D. left; reflexivity.
Qed.
End One.

(** ** The matrices of the wout part *)
Lemma t2_id w ns mn mnq n : shaped A w ns mn mnq -> mn <> ns -> mnq <> ns -> In n matrices -> t2 A w (w n) = w n.
Proof.
  intros [E1 E2 E3 Hp M] D1 D2 I. destruct (M n I) as [(d & ->)|(r & d & -> & R)]; unfold t2; rewrite E1; cbn [int_of].
  - destruct (Z.eqb_spec 0 ns); [lia|reflexivity].
  - destruct (Z.eqb_spec r ns); [destruct R; subst; contradiction|reflexivity].
Qed.
Lemma t2p_id w ns mn mnq n s : shaped A w ns mn mnq -> mn <> ns -> mnq <> ns -> In n matrices -> s = "mnmax" \/ s = "mnmax_nyq" -> t2p A zero w s (w n) = w n.
Proof.
  intros [E1 E2 E3 Hp M] D1 D2 I Hs.
  assert (Es : int_of A (w s) <> ns) by (destruct Hs as [->| ->]; [rewrite E2|rewrite E3]; exact D1 || exact D2).
  destruct (M n I) as [(d & ->)|(r & d & -> & R)]; unfold t2p; rewrite E1; cbn [int_of].
  - destruct (Z.eqb_spec 0 (ns - 1)); [lia|]. destruct (Z.eqb_spec 0 ns); [lia|]. reflexivity.
  - destruct (Z.eqb_spec ns (int_of A (w s))); [congruence|]. rewrite !andb_false_r. reflexivity.
Qed.

(** ** All parts *)
Definition plain (i : instr) : bool := match i with Rd _ | RdC _ _ | RdZ _ _ | RdVersion | RdHalf _ => true | _ => false end.
Definition special_names (i : instr) : bool :=
  match i with T2 n _ | T2o n _ => mem n matrices | T2p n _ s => mem n matrices && mem s ["mnmax"; "mnmax_nyq"] | _ => true end.
Definition covers (p : part) : bool := match check_all (written p) [] (program p) with Some fin => sub (written p) fin | None => false end.
Lemma parts_ok : nodupb (map key parts) = true /\ forallb (fun p => nodupb (written p)) parts = true /\ forallb covers parts = true /\
  forallb (fun p => String.eqb (key p) "/wout" || forallb plain (program p)) parts = true /\ forallb special_names (program wout_part) = true /\
  forallb (fun p => negb (String.eqb (key p) "/wout") || forallb special_names (program p)) parts = true.
Proof. repeat split; vm_compute; reflexivity. Qed.
Lemma roundtrip x y0 ns mn mnq : no_strings A x -> shaped A (x "/wout") ns mn mnq -> mn <> ns -> mnq <> ns -> currents_ok A (x "/wout") ->
  exists f, save A parts x [] [] = Some f /\
    forall p, In p parts -> exists y, load A zero stod f y0 p = Some y /\ same A (written p) (x (key p)) y /\
      forall m, (forall i, In i (program p) -> ~ In m (targets i)) -> y m = y0 (key p) m.
Proof.
  intros NS SH D1 D2 CU. destruct parts_ok as (P1 & P2 & P3 & P4 & _ & P6).
  rewrite forallb_forall in P2, P3, P4, P6.
  destruct (save_ok parts x (nodupb_ok _ P1) (fun p I => nodupb_ok _ (P2 p I)) NS [] []) as (f & SV & _ & FD).
  { intros g n v E. discriminate. } { intros p _ []. }
  exists f. split; [exact SV|]. intros p I. specialize (P3 p I). unfold covers in P3.
  destruct (check_all (written p) [] (program p)) as [fin|] eqn:C; [|discriminate].
  destruct (load_ok (key p) f (x (key p)) (written p) (fun n J => FD p n I J) (program p) [] (y0 (key p)) fin) as (y & E & K & FR).
  - intros n [].
  - exact C.
  - intros i J. specialize (P4 p I). specialize (P6 p I). destruct (String.eqb (key p) "/wout") eqn:Q.
    + apply String.eqb_eq in Q. rewrite Q. cbn in P6. rewrite forallb_forall in P6. specialize (P6 i J).
      destruct i as [n|n old|n like| | |l|n m|n m|n m s]; cbn [special special_names] in *; try exact Logic.I; [exact CU| | |].
      * apply mem_in in P6. exact (t2_id _ _ _ _ _ SH D1 D2 P6).
      * apply mem_in in P6. exact (t2_id _ _ _ _ _ SH D1 D2 P6).
      * apply andb_true_iff in P6. destruct P6 as [M1 M2]. apply mem_in in M1, M2. apply (t2p_id _ ns mn mnq); try assumption. cbn in M2. destruct M2 as [<-|[<-|[]]]; auto.
    + cbn in P4. rewrite forallb_forall in P4. specialize (P4 i J). destruct i; try discriminate; exact Logic.I.
  - exists y. split; [exact E|]. split; [intros n J; apply K; exact (sub_ok _ _ P3 n J)|exact FR].
Qed.
(** Members and the file *)
Lemma members_ok : forallb (fun pm => if String.eqb (key (fst pm)) "/wout" then sub (snd pm) (written (fst pm) ++ lost) && forallb (fun i => forallb (fun n => negb (mem n lost)) (targets i)) (program (fst pm))
    else sub (snd pm) (written (fst pm))) (combine parts members_of) = true.
Proof. vm_compute. reflexivity. Qed.
Lemma roundtrip_members x y0 ns mn mnq : no_strings A x -> shaped A (x "/wout") ns mn mnq -> mn <> ns -> mnq <> ns -> currents_ok A (x "/wout") ->
  exists f, save A parts x [] [] = Some f /\
    forall p ms, In (p, ms) (combine parts members_of) -> exists y, load A zero stod f y0 p = Some y /\
      (key p <> "/wout" -> same A ms (x (key p)) y) /\
      (key p = "/wout" -> (forall n, In n ms -> ~ In n lost -> y n = x (key p) n) /\ (forall n, In n lost -> y n = y0 (key p) n)).
Proof.
  intros NS SH D1 D2 CU. destruct (roundtrip x y0 ns mn mnq NS SH D1 D2 CU) as (f & SV & L). exists f. split; [exact SV|].
  intros p ms I. destruct (L p (in_combine_l _ _ _ _ I)) as (y & E & K & F). exists y. split; [exact E|].
  pose proof members_ok as M. rewrite forallb_forall in M. specialize (M (p, ms) I). cbn [fst snd] in M.
  destruct (String.eqb (key p) "/wout") eqn:Q.
  - apply String.eqb_eq in Q. split; [contradiction|]. intros _. apply andb_true_iff in M. destruct M as [M1 M2]. pose proof (sub_ok _ _ M1) as M3. split.
    + intros n J NL. specialize (M3 n J). apply in_app_iff in M3. destruct M3 as [M3|M3]; [exact (K n M3)|contradiction].
    + intros n J. apply F. intros i Ii T. rewrite forallb_forall in M2. specialize (M2 i Ii). rewrite forallb_forall in M2. specialize (M2 n T). apply mem_in in J. rewrite J in M2. discriminate.
  - assert (NQ : key p <> "/wout") by (intros E'; rewrite E', String.eqb_refl in Q; discriminate). split; [|contradiction].
    intros _ n J. apply K. exact (sub_ok _ _ M n J).
Qed.
End P.
