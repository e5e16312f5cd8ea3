(** The consistency check: absence of undefined behaviour, accepted inputs. *)
From Coq Require Import String ZArith List Bool Lia Reals Lra.
From Verif Require Import Base BaseLemmas Num IndataModel IndataSpec IndataProofs.
Import ListNotations.
Open Scope Z_scope.

Definition safe {A} (o : outcome A) : Prop := o <> Throws /\ o <> UB.
Lemma safe_ok {A} (a : A) : safe (Ok a). Proof. split; discriminate. Qed.
Lemma safe_error {A} : safe (@Error A). Proof. split; discriminate. Qed.
Lemma safe_bind {A B} (o : outcome A) (f : A -> outcome B) : safe o -> (forall a, o = Ok a -> safe (f a)) -> safe (obind o f).
Proof. destruct o; cbn; intros [H1 H2] H; [apply H; reflexivity|apply safe_error|congruence|congruence]. Qed.
Lemma safe_guard b : safe (guard b). Proof. destruct b; [apply safe_error|apply safe_ok]. Qed.
Lemma safe_need b : b = true -> safe (need b). Proof. intros ->. apply safe_ok. Qed.
Lemma safe_same_length {A B} (a : list A) (b : list B) : safe (same_length a b). Proof. apply safe_guard. Qed.
Create HintDb safe.
#[export] Hint Resolve safe_ok safe_error safe_guard safe_same_length : safe.

Lemma check_ns_safe l : forall b, safe (check_ns b l).
Proof.
  induction l as [|ns l IH]; intros b; cbn [check_ns]; [apply safe_ok|].
  destruct (3 <=? ns); [|apply safe_error]. destruct (ns <? b); [apply safe_error|apply IH].
Qed.

Section Check.
  Context {K : num}.

  Lemma rd_ok {A} (l : list A) i d : (i < length l)%nat -> rd l (Z.of_nat i) = Ok (nth i l d).
  Proof.
    intros H. unfold rd. rewrite Nat2Z.id. rewrite (nth_error_nth' l d H). rewrite (proj2 (Z.ltb_ge _ 0)) by lia. reflexivity.
  Qed.

  Lemma check_loop {A} (bad : A -> bool) (l : list A) d n : (n <= length l)%nat ->
    fold_left (fun o i => _ <- o ;; v <- rd l (Z.of_nat i) ;; guard (bad v)) (seq 0 n) (Ok tt)
    = if existsb (fun i => bad (nth i l d)) (seq 0 n) then Error else Ok tt.
  Proof.
    induction n as [|n IH]; intros H; [reflexivity|]. rewrite seq_S, fold_left_app, existsb_app, IH by lia. cbn.
    destruct (existsb _ (seq 0 n)); [reflexivity|]. cbn. rewrite (rd_ok l n d) by lia. cbn. rewrite orb_false_r.
    destruct (bad (nth n l d)); reflexivity.
  Qed.
  Lemma check_loop_safe {A} (bad : A -> bool) (l : list A) n : (n <= length l)%nat ->
    safe (fold_left (fun o i => _ <- o ;; v <- rd l (Z.of_nat i) ;; guard (bad v)) (seq 0 n) (Ok tt)).
  Proof.
    intros H. destruct n as [|n]; [apply safe_ok|]. destruct l as [|a l]; [cbn in H; lia|]. rewrite (check_loop bad _ a) by exact H.
    destruct (existsb _ _); auto with safe.
  Qed.

  Lemma check_mat_safe (x : indata K) b : int_fits (2 * ntor x + 1) = true -> safe (check_mat x b).
  Proof.
    intros H. unfold check_mat. apply safe_bind; [auto with safe|]. intros _ _. apply safe_bind; [now apply safe_need|]. auto with safe.
  Qed.

  Theorem IsConsistent_safe (x : indata K) :
    (length (ns_array x) <= length (ftol_array x))%nat -> (length (ns_array x) <= length (niter_array x))%nat ->
    (lasym x = true -> asymmetric_present x) -> ntor x < 2 ^ 30 -> safe (IsConsistent x).
  Proof.
    intros H1 H2 H3 H4. unfold IsConsistent.
    Ltac bd := apply safe_bind; [auto with safe|intros _ _].
    bd. bd. apply safe_bind; [auto with safe|]. intros u Ent. apply guard_ok in Ent. rewrite Z.ltb_ge in Ent. clear u.
    assert (F1 : int_fits (ntor x + 1) = true) by (apply int_fits_spec; unfold fits32; lia).
    assert (F2 : int_fits (2 * ntor x + 1) = true) by (apply int_fits_spec; unfold fits32; lia).
    bd. bd. bd.
    apply safe_bind; [apply check_ns_safe|intros _ _].
    apply safe_bind; [apply check_loop_safe; exact H1|intros _ _].
    apply safe_bind; [apply check_loop_safe; exact H2|intros _ _].
    do 11 (apply safe_bind; [auto with safe|intros _ _]).
    apply safe_bind; [now apply safe_need|intros _ _].
    do 2 (apply safe_bind; [auto with safe|intros _ _]).
    assert (G : forall A (o : option A), o <> None -> exists a, opt_get o = Ok a) by (intros A [a|] Hn; [exists a; reflexivity|congruence]).
    apply safe_bind; [|intros _ _].
    { destruct (lasym x); [|apply safe_bind; auto with safe].
      destruct (H3 eq_refl) as (P1 & P2 & _). destruct (G _ _ P1) as (a & ->), (G _ _ P2) as (b & ->). cbn [obind].
      apply safe_bind; auto with safe. }
    apply safe_bind; [now apply check_mat_safe|intros _ _].
    apply safe_bind; [now apply check_mat_safe|intros _ _].
    destruct (lasym x); [|apply safe_bind; auto with safe].
    destruct (H3 eq_refl) as (_ & _ & P1 & P2). destruct (G _ _ P1) as (a & ->), (G _ _ P2) as (b & ->). cbn [obind].
    apply safe_bind; [now apply check_mat_safe|intros _ _]. now apply check_mat_safe.
  Qed.

  (** What an accepted input satisfies, for any arithmetic. *)
  Theorem IsConsistent_sizes (x : indata K) : IsConsistent x = Ok tt ->
    2 <= mpol x /\ 0 <= ntor x < 2 ^ 30 /\ zlen (raxis_c x) = ntor x + 1 /\ zlen (zaxis_s x) = ntor x + 1 /\
    m_rows (rbc x) = mpol x /\ m_cols (rbc x) = 2 * ntor x + 1 /\ m_rows (zbs x) = mpol x /\ m_cols (zbs x) = 2 * ntor x + 1.
  Proof.
    intros E. unfold IsConsistent, check_mat in E.
    repeat (match type of E with obind _ _ = Ok _ => apply obind_ok in E; destruct E as (? & ? & E); cbv beta in E end).
    repeat match goal with H : obind _ _ = Ok _ |- _ => apply obind_ok in H; destruct H as (? & ? & H) end.
    repeat match goal with H : guard _ = Ok _ |- _ => apply guard_ok in H end.
    repeat match goal with H : need _ = Ok _ |- _ => apply need_ok in H; apply int_fits_spec in H; unfold fits32 in H end.
    repeat match goal with H : negb _ = false |- _ => apply negb_false_iff in H; apply Z.eqb_eq in H end.
    repeat match goal with H : (_ <? _) = false |- _ => apply Z.ltb_ge in H end.
    repeat match goal with H : (_ <=? _) = false |- _ => apply Z.leb_gt in H end.
    repeat split; try assumption; lia.
  Qed.
End Check.

(** *** Exact arithmetic. *)
Lemma existsb_seq_false (f : nat -> bool) n : existsb f (seq 0 n) = false <-> forall i, (i < n)%nat -> f i = false.
Proof.
  split.
  - intros H i Hi. destruct (f i) eqn:E; [|reflexivity]. assert (existsb f (seq 0 n) = true) by (apply existsb_exists; exists i; split; [apply in_seq; lia|exact E]). congruence.
  - intros H. destruct (existsb f (seq 0 n)) eqn:E; [|reflexivity]. apply existsb_exists in E. destruct E as (i & Hi & E). apply in_seq in Hi. rewrite H in E by lia. discriminate.
Qed.

Lemma check_ns_spec l : forall b, check_ns b l = Ok tt <->
  (forall ns, In ns l -> 3 <= ns /\ b <= ns) /\ (forall i j, (i <= j < length l)%nat -> nth i l 0 <= nth j l 0).
Proof.
  induction l as [|a l IH]; intros b; cbn [check_ns].
  - split; [intros _; split; [contradiction|cbn; intros; lia]|reflexivity].
  - destruct (Z.leb_spec 3 a) as [H3|H3].
    + destruct (Z.ltb_spec a b) as [Hb|Hb].
      * split; [discriminate|]. intros [H _]. specialize (H a (or_introl eq_refl)). lia.
      * replace (if b <? a then a else b) with a by (destruct (Z.ltb_spec b a); lia). rewrite IH. split.
        -- intros [P1 P2]. split.
           ++ intros ns [<-|Hin]; [lia|]. specialize (P1 ns Hin). lia.
           ++ intros [|i] [|j] Hij; cbn [nth length] in *; try lia.
              ** assert (In (nth j l 0) l) by (apply nth_In; lia). specialize (P1 _ H). lia.
              ** apply P2. lia.
        -- intros [P1 P2]. split.
           ++ intros ns Hin. specialize (P1 ns (or_intror Hin)). split; [lia|].
              apply In_nth with (d := 0) in Hin. destruct Hin as (k & Hk & <-). apply (P2 0%nat (S k)). cbn [length]. lia.
           ++ intros i j Hij. apply (P2 (S i) (S j)). cbn [length]. lia.
    + split; [discriminate|]. intros [H _]. specialize (H a (or_introl eq_refl)). lia.
Qed.

Lemma obind_tt_iff (o : outcome unit) {B} (f : unit -> outcome B) b P Q : (o = Ok tt <-> P) -> (P -> (f tt = Ok b <-> Q)) -> (obind o f = Ok b <-> P /\ Q).
Proof.
  intros H1 H2. split.
  - intros H. apply obind_ok in H. destruct H as ([] & E & F). apply H1 in E. split; [exact E|]. now apply (H2 E).
  - intros [p q]. rewrite (proj2 H1 p). cbn. now apply (H2 p).
Qed.
Lemma guard_iff b P : (b = false <-> P) -> (guard b = Ok tt <-> P).
Proof. intros H. rewrite <- H. destruct b; cbn; split; congruence. Qed.
Lemma need_true_iff b {B} (f : unit -> outcome B) r : b = true -> (obind (need b) f = Ok r <-> f tt = Ok r).
Proof. intros ->. reflexivity. Qed.

Lemma Rltb_false a b : Rltb a b = false <-> (b <= a)%R.
Proof. unfold Rltb. destruct (Rlt_dec a b); split; intros; try discriminate; try reflexivity; lra. Qed.
Lemma Rleb_false a b : Rleb a b = false <-> (b < a)%R.
Proof. unfold Rleb. destruct (Rle_dec a b); split; intros; try discriminate; try reflexivity; lra. Qed.
Lemma Reqb_false a b : Reqb a b = false <-> a <> b.
Proof. unfold Reqb. destruct (Req_EM_T a b); split; intros; try discriminate; try reflexivity; tauto. Qed.
Lemma Reqb_true a b : Reqb a b = true <-> a = b.
Proof. unfold Reqb. destruct (Req_EM_T a b); split; intros; try discriminate; try reflexivity; tauto. Qed.

Lemma check_mat_iff (x : indata num_R) b : int_fits (2 * ntor x + 1) = true ->
  (check_mat x b = Ok tt <-> m_rows b = mpol x /\ m_cols b = 2 * ntor x + 1).
Proof.
  intros F. unfold check_mat. apply obind_tt_iff.
  - apply guard_iff. rewrite negb_false_iff, Z.eqb_eq. reflexivity.
  - intros _. rewrite need_true_iff by exact F. apply guard_iff. rewrite negb_false_iff, Z.eqb_eq. reflexivity.
Qed.

Theorem IsConsistent_exact (x : indata num_R) :
  (length (ns_array x) <= length (ftol_array x))%nat -> (length (ns_array x) <= length (niter_array x))%nat ->
  (lasym x = true -> asymmetric_present x) -> ntor x < 2 ^ 30 -> (IsConsistent x = Ok tt <-> acceptable x).
Proof.
  intros L1 L2 L3 L4. unfold acceptable.
  transitivity (0 < nfp x /\ 2 <= mpol x /\ 0 <= ntor x /\ 0 <= ntheta x /\ 0 <= nzeta x /\ ns_array x <> [] /\
    ((forall ns, In ns (ns_array x) -> 3 <= ns /\ -1 <= ns) /\ (forall i j, (i <= j < length (ns_array x))%nat -> nth i (ns_array x) 0 <= nth j (ns_array x) 0)) /\
    (forall i, (i < length (ns_array x))%nat -> (0 <= nth i (ftol_array x) 0)%R) /\
    (forall i, (i < length (ns_array x))%nat -> 0 < nth i (niter_array x) 0) /\
    (phiedge x <> 0)%R /\ (ncurr x = 0 \/ ncurr x = 1) /\ (0 <= pres_scale x)%R /\ (gamma x <> 1)%R /\ ((0 < spres_ped x)%R /\ (spres_ped x <= 1)%R) /\
    (ncurr x = 0 -> bloat x = 1%R) /\ (lfreeb x = true -> 1 <= nvacskip x) /\ (lfreeb x = true -> free_boundary_method x <> BIEST) /\
    0 < nstep x /\ ((0 < delt x)%R /\ (delt x <= 10)%R) /\ ((0 <= tcon0 x)%R /\ (tcon0 x <= 1)%R) /\
    zlen (raxis_c x) = ntor x + 1 /\ zlen (zaxis_s x) = ntor x + 1 /\
    (if lasym x then exists rs zc, raxis_s x = Some rs /\ zaxis_c x = Some zc /\ zlen rs = ntor x + 1 /\ zlen zc = ntor x + 1
     else raxis_s x = None /\ zaxis_c x = None) /\
    (m_rows (rbc x) = mpol x /\ m_cols (rbc x) = 2 * ntor x + 1) /\ (m_rows (zbs x) = mpol x /\ m_cols (zbs x) = 2 * ntor x + 1) /\
    (if lasym x then exists b1 b2, rbs x = Some b1 /\ zbc x = Some b2 /\ (m_rows b1 = mpol x /\ m_cols b1 = 2 * ntor x + 1) /\ (m_rows b2 = mpol x /\ m_cols b2 = 2 * ntor x + 1)
     else rbs x = None /\ zbc x = None)).
  - unfold IsConsistent.
    Ltac st := apply obind_tt_iff; [apply guard_iff|intros ?].
    st; [rewrite Z.leb_gt; reflexivity|]. st; [rewrite Z.ltb_ge; reflexivity|]. st; [rewrite Z.ltb_ge; reflexivity|].
    assert (F1 : int_fits (ntor x + 1) = true) by (apply int_fits_spec; unfold fits32; lia).
    assert (F2 : int_fits (2 * ntor x + 1) = true) by (apply int_fits_spec; unfold fits32; lia).
    st; [rewrite Z.ltb_ge; reflexivity|]. st; [rewrite Z.ltb_ge; reflexivity|].
    st; [destruct (ns_array x); split; congruence|].
    apply obind_tt_iff; [apply check_ns_spec|intros _].
    apply obind_tt_iff; [|intros _].
    { unfold check_ftol. rewrite (check_loop (fun v : num_R => nlt v (nZ 0)) (ftol_array x) (0%R : num_R)) by exact L1.
      pose proof (existsb_seq_false (fun i => nlt (nth i (ftol_array x) (0%R : num_R)) (nZ 0)) (length (ns_array x))) as Q.
      destruct (existsb _ _).
      - split; [discriminate|]. intros HH. exfalso. assert (true = false) by (apply Q; intros i Hi; apply Rltb_false; apply HH; exact Hi). discriminate.
      - split; [|reflexivity]. intros _ i Hi. apply Rltb_false. apply (proj1 Q eq_refl i Hi). }
    apply obind_tt_iff; [|intros _].
    { unfold check_niter. rewrite (check_loop (fun v : Z => v <=? 0) (niter_array x) 0) by exact L2.
      pose proof (existsb_seq_false (fun i => nth i (niter_array x) 0 <=? 0) (length (ns_array x))) as Q.
      destruct (existsb _ _).
      - split; [discriminate|]. intros HH. exfalso. assert (true = false) by (apply Q; intros i Hi; apply Z.leb_gt; apply HH; exact Hi). discriminate.
      - split; [|reflexivity]. intros _ i Hi. apply Z.leb_gt. apply (proj1 Q eq_refl i Hi). }
    st; [apply Reqb_false|]. st; [rewrite andb_false_iff, !negb_false_iff, !Z.eqb_eq; reflexivity|]. st; [apply Rltb_false|]. st; [apply Reqb_false|].
    st; [rewrite orb_false_iff; rewrite (Rleb_false (spres_ped x) 0), (Rltb_false 1 (spres_ped x)); reflexivity|].
    st; [rewrite andb_false_iff, negb_false_iff, Z.eqb_neq, (Reqb_true (bloat x) 1); destruct (Z.eq_dec (ncurr x) 0); tauto|].
    st; [rewrite andb_false_iff, Z.ltb_ge; destruct (lfreeb x); intuition congruence|].
    st; [rewrite andb_false_iff; destruct (lfreeb x), (free_boundary_method x); intuition congruence|].
    st; [rewrite Z.leb_gt; reflexivity|].
    st; [rewrite orb_false_iff; rewrite (Rleb_false (delt x) 0), (Rltb_false 10 (delt x)); reflexivity|].
    st; [rewrite orb_false_iff; rewrite (Rltb_false (tcon0 x) 0), (Rltb_false 1 (tcon0 x)); reflexivity|].
    rewrite need_true_iff by exact F1.
    st; [rewrite negb_false_iff, Z.eqb_eq; reflexivity|]. st; [rewrite negb_false_iff, Z.eqb_eq; reflexivity|].
    apply obind_tt_iff; [|intros _].
    { destruct (lasym x).
      - destruct (L3 eq_refl) as (P1 & P2 & _). destruct (raxis_s x) as [rs|]; [|congruence]. destruct (zaxis_c x) as [zc|]; [|congruence]. cbn [opt_get obind].
        transitivity (zlen rs = ntor x + 1 /\ zlen zc = ntor x + 1).
        + st; [rewrite negb_false_iff, Z.eqb_eq; reflexivity|]. apply guard_iff. rewrite negb_false_iff, Z.eqb_eq; reflexivity.
        + split; [intros [? ?]; exists rs, zc; auto|intros (? & ? & E1 & E2 & ? & ?); inversion E1; inversion E2; subst; auto].
      - st; [destruct (raxis_s x); cbn; split; congruence|]. apply guard_iff. destruct (zaxis_c x); cbn; split; congruence. }
    apply obind_tt_iff; [apply check_mat_iff; exact F2|intros _].
    apply obind_tt_iff; [apply check_mat_iff; exact F2|intros _].
    destruct (lasym x).
    + destruct (L3 eq_refl) as (_ & _ & P1 & P2). destruct (rbs x) as [rs|]; [|congruence]. destruct (zbc x) as [zc|]; [|congruence]. cbn [opt_get obind].
      match goal with |- _ <-> exists b1 b2, Some rs = Some b1 /\ Some zc = Some b2 /\ _ =>
        transitivity ((m_rows rs = mpol x /\ m_cols rs = 2 * ntor x + 1) /\ m_rows zc = mpol x /\ m_cols zc = 2 * ntor x + 1) end.
      * apply obind_tt_iff; [apply check_mat_iff; exact F2|intros _]. apply check_mat_iff; exact F2.
      * split; [intros [? ?]; exists rs, zc; auto|intros (? & ? & E1 & E2 & ? & ?); inversion E1; inversion E2; subst; auto].
    + st; [destruct (rbs x); cbn; split; congruence|]. apply guard_iff. destruct (zbc x); cbn; split; congruence.
  - unfold zlen, asymmetric_absent. destruct (lasym x).
    + split.
      * intros (P1&P2&P3&P4&P5&P6&(P7&P8)&P9&P10&P11&P12&P13&P14&P15&P16&P17&P18&P19&P20&P21&P22&P23&(rs&zc&P24)&P25&P26&(b1&b2&P27)).
        repeat match goal with |- _ /\ _ => split end; try assumption; try lia; try tauto; try lra.
        -- intros ns Hns. specialize (P7 ns Hns). lia.
        -- intros i Hi. specialize (P10 i Hi). lia.
        -- intros Hf. specialize (P17 Hf). split; [lia|auto].
        -- intros _. exists rs, zc, b1, b2. tauto.
      * intros (P1&P2&P3&P4&P5&P6&P7&P8&P9&P10&P11&P12&P13&P14&P15&P16&P17&P19&P20&P21&P22&P23&P24&P25&P26&P27&P28&_).
        destruct (P28 eq_refl) as (rs&zc&b1&b2&Q).
        repeat match goal with |- _ /\ _ => split end; try assumption; try lia; try tauto; try lra.
        -- intros ns Hns. specialize (P7 ns Hns). lia.
        -- intros i Hi. specialize (P10 i Hi). lia.
        -- intros Hf. specialize (P17 Hf). lia.
        -- exists rs, zc. tauto.
        -- exists b1, b2. tauto.
    + split.
      * intros (P1&P2&P3&P4&P5&P6&(P7&P8)&P9&P10&P11&P12&P13&P14&P15&P16&P17&P18&P19&P20&P21&P22&P23&P24&P25&P26&P27).
        repeat match goal with |- _ /\ _ => split end; try assumption; try lia; try tauto; try lra.
        -- intros ns Hns. specialize (P7 ns Hns). lia.
        -- intros i Hi. specialize (P10 i Hi). lia.
        -- intros Hf. specialize (P17 Hf). split; [lia|auto].
      * intros (P1&P2&P3&P4&P5&P6&P7&P8&P9&P10&P11&P12&P13&P14&P15&P16&P17&P19&P20&P21&P22&P23&P24&P25&P26&P27&_&P28).
        specialize (P28 eq_refl).
        repeat match goal with |- _ /\ _ => split end; try assumption; try lia; try tauto; try lra.
        -- intros ns Hns. specialize (P7 ns Hns). lia.
        -- intros i Hi. specialize (P10 i Hi). lia.
        -- intros Hf. specialize (P17 Hf). lia.
Qed.
