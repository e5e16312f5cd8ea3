(** Akima spline: straight lines and mirror images. *)
From Coq Require Import ZArith List Reals Lia Lra Bool.
From Coquelicot Require Import Coquelicot.
From Verif Require Import Base BaseLemmas SumLemmas ProfileModel ProfileSpec PolyProofs CubicProofs CubicEval AkimaProofs AkimaEval.
Import ListNotations.
Open Scope R_scope.

Section Line.
  Context (knots values : list R) (tiny : R).
  Hypothesis Hlen : (4 <= length knots)%nat.
  Hypothesis Hval : length values = length knots.
  Hypothesis Hinc : increasing knots.
  Hypothesis Htiny : 0 < tiny <= 1.
  Let n := vlen knots.
  Let V := V_ knots.
  Let W := W_ values.
  Let H4 : (4 <= n)%Z := Hn4a knots values Hlen Hval.

  (** consecutive extended knots are distinct *)
  Lemma X_step f : (-1 <= f <= n + 1)%Z -> 0 < X_ knots (f + 1) - X_ knots f.
  Proof.
    intros Hf. pose proof H4 as H4'. unfold X_. fold n.
    pose proof (fun i j A B => Vinc knots values Hlen Hval Hinc i j A B) as VI. fold n in VI.
    repeat match goal with |- context [(?a =? ?b)%Z] => destruct (Z.eqb_spec a b); try lia end.
    - pose proof (VI 1%Z 2%Z ltac:(lia) ltac:(lia)). lra.
    - pose proof (VI (n - 2)%Z (n - 1)%Z ltac:(lia) ltac:(lia)). assert (f = n) as -> by lia. lra.
    - pose proof (VI (n - 1)%Z n ltac:(lia) ltac:(lia)). lra.
    - replace (f + 1)%Z with 1%Z by lia. pose proof (VI 2%Z 3%Z ltac:(lia) ltac:(lia)). lra.
    - pose proof (VI f (f + 1)%Z ltac:(lia) ltac:(lia)). lra.
  Qed.

  Lemma akima_line a b :
    (forall i, (i < length knots)%nat -> nth i values 0 = a + b * nth i knots 0) ->
    forall x, nth 0 knots 0 <= x <= last knots 0 -> evalAkima tiny knots values x = a + b * x.
  Proof.
    intros HP x Hx. pose proof H4 as H4'.
    assert (HW : forall f, (1 <= f <= n)%Z -> W f = a + b * V f).
    { intros f Hf. unfold W, V, W_, V_, vat. apply HP. unfold n, vlen in Hf. lia. }
    pose proof (fun i j A B => Vinc knots values Hlen Hval Hinc i j A B) as VI. fold n V in VI.
    assert (Hm : forall f, (1 <= f <= n - 1)%Z -> m_ knots values f = b).
    { intros f Hf. unfold m_. fold V W. rewrite !HW by lia.
      pose proof (VI f (f + 1)%Z ltac:(lia) ltac:(lia)). field. lra. }
    assert (Hcl : cl_ knots values = 0).
    { unfold cl_. rewrite !Hm by lia. unfold Rdiv. ring. }
    assert (Hcr : cr_ knots values = 0).
    { unfold cr_. fold n. rewrite !Hm by lia. unfold Rdiv. ring. }
    assert (HY : forall f, (-1 <= f <= n + 2)%Z -> Y_ knots values f = a + b * X_ knots f).
    { intros f Hf. unfold Y_. fold n. unfold bl_, br_. fold n. rewrite Hcl, Hcr, !Hm by lia. fold V W.
      rewrite !HW by lia.
      destruct (Z.ltb_spec f 1); [ring|]. destruct (Z.ltb_spec n f); [ring|].
      rewrite HW, X_in by (fold n; lia). reflexivity. }
    assert (HM : forall f, (-1 <= f <= n + 1)%Z -> M_ knots values f = b).
    { intros f Hf. unfold M_. rewrite !HY by lia. pose proof (X_step f Hf). field. lra. }
    assert (HT : forall i, (1 <= i <= n)%Z -> T_ knots values i = b).
    { intros i Hi. unfold T_, DM_. rewrite !HM by lia. rewrite !Rminus_diag_eq by reflexivity. rewrite Rabs_R0, Rplus_0_r.
      destruct (Req_EM_T 0 0); [field|contradiction]. }
    destruct (find_segment knots values Hlen Hval x) as (k & Hk & Hkx & _).
    { rewrite (last_V knots Hlen) in Hx. exact Hx. }
    fold n in Hk.
    rewrite (evalAkima_seg knots values tiny Hlen Hval Hinc Htiny (k + 1)%Z); [|fold n; lia|].
    2:{ unfold V_. replace (k + 1 - 1)%Z with k by lia. replace (k + 1 + 1 - 1)%Z with (k + 1)%Z by lia. exact Hkx. }
    unfold hseg, C_, D_. rewrite !HT, !HM by lia. fold V W. rewrite HW by lia.
    unfold Rdiv. ring.
  Qed.
End Line.

Section Mirror.
  Context (knots values : list R) (tiny : R).
  Hypothesis Hlen : (4 <= length knots)%nat.
  Hypothesis Hval : length values = length knots.
  Hypothesis Hinc : increasing knots.
  Hypothesis Htiny : 0 < tiny <= 1.
  Let n := vlen knots.
  Let H4 : (4 <= n)%Z := Hn4a knots values Hlen Hval.
  Let knots' := mirror knots.
  Let values' := rev values.

  Lemma mirror_length : length knots' = length knots.
  Proof. unfold knots', mirror. rewrite rev_length, map_length. reflexivity. Qed.
  Lemma rev_values_length : length values' = length knots'.
  Proof. unfold values'. rewrite rev_length, mirror_length. exact Hval. Qed.
  Lemma mirror_vlen : vlen knots' = n.
  Proof. unfold vlen. rewrite mirror_length. reflexivity. Qed.

  Lemma mirror_nth i : (i < length knots)%nat -> nth i knots' 0 = - nth (length knots - 1 - i) knots 0.
  Proof.
    intros Hi. unfold knots', mirror. rewrite rev_nth by (rewrite map_length; lia). rewrite map_length.
    replace (length knots - S i)%nat with (length knots - 1 - i)%nat by lia.
    rewrite (nth_indep _ 0 (Ropp 0)) by (rewrite map_length; lia). apply (map_nth Ropp).
  Qed.
  Lemma mirror_increasing : increasing knots'.
  Proof.
    intros i j Hij. rewrite mirror_length in Hij. rewrite !mirror_nth by lia.
    apply Ropp_lt_contravar. apply Hinc. lia.
  Qed.
  Lemma V_mirror f : (1 <= f <= n)%Z -> V_ knots' f = - V_ knots (n + 1 - f).
  Proof.
    intros Hf. unfold V_, vat. rewrite mirror_nth by (unfold n, vlen in Hf; lia).
    f_equal. f_equal. unfold n, vlen in *. lia.
  Qed.
  Lemma W_mirror f : (1 <= f <= n)%Z -> W_ values' f = W_ values (n + 1 - f).
  Proof.
    intros Hf. unfold W_, vat, values'. rewrite rev_nth by (unfold n, vlen in Hf; lia).
    f_equal. unfold n, vlen in *. lia.
  Qed.

  Lemma X_mirror f : (-1 <= f <= n + 2)%Z -> X_ knots' f = - X_ knots (n + 1 - f).
  Proof.
    intros Hf. pose proof H4. unfold X_. rewrite !mirror_vlen. fold n.
    rewrite !V_mirror by lia.
    repeat match goal with |- context [(?a =? ?b)%Z] => destruct (Z.eqb_spec a b); try lia end.
    all: try (rewrite V_mirror by lia; reflexivity).


    - replace (n + 1 - 1)%Z with n by lia. replace (n + 1 - 3)%Z with (n - 2)%Z by lia. ring.
    - replace (n + 1 - 1)%Z with n by lia. replace (n + 1 - 3)%Z with (n - 2)%Z by lia.
      replace (n + 1 - 2)%Z with (n - 1)%Z by lia. ring.
    - replace (n + 1 - n)%Z with 1%Z by lia. replace (n + 1 - (n - 2))%Z with 3%Z by lia.
      replace (n + 1 - (n - 1))%Z with 2%Z by lia. ring.
    - replace (n + 1 - n)%Z with 1%Z by lia. replace (n + 1 - (n - 2))%Z with 3%Z by lia. ring.
  Qed.

  Lemma m_mirror f : (1 <= f <= n - 1)%Z -> m_ knots' values' f = - m_ knots values (n - f).
  Proof.
    intros Hf. unfold m_. rewrite !V_mirror, !W_mirror by lia.
    replace (n + 1 - (f + 1))%Z with (n - f)%Z by lia. replace (n + 1 - f)%Z with (n - f + 1)%Z by lia.
    pose proof (Vinc knots values Hlen Hval Hinc (n - f)%Z (n - f + 1)%Z ltac:(lia) ltac:(fold n; lia)).
    field; repeat split; lra.
  Qed.

  Lemma cl_mirror : cl_ knots' values' = cr_ knots values.
  Proof.
    pose proof H4. unfold cl_, cr_. fold n. rewrite !V_mirror, !m_mirror by lia.
    replace (n + 1 - 3)%Z with (n - 2)%Z by lia. replace (n + 1 - 1)%Z with n by lia.
    pose proof (Vinc knots values Hlen Hval Hinc (n - 2)%Z n ltac:(lia) ltac:(fold n; lia)).
    field; repeat split; lra.
  Qed.
  Lemma cr_mirror : cr_ knots' values' = cl_ knots values.
  Proof.
    pose proof H4. unfold cl_, cr_. rewrite mirror_vlen. rewrite !V_mirror, !m_mirror by lia.
    replace (n + 1 - (n - 2))%Z with 3%Z by lia. replace (n + 1 - n)%Z with 1%Z by lia.
    replace (n - (n - 1))%Z with 1%Z by lia. replace (n - (n - 2))%Z with 2%Z by lia.
    pose proof (Vinc knots values Hlen Hval Hinc 1%Z 3%Z ltac:(lia) ltac:(fold n; lia)).
    field; repeat split; lra.
  Qed.
  Lemma bl_mirror : bl_ knots' values' = - br_ knots values.
  Proof.
    pose proof H4. unfold bl_, br_. fold n. rewrite cl_mirror, !V_mirror, m_mirror by lia.
    replace (n + 1 - 2)%Z with (n - 1)%Z by lia. replace (n + 1 - 1)%Z with n by lia. ring.
  Qed.
  Lemma br_mirror : br_ knots' values' = - bl_ knots values.
  Proof.
    pose proof H4. unfold bl_, br_. rewrite mirror_vlen. rewrite cr_mirror, !V_mirror, m_mirror by lia.
    replace (n + 1 - (n - 1))%Z with 2%Z by lia. replace (n + 1 - n)%Z with 1%Z by lia.
    replace (n - (n - 1))%Z with 1%Z by lia. ring.
  Qed.

  Lemma Y_mirror f : (-1 <= f <= n + 2)%Z -> Y_ knots' values' f = Y_ knots values (n + 1 - f).
  Proof.
    intros Hf. pose proof H4. unfold Y_. rewrite mirror_vlen. fold n.
    rewrite cl_mirror, cr_mirror, bl_mirror, br_mirror, X_mirror, !V_mirror, !(W_mirror 1), !(W_mirror n) by lia.
    replace (n + 1 - 1)%Z with n by lia. replace (n + 1 - n)%Z with 1%Z by lia.
    destruct (Z.ltb_spec f 1).
    - destruct (Z.ltb_spec (n + 1 - f) 1); [lia|]. destruct (Z.ltb_spec n (n + 1 - f)); [|lia]. ring.
    - destruct (Z.ltb_spec n f).
      + destruct (Z.ltb_spec (n + 1 - f) 1); [|lia]. ring.
      + destruct (Z.ltb_spec (n + 1 - f) 1); [lia|]. destruct (Z.ltb_spec n (n + 1 - f)); [lia|].
        apply W_mirror. lia.
  Qed.

  Lemma M_mirror f : (-1 <= f <= n + 1)%Z -> M_ knots' values' f = - M_ knots values (n - f).
  Proof.
    intros Hf. unfold M_. rewrite !X_mirror, !Y_mirror by lia.
    replace (n + 1 - (f + 1))%Z with (n - f)%Z by lia. replace (n + 1 - f)%Z with (n - f + 1)%Z by lia.
    pose proof (X_step knots values Hlen Hval Hinc (n - f)%Z ltac:(fold n; lia)).
    field; repeat split; lra.
  Qed.

  Lemma DM_mirror f : (-1 <= f <= n)%Z -> DM_ knots' values' f = DM_ knots values (n - 1 - f).
  Proof.
    intros Hf. unfold DM_. rewrite !M_mirror by lia.
    replace (n - (f + 1))%Z with (n - 1 - f)%Z by lia. replace (n - f)%Z with (n - 1 - f + 1)%Z by lia.
    f_equal. ring.
  Qed.

  Lemma T_mirror i : (1 <= i <= n)%Z -> T_ knots' values' i = - T_ knots values (n + 1 - i).
  Proof.
    intros Hi. unfold T_. rewrite !DM_mirror, !M_mirror by lia.
    replace (n - 1 - (i - 2))%Z with (n + 1 - i)%Z by lia.
    replace (n + 1 - i - 2)%Z with (n - 1 - i)%Z by lia.
    replace (n - (i - 1))%Z with (n + 1 - i)%Z by lia. replace (n + 1 - i - 1)%Z with (n - i)%Z by lia.
    rewrite (Rplus_comm (DM_ knots values (n - 1 - i))).
    destruct (Req_EM_T (DM_ knots values (n + 1 - i) + DM_ knots values (n - 1 - i)) 0); [ring|].
    field. assumption.
  Qed.

  Lemma akima_mirror x : nth 0 knots 0 <= x <= last knots 0 ->
    evalAkima tiny (mirror knots) (rev values) (- x) = evalAkima tiny knots values x.
  Proof.
    intros Hx. pose proof H4 as H4'. fold knots' values'.
    destruct (find_segment knots values Hlen Hval x) as (k & Hk & Hkx & _).
    { rewrite (last_V knots Hlen) in Hx. exact Hx. }
    fold n in Hk. set (i := (k + 1)%Z).
    assert (Hix : V_ knots i <= x <= V_ knots (i + 1)).
    { unfold V_, i. replace (k + 1 - 1)%Z with k by lia. replace (k + 1 + 1 - 1)%Z with (k + 1)%Z by lia. exact Hkx. }
    rewrite (evalAkima_seg knots values tiny Hlen Hval Hinc Htiny i); [|fold n; lia|exact Hix].
    assert (Hlen' : (4 <= length knots')%nat) by (rewrite mirror_length; exact Hlen).
    rewrite (evalAkima_seg knots' values' tiny Hlen' rev_values_length mirror_increasing Htiny (n - i)%Z).
    2:{ rewrite mirror_vlen. lia. }
    2:{ rewrite !V_mirror by lia. replace (n + 1 - (n - i + 1))%Z with i by lia.
        replace (n + 1 - (n - i))%Z with (i + 1)%Z by lia. lra. }
    destruct (CD_at knots values Hlen Hval i ltac:(fold n; lia)) as (EC & ED).
    destruct (CD_at knots' values' Hlen' rev_values_length (n - i)%Z ltac:(rewrite mirror_vlen; lia)) as (EC' & ED').
    unfold hseg. rewrite EC, ED, EC', ED'.
    rewrite !V_mirror, !W_mirror, !T_mirror by lia.
    replace (n + 1 - (n - i + 1))%Z with i by lia. replace (n + 1 - (n - i))%Z with (i + 1)%Z by lia.
    pose proof (Vinc knots values Hlen Hval Hinc i (i + 1)%Z ltac:(lia) ltac:(fold n; lia)).
    field; repeat split; lra.
  Qed.
End Mirror.
