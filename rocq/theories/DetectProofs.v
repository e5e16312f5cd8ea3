(** Proofs about recognising Fortran input. *)
From Coq Require Import List Bool Ascii String Arith Lia.
From Verif Require Import DetectModel DetectSpec.
Import ListNotations.

Lemma lstrip_blank a l : blank a -> lstrip (a ++ l) = lstrip l.
Proof. induction 1 as [|c a H _ IH]; [reflexivity|]. cbn. rewrite H. exact IH. Qed.
Lemma lstrip_split l : exists a, l = a ++ lstrip l /\ blank a.
Proof.
  induction l as [|c r [a [E B]]]; [exists []; split; [reflexivity|constructor]|]. cbn. destruct (space c) eqn:S; [|exists []; split; [reflexivity|constructor]].
  exists (c :: a). split; [cbn; rewrite <- E; reflexivity|constructor; assumption].
Qed.
Lemma lstrip_head l : match lstrip l with [] => True | c :: _ => space c = false end.
Proof. induction l as [|c r IH]; [exact I|]. cbn. destruct (space c) eqn:S; [exact IH|exact S]. Qed.
Lemma blank_rev a : blank a -> blank (rev a).
Proof. unfold blank. intros H. apply Forall_rev. exact H. Qed.
(** A line is white space, the stripped line, white space *)
Lemma strip_split l : exists a b, l = a ++ strip l ++ b /\ blank a /\ blank b.
Proof.
  destruct (lstrip_split l) as (a & E & B). destruct (lstrip_split (rev (lstrip l))) as (b & E' & B').
  exists a, (rev b). split; [|split; [exact B|apply blank_rev; exact B']]. rewrite E at 1. f_equal. unfold strip.
  rewrite <- rev_app_distr, <- E', rev_involutive. reflexivity.
Qed.
Lemma strip_blank l : blank l -> strip l = [].
Proof. intros H. unfold strip. rewrite <- (app_nil_r l), lstrip_blank by exact H. reflexivity. Qed.
Lemma strip_mid a w b c d : blank a -> blank b -> space c = false -> space d = false -> (exists v, w = c :: v) -> (exists v, w = v ++ [d]) -> strip (a ++ w ++ b) = w.
Proof.
  intros A B C D [v E] [v' E']. unfold strip. rewrite lstrip_blank by exact A.
  replace (lstrip (w ++ b)) with (w ++ b) by (rewrite E; cbn; rewrite C; reflexivity).
  rewrite rev_app_distr, lstrip_blank by (apply blank_rev; exact B).
  replace (lstrip (rev w)) with (rev w); [apply rev_involutive|]. rewrite E', rev_app_distr. cbn. rewrite D. reflexivity.
Qed.
Lemma strip_first a c b : blank a -> space c = false -> exists r, strip (a ++ c :: b) = c :: r.
Proof.
  intros A C. unfold strip. rewrite lstrip_blank by exact A. cbn [lstrip]. rewrite C. cbn [rev].
  assert (H : forall l, exists m, lstrip (l ++ [c]) = m ++ [c]).
  { induction l as [|x l [m IH]]; cbn; [rewrite C; exists []; reflexivity|]. destruct (space x); [exists m; exact IH|exists (x :: l); reflexivity]. }
  destruct (H (rev b)) as [m E]. rewrite E, rev_app_distr. exists (rev m). reflexivity.
Qed.
Lemma eq_line_ok a b : eq_line a b = true <-> a = b.
Proof.
  revert b. induction a as [|x a IH]; intros [|y b]; cbn; try (split; [discriminate|congruence]); [tauto|].
  rewrite andb_true_iff, Ascii.eqb_eq, IH. split; [intros [-> ->]; reflexivity|intros [= -> ->]; auto].
Qed.
Lemma strip_comment l : comment l -> exists r, strip l = "!"%char :: r.
Proof. intros (a & b & -> & A). apply strip_first; [exact A|reflexivity]. Qed.
Lemma strip_opening l : opening l <-> strip l = txt "&INDATA".
Proof.
  split.
  - intros (a & b & -> & A & B). apply (strip_mid a _ b "&" "A"); auto; [eexists; reflexivity|exists (txt "&INDAT"); reflexivity].
  - intros E. destruct (strip_split l) as (a & b & H & A & B). rewrite E in H. exists a, b. auto.
Qed.
Lemma skip p ls : Forall (fun l => blank l \/ comment l) p -> is_indata (p ++ ls) = is_indata ls.
Proof.
  induction 1 as [|l p [H|H] _ IH]; [reflexivity| |]; cbn [app is_indata].
  - rewrite (strip_blank l H). exact IH.
  - destruct (strip_comment l H) as [r ->]. exact IH.
Qed.
Lemma detect_iff ls : is_indata ls = true <-> exists p l q, ls = p ++ l :: q /\ Forall (fun l => blank l \/ comment l) p /\ opening l.
Proof.
  split.
  - induction ls as [|l ls IH]; [discriminate|]. cbn [is_indata]. destruct (strip_split l) as (a & b & E & A & B). destruct (strip l) as [|c r] eqn:S.
    + intros H. destruct (IH H) as (p & l' & q & -> & P & O). exists (l :: p), l', q. split; [reflexivity|]. split; [|exact O]. constructor; [|exact P].
      left. rewrite E. cbn. unfold blank. apply Forall_app. split; assumption.
    + destruct (Ascii.eqb_spec c "!") as [->|N].
      * intros H. destruct (IH H) as (p & l' & q & -> & P & O). exists (l :: p), l', q. split; [reflexivity|]. split; [|exact O]. constructor; [|exact P].
        right. exists a, (r ++ b). split; [exact E|exact A].
      * intros H. apply eq_line_ok in H. exists [], l, ls. split; [reflexivity|]. split; [constructor|]. apply strip_opening. rewrite S. exact H.
  - intros (p & l & q & -> & P & O). rewrite skip by exact P. cbn [is_indata]. apply strip_opening in O. rewrite O. apply eq_line_ok. reflexivity.
Qed.
Lemma json_not ls : json ls -> is_indata ls = false.
Proof.
  intros (p & a & b & q & -> & P & A). rewrite skip by (eapply Forall_impl; [|exact P]; auto). cbn [is_indata].
  destruct (strip_first a "{" b A eq_refl) as [r ->]. reflexivity.
Qed.
Lemma refuted : fortran_opening (txt "&indata") /\ is_indata [txt "&indata"; txt "/"] = false /\
  fortran_opening (txt "&INDATA LASYM = F") /\ is_indata [txt "&INDATA LASYM = F"; txt "/"] = false.
Proof.
  split; [exists [], (txt "&indata"), []; repeat split; constructor|]. split; [reflexivity|].
  split; [exists [], (txt "&INDATA"), (txt " LASYM = F"); repeat split; constructor|reflexivity].
Qed.
Lemma case : is_indata [txt "! W7-X"; txt ""; txt "  &INDATA "; txt "LASYM = F"; txt "/"] = true /\ json [txt ""; txt "  {""lasym"": false}"].
Proof.
  split; [reflexivity|]. exists [txt ""], (txt "  "), (txt """lasym"": false}"), []. split; [reflexivity|]. split; repeat constructor.
Qed.
