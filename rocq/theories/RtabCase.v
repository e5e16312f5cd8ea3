(** Concrete programs for the response table. Doubles are represented by integers here. *)
From Coq Require Import ZArith List Bool Lia.
From Verif Require Import RtabModel RtabSpec RtabProofs.
Import ListNotations.
Open Scope Z_scope.
Definition par (nfp : Z) : params Z := fun f =>
  match f with
  | F_norm => VBool Z true | F_symm => VBool Z false | F_nfp => VInt Z nfp
  | F_rmin => VFlt Z 1 | F_rmax => VFlt Z 3 | F_nr => VInt Z 2 | F_zmin => VFlt Z (-1) | F_zmax => VFlt Z 1 | F_nz => VInt Z 1 | F_nphi => VInt Z 1
  end.
Lemma par_typed n : typed Z (par n). Proof. intros f. destruct f; cbn; eexists; reflexivity. Qed.
Lemma par_small n : - 2 ^ 31 <= n < 2 ^ 31 -> small Z (par n).
Proof. intros H f z E. destruct f; cbn in E; try discriminate; injection E as <-; lia. Qed.
Lemma small5 : small Z (par 5). Proof. apply par_small. lia. Qed.
Definition tab : ctable Z := mkC Z (par 5) (fun k => match k with Br => [[1; 2]] | Bp => [[3; 4]] | Bz => [[5; 6]] end).
Definition conv (h : list (op Z)) (o : nat) : option (nat * state Z) :=
  match nth_error (objs Z (run Z (fun z => z) h)) o with Some t => to_cpp Z (fun z => z) (run Z (fun z => z) h) t | None => None end.
(** A response computed from coils, an element overwritten, and a second object that
    takes over one component and gets new arrays for the others. *)
Definition h_ok : list (op Z) :=
  [Compute Z tab; Write Z 0 Bp 0 1 9; New Z (par 5) [[0; 0]] [[0; 0]] [[7; 7]]; Share Z 1 Bp 0 Bp; Write Z 1 Bp 0 0 8; Convert Z 1; Replace Z 0 Bz [[4; 4]]].
Lemma h_ok_tame : all_tame Z (fun z => z) (mkS Z [] [] []) h_ok.
Proof.
  cbn. repeat split; try apply par_typed. intros t t' E E'. injection E as <-. injection E' as <-. reflexivity.
Qed.
Lemma h_ok_shows : shows Z (run Z (fun z => z) h_ok) 0 (par 5) [[1; 2]] [[8; 9]] [[4; 4]] /\
  shows Z (run Z (fun z => z) h_ok) 1 (par 5) [[0; 0]] [[8; 9]] [[7; 7]].
Proof. split; eexists; cbn; repeat split; reflexivity. Qed.
(** The parameters of a computed response changed before the run *)
Definition h_par : list (op Z) := [Compute Z tab; SetParams Z 0 (par 4)].
(** Two components exchanged *)
Definition h_swap : list (op Z) := [Compute Z tab; Compute Z tab; Share Z 0 Br 1 Bp; Share Z 0 Bp 1 Br; Share Z 0 Bz 1 Bz].
Lemma refuted : (exists c s', conv h_par 0 = Some (c, s') /\ shows Z (run Z (fun z => z) h_par) 0 (par 4) [[1; 2]] [[3; 4]] [[5; 6]] /\
    holds Z s' c (par 5) [[1; 2]] [[3; 4]] [[5; 6]]) /\
  (exists c s', conv h_swap 0 = Some (c, s') /\ shows Z (run Z (fun z => z) h_swap) 0 (par 5) [[3; 4]] [[1; 2]] [[5; 6]] /\
    holds Z s' c (par 5) [[1; 2]] [[3; 4]] [[5; 6]]).
Proof.
  split; eexists; eexists; (split; [reflexivity|]); split; eexists; cbn; repeat split; reflexivity.
Qed.
