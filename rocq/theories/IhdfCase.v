(** A symmetric and an asymmetric input, and the failure of the second. *)
From Coq Require Import ZArith List Bool String Lia.
From Verif Require Import HdfModel IhdfModel IhdfSpec IhdfProofs.
Import ListNotations.
Open Scope string_scope.
Open Scope list_scope.

(** Two poloidal modes, one toroidal mode; numbers are integers here *)
Definition vals (asym : bool) (n : string) : value Z :=
  if String.eqb n "lasym" then VBool Z asym else if String.eqb n "mpol" then VInt Z 2 else if String.eqb n "ntor" then VInt Z 1
  else if String.eqb n "rbc" then VMat Z 2 3 (fun i j => 10 * i + j)%Z else if String.eqb n "zbs" then VMat Z 2 3 (fun i j => 50 + 10 * i + j)%Z
  else if String.eqb n "pmass_type" then VStr Z "power_series" else VVec Z [7; 8]%Z.
Definition sym_in : input Z := mkIn Z (vals false) [] BIEST PARVMEC (fun _ => None).
Definition asym_in : input Z := mkIn Z (vals true) [] BIEST PARVMEC
  (fun n => if String.eqb n "raxis_s" then Some (VVec Z [1; 2]%Z) else if String.eqb n "zaxis_c" then Some (VVec Z [3; 4]%Z)
            else Some (VMat Z 2 3 (fun i j => 100 + 10 * i + j)%Z)).
Definition new_in : input Z := mkIn Z (fun _ => VInt Z (-1)) [] NESTOR VMEC_8_52 (fun _ => None).
Lemma case_sym : symmetric Z sym_in.
Proof.
  constructor; [reflexivity|reflexivity|]. exists 2%Z, 1%Z. eexists. eexists. repeat split.
Qed.
Lemma case_asym : asymmetric Z asym_in.
Proof.
  constructor; [reflexivity| |].
  - intros n I. cbn in I. destruct I as [<-|[<-|[]]]; eexists; eexists; reflexivity.
  - intros n I. cbn in I. destruct I as [<-|[<-|[]]]; eexists; eexists; eexists; split; [reflexivity|lia|reflexivity|lia].
Qed.
Lemma refuted : asymmetric Z asym_in /\ ~ saved_and_loaded Z false asym_in /\ ~ saved_and_loaded Z true asym_in.
Proof.
  split; [exact case_asym|]. split; intros H; destruct (H new_in (fun _ => eq_refl)) as (f & y & W & L & _).
  - destruct (asym_fails Z false asym_in new_in case_asym) as [[D _]|(f' & W' & L')]; [discriminate|]. rewrite W in W'. injection W' as <-. rewrite L in L'. discriminate.
  - destruct (asym_fails Z true asym_in new_in case_asym) as [[_ W']|(f' & W' & L')]; rewrite W in W'; [discriminate|]. injection W' as <-. rewrite L in L'. discriminate.
Qed.
