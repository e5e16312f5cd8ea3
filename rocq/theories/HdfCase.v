(** Concrete output quantities; doubles are represented by integers. *)
From Coq Require Import ZArith List Bool String Lia.
From Verif Require Import HdfModel HdfData HdfSpec HdfProofs.
Import ListNotations.
Open Scope string_scope.
(** A run with [ns] surfaces and [mn] modes; [fb] says whether the boundary is free and
    [cur] are the coil currents. Matrices: absent if the run is symmetric. *)
Definition w (ns mn mnq : Z) (fb : bool) (cur : list Z) : obj Z := fun n =>
  if String.eqb n "ns" then VInt Z ns else if String.eqb n "mnmax" then VInt Z mn else if String.eqb n "mnmax_nyq" then VInt Z mnq
  else if String.eqb n "lfreeb" then VBool Z fb else if String.eqb n "nextcur" then VInt Z (Z.of_nat (List.length cur)) else if String.eqb n "extcur" then VVec Z cur
  else if mem n ["rmnc"; "zmns"; "lmns_full"; "lmns"] then VMat Z mn ns (fun i j => 100 * i + j)%Z
  else if mem n ["gmnc"; "bmnc"; "bsubumnc"; "bsubvmnc"; "bsubsmns"; "bsubsmns_full"; "bsupumnc"; "bsupvmnc"; "currumnc"; "currvmnc"] then VMat Z mnq ns (fun i j => 1000 * i + j)%Z
  else if mem n matrices then VMat Z 0 0 (fun _ _ => 0%Z)
  else if String.eqb n "fsqt" then VVec Z [7; 5]%Z
  else VDbl Z 1%Z.
Definition quantities (wo : obj Z) : string -> obj Z := fun k => if String.eqb k "/wout" then wo else fun n => VVec Z [1; 2]%Z.
Lemma case_hyps : no_strings Z (quantities (w 25 11 15 true [3; 4]%Z)) /\ shaped Z (quantities (w 25 11 15 true [3; 4]%Z) "/wout") 25 11 15 /\
  currents_ok Z (quantities (w 25 11 15 true [3; 4]%Z) "/wout").
Proof.
  split; [|split].
  - assert (Q : forallb (fun p => forallb (fun n => match quantities (w 25 11 15 true [3; 4]%Z) (key p) n with VStrs _ _ => false | _ => true end) (written p)) parts = true) by (vm_compute; reflexivity).
    rewrite forallb_forall in Q. intros p n I J s l E. specialize (Q p I). rewrite forallb_forall in Q. specialize (Q n J). rewrite E in Q. discriminate.
  - constructor; try reflexivity; [lia|]. intros n I. cbn in I.
    repeat (destruct I as [<-|I]; [first [left; eexists; reflexivity|right; eexists; eexists; split; [reflexivity|auto]]|]). destruct I.
  - left. reflexivity.
Qed.
(** Loading what was saved: the member [n] of wout *)
Definition reload (wo : obj Z) (y0 : obj Z) (n : string) : option (value Z) :=
  match save Z parts (quantities wo) [] [] with
  | Some f => match load Z 0%Z (fun _ => 0%Z) f (quantities y0) wout_part with Some y => Some (y n) | None => None end
  | None => None
  end.
Definition entry (v : option (value Z)) (i j : Z) : Z := match v with Some (VMat _ _ _ d) => d i j | _ => (-1)%Z end.
Lemma refuted_square : entry (Some (w 11 11 15 false [] "rmnc")) 2 3 = 203%Z /\ entry (reload (w 11 11 15 false []) (fun _ => VInt Z 0) "rmnc") 2 3 = 302%Z.
Proof. split; vm_compute; reflexivity. Qed.
Lemma refuted_square_nyq : entry (Some (w 15 11 15 false [] "bmnc")) 2 3 = 2003%Z /\ entry (reload (w 15 11 15 false []) (fun _ => VInt Z 0) "bmnc") 2 3 = 3002%Z.
Proof. split; vm_compute; reflexivity. Qed.
Lemma refuted_currents : w 25 11 15 false [3; 4]%Z "extcur" = VVec Z [3; 4]%Z /\ reload (w 25 11 15 false [3; 4]%Z) (fun _ => VInt Z 0) "extcur" = Some (VVec Z []).
Proof. split; vm_compute; reflexivity. Qed.
Lemma refuted_lost : w 25 11 15 true [3; 4]%Z "fsqt" = VVec Z [7; 5]%Z /\ reload (w 25 11 15 true [3; 4]%Z) (fun _ => VVec Z []) "fsqt" = Some (VVec Z []).
Proof. split; vm_compute; reflexivity. Qed.
