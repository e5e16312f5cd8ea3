(** C46, C75: saving a wout file. *)
From Coq Require Import String List Bool Arith Lia.
From Verif Require Import SaveModel SaveSpec SaveProofs.
Import ListNotations.
Open Scope string_scope.

(** C46: while any number of processes save objects, in any interleaving, with any
    failures and kills, each target name holds what it held at first or the
    complete representation of an object saved there. No target may look like a
    temporary file of another one. *)
Theorem C46_atomic :
  forall (C : Type) (empty : C) procs0 f0, initial procs0 f0 ->
    (forall k j tmp, temp_name (target (fst (procs0 k))) tmp -> target (fst (procs0 j)) <> tmp) ->
  forall procs f, reachable empty (procs0, f0) (procs, f) ->
  forall name, is_target procs0 name -> old_or_complete procs0 f0 f name.
Proof. intros C. exact atomic. Qed.
Print Assumptions C46_atomic.

(** C46: a reader that opened the file keeps reading the same contents, whatever happens later. *)
Theorem C46_open_file_stable :
  forall (C : Type) (empty : C) procs0 f0, initial procs0 f0 ->
    (forall k j tmp, temp_name (target (fst (procs0 k))) tmp -> target (fst (procs0 j)) <> tmp) ->
  forall procs1 f1 procs2 f2 name i, reachable empty (procs0, f0) (procs1, f1) -> reachable empty (procs1, f1) (procs2, f2) ->
    is_target procs0 name -> dir f1 name = Some i -> data f2 i = data f1 i.
Proof. intros C. exact reader_stable. Qed.
Print Assumptions C46_open_file_stable.

(** C46: all other files of the directory are left alone. *)
Theorem C46_other_files :
  forall (C : Type) (empty : C) procs0 f0, initial procs0 f0 ->
    (forall k j tmp, temp_name (target (fst (procs0 k))) tmp -> target (fst (procs0 j)) <> tmp) ->
  forall procs f, reachable empty (procs0, f0) (procs, f) ->
  forall name, ~ is_target procs0 name -> (forall k, ~ temp_name (target (fst (procs0 k))) name) -> read f name = read f0 name.
Proof. intros C. exact others_untouched. Qed.
Print Assumptions C46_other_files.

(** C46: a save that returns has put the object in place and left no temporary file. *)
Theorem C46_success :
  forall (C : Type) (empty : C) procs0 f0, initial procs0 f0 ->
    (forall k j tmp, temp_name (target (fst (procs0 k))) tmp -> target (fst (procs0 j)) <> tmp) ->
  forall procs f k e f', reachable empty (procs0, f0) (procs, f) ->
    step empty (fst (procs k)) (snd (procs k)) e f = Some (Done, f') ->
    exists tmp, snd (procs k) = Ready tmp /\ read f' (target (fst (procs0 k))) = Some (content (fst (procs0 k))) /\ dir f' tmp = None.
Proof.
  intros C empty procs0 f0 Hi Hd procs f k e f' R E. apply (reachable_inv empty procs0 f0 Hi Hd) in R.
  destruct (snd (procs k)) eqn:Hp; destruct e; cbn [step] in E; try discriminate E; try (destruct (is_h5 _); try discriminate E; try (destruct (create f tmp empty); discriminate E)).
  - destruct (dir f tmp); discriminate E.
  - destruct (dir f tmp); discriminate E.
  - destruct (dir f tmp) as [i|] eqn:Ed; [|discriminate]. injection E as <-. exists tmp. split; [reflexivity|].
    destruct (v_tmp _ _ _ _ R k tmp) as (T & _); [rewrite Hp; reflexivity|]. rewrite (v_calls _ _ _ _ R k). unfold read. cbn.
    rewrite (proj2 (String.eqb_neq _ _) (Hd k k tmp T)). rewrite !(proj2 (String.eqb_eq _ _) eq_refl). cbn. split; [|reflexivity]. f_equal. exact (v_ready _ _ _ _ R k tmp i Hp Ed).
Qed.
Print Assumptions C46_success.

(** C46: a name ending in .h5 is refused without touching any file, and no other
    name is. *)
Theorem C46_h5_refused :
  forall (C : Type) (empty : C) c e f p' f' base, base <> ""%string -> target c = (base ++ ".h5")%string ->
    step empty c Start e f = Some (p', f') -> (p' = Raised \/ p' = Killed) /\ f' = f.
Proof.
  intros C empty c e f p' f' base HB HT E. assert (H : is_h5 (target c) = true) by (apply is_h5_spec; exists base; auto).
  destruct e; cbn [step] in E; try rewrite H in E; inversion E; auto.
Qed.
Theorem C46_others_tried :
  forall (C : Type) (empty : C) c f tmp, (forall base, base <> ""%string -> target c <> (base ++ ".h5")%string) ->
    temp_name (target c) tmp -> dir f tmp = None -> exists f', step empty c Start (Mkstemp tmp) f = Some (Writing tmp, f').
Proof.
  intros C empty c f tmp H T F. assert (N : is_h5 (target c) = false).
  { destruct (is_h5 (target c)) eqn:E; [|reflexivity]. apply is_h5_spec in E. destruct E as (base & HB & E). destruct (H base HB E). }
  cbn [step]. rewrite N. unfold create. rewrite F. eexists. reflexivity.
Qed.
Print Assumptions C46_others_tried.
Print Assumptions C46_h5_refused.

(** C75: a save whose writing fails (exception in _save_to_netcdf3) or that cannot
    create its temporary file leaves the directory as it was. Missing from the
    full claim: a failing rename. *)
Theorem C75_failed_write_partial :
  forall (C : Type) (empty : C) c es f f', (forall name i, dir f name = Some i -> i < fresh f) ->
    (forall e, In e es -> ~ failed_late e) -> steps empty c Start es f = Some (Raised, f') ->
    (forall name, dir f' name = dir f name) /\ forall name, read f' name = read f name.
Proof. intros C. exact failed_save. Qed.
Print Assumptions C75_failed_write_partial.

(** C75 refuted: when the rename fails (for example because the target is a
    directory), the exception leaves the temporary file behind. *)
Theorem C75_refuted :
  exists (c : call nat) es (f f' : fs nat) tmp, (forall name i, dir f name = Some i -> i < fresh f) /\
    ~ In UnlinkFails es /\ ~ In Kill es /\ temp_name (target c) tmp /\
    steps 0 c Start es f = Some (Raised, f') /\ read f tmp = None /\ read f' tmp = Some (content c).
Proof.
  exists (mkCall "wout.nc" 7), [Mkstemp "wout.nc.x1.tmp"; WriteReturns; ReplaceFails], (mkFs (fun _ => None) (fun _ => 0) 0). eexists. exists "wout.nc.x1.tmp".
  split; [cbn; discriminate|]. split; [cbn; intuition discriminate|]. split; [cbn; intuition discriminate|]. split; [exists "x1"; reflexivity|]. split; [reflexivity|]. split; reflexivity.
Qed.
Print Assumptions C75_refuted.

(** Two processes saving to the same name: both are in the middle of writing. *)
Definition two (k : nat) : call nat * pc := (mkCall "wout.nc" (10 + k), Start).
Example C46_case : initial two (mkFs (fun n => if String.eqb n "wout.nc" then Some 0 else None) (fun _ => 5) 1) /\
  (forall k j tmp, temp_name (target (fst (two k))) tmp -> target (fst (two j)) <> tmp) /\
  exists procs f, reachable 0 (two, mkFs (fun n => if String.eqb n "wout.nc" then Some 0 else None) (fun _ => 5) 1) (procs, f) /\
    read f "wout.nc" = Some 5 /\ read f "wout.nc.a.tmp" = Some 99 /\ read f "wout.nc.b.tmp" = Some 11.
Proof.
  split; [|split].
  - split; [reflexivity|]. cbn. intros name i. destruct (String.eqb name "wout.nc"); intros H; inversion H; lia.
  - intros k j tmp (r & ->). cbn. destruct r; discriminate.
  - pose proof (reach_refl 0 (two, mkFs (fun n => if String.eqb n "wout.nc" then Some 0 else None) (fun _ => 5) 1)) as R.
    eapply (reach_step 0 _ _ _ 0 (Mkstemp "wout.nc.a.tmp")) in R; [|exists "a"; reflexivity|cbn; reflexivity].
    eapply (reach_step 0 _ _ _ 1 (Mkstemp "wout.nc.b.tmp")) in R; [|exists "b"; reflexivity|cbn; reflexivity].
    eapply (reach_step 0 _ _ _ 0 (Modify 99)) in R; [|exact I|cbn; reflexivity].
    eapply (reach_step 0 _ _ _ 1 WriteReturns) in R; [|exact I|cbn; reflexivity].
    eexists _, _. split; [exact R|]. repeat split; reflexivity.
Qed.
