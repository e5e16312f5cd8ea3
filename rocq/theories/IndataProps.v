(** C35, C36, C37, C68, C69, C70: the input object. *)
From Coq Require Import String ZArith List Bool Lia Reals SpecFloat.
From Verif Require Import Base Num IndataModel IndataSpec IndataProofs IndataCheck IndataRound IndataMore IndataCases.
Import ListNotations.
Open Scope Z_scope.

(** *** C35: the consistency check. *)

(** As worded the claim is false: a tolerance list shorter than the list of
    resolutions is read past its end (any arithmetic). *)
Theorem C35_refuted_short_list : forall K : num, exists x : indata K, IsConsistent x = UB /\ ftol_array x = [] /\ ns_array x = [31].
Proof. intros K. exists (modify default_indata false [] (nZ 1)). split; [exact short_ftol_ub|split; reflexivity]. Qed.
Print Assumptions C35_refuted_short_list.

(** ... a time step that is not a number is accepted ... *)
Theorem C35_refuted_nan : exists x : indata num_f64, delt x = nan64 /\ IsConsistent x = Ok tt.
Proof. eexists. split; [|exact nan_delt_accepted]. reflexivity. Qed.
Print Assumptions C35_refuted_nan.

(** ... and arrays that are not there are read. *)
Theorem C35_refuted_unset : exists x : indata num_f64, lasym x = true /\ raxis_s x = None /\ IsConsistent x = UB.
Proof. eexists. split; [|split; [|exact lasym_unset_ub]]; reflexivity. Qed.
Print Assumptions C35_refuted_unset.

(** What does hold: with lists as long as the list of resolutions and the
    asymmetric arrays present whenever lasym is set, nothing is read out of
    bounds, for any arithmetic. *)
Theorem C35_no_bad_read_partial :
  forall (K : num) (x : indata K),
    (length (ns_array x) <= length (ftol_array x))%nat -> (length (ns_array x) <= length (niter_array x))%nat ->
    (lasym x = true -> asymmetric_present x) -> ntor x < 2 ^ 30 ->
    IsConsistent x <> UB /\ IsConsistent x <> Throws.
Proof. intros K x H1 H2 H3 H4. destruct (IsConsistent_safe x H1 H2 H3 H4). split; assumption. Qed.
Print Assumptions C35_no_bad_read_partial.

(** Exact arithmetic: the accepted inputs are exactly those with every control in
    its range and every array of the right size. *)
Theorem C35_accepts_exactly_partial :
  forall x : indata num_R,
    (length (ns_array x) <= length (ftol_array x))%nat -> (length (ns_array x) <= length (niter_array x))%nat ->
    (lasym x = true -> asymmetric_present x) -> ntor x < 2 ^ 30 ->
    (IsConsistent x = Ok tt <-> acceptable x).
Proof. exact IsConsistent_exact. Qed.
Print Assumptions C35_accepts_exactly_partial.

Example C35_case : IsConsistent case_x = Ok tt.
Proof. exact (proj1 case_x_meets). Qed.

(** *** C36: boundary entries. *)

(** An entry with negative m is written outside the array, for any arithmetic. *)
Theorem C36_refuted : forall K : num, FromJson (JObj (entry_m_negative (K := K))) = UB.
Proof. intros K. exact negative_m_ub. Qed.
Print Assumptions C36_refuted.

(** If no entry has negative m (nor n = -2^31): no write outside the array;
    entries outside the resolution are ignored, the last entry of a mode wins,
    modes without entry are zero. *)
Theorem C36_entries_partial :
  forall (K : num) mpol ntor (es : list (coefficient K)), 0 <= mpol -> 0 <= ntor ->
    (forall e, In e es -> 0 <= c_m e /\ - 2 ^ 31 < c_n e) ->
    exists b, write_entries mpol ntor es (zero_mat mpol (2 * ntor + 1)) = Ok b /\ holds_entries mpol ntor es b.
Proof.
  intros K mpol ntor es Hm Hn H.
  destruct (write_entries_total mpol ntor es (zero_mat mpol (2 * ntor + 1)) Hn) as (b & E).
  - apply zero_mat_shaped; lia.
  - apply Forall_forall. exact H.
  - exists b. split; [exact E|]. apply holds_entries_of; assumption.
Qed.
Print Assumptions C36_entries_partial.

(** The same through the JSON text: whenever an input is returned its boundary
    holds the entries of the text. *)
Theorem C36_boundary_from_json :
  forall (K : num) (j : list (string * json K)) x, FromJson (JObj j) = Ok x ->
    boundary_setting j "rbc" (mpol x) (ntor x) (rbc default_indata) (rbc x) /\
    boundary_setting j "zbs" (mpol x) (ntor x) (zbs default_indata) (zbs x).
Proof. intros K j x E. apply FromJson_reads in E. unfold reads_as in E. cbv zeta in E. tauto. Qed.
Print Assumptions C36_boundary_from_json.

(** The stand-alone reader is right for all entries. *)
Theorem C36_stand_alone_reader :
  forall (K : num) mpol ntor (es : list (coefficient K)), 0 <= mpol -> 0 <= ntor ->
    exists l, BoundaryFromJson mpol ntor es = Ok l /\ Z.of_nat (length l) = mpol * (2 * ntor + 1) /\
      forall m n, 0 <= m < mpol -> - ntor <= n <= ntor ->
        (forall v, last_entry es m n v -> nth (Z.to_nat (m * (2 * ntor + 1) + (n + ntor))) l (nZ 0) = v) /\
        (no_entry es m n -> nth (Z.to_nat (m * (2 * ntor + 1) + (n + ntor))) l (nZ 0) = nZ 0).
Proof. intros K. exact BoundaryFromJson_ok. Qed.
Print Assumptions C36_stand_alone_reader.

Example C36_case : exists x, FromJson (JObj case_json) = Ok x /\
  m_body (rbc x) = [[nZ 0; nZ 6; nZ 0]; [nZ 1; nZ 3; nZ 0]; [nZ 0; nZ 0; nZ 0]].
Proof. destruct case_value as (x & E & _ & E2 & _). eauto. Qed.

(** *** C37: integers. *)
Theorem C37_refuted : exists x : indata num_f64, FromJson (JObj [("nfp"%string, parse_int 4294967301)]) = Ok x /\ nfp x = 5.
Proof. exact wrap_nfp. Qed.
Print Assumptions C37_refuted.

(** Every integer setting is the literal modulo 2^32, hence the literal itself
    when it fits ... *)
Theorem C37_exact_in_range_partial :
  forall (K : num) (j : list (string * json K)) x name proj z,
    FromJson (JObj j) = Ok x -> In (name, proj) int_settings -> member j name = Some (JInt z) ->
    fits32 (proj x) /\ (exists k, z = proj x + k * 2 ^ 32) /\ (fits32 z -> proj x = z).
Proof. intros K. exact int_exact. Qed.
Print Assumptions C37_exact_in_range_partial.

(** ... and literals beyond 64 bits are refused. *)
Theorem C37_large_refused_partial :
  forall (K : num) (j : list (string * json K)) name (proj : indata K -> Z) z,
    In (name, proj) int_settings -> z < - 2 ^ 63 \/ 2 ^ 64 <= z -> member j name = Some (parse_int z) ->
    forall x : indata K, FromJson (JObj j) <> Ok x.
Proof. intros K. exact int_large. Qed.
Print Assumptions C37_large_refused_partial.

Theorem C37_lists_exact_in_range_partial :
  forall (K : num) (j : list (string * json K)) x ws, FromJson (JObj j) = Ok x ->
    (member j "ns_array" = Some (JArr ws) -> (forall w, In w ws -> exists z, w = JInt z /\ fits32 z) -> ws = map JInt (ns_array x)) /\
    (member j "niter_array" = Some (JArr ws) -> (forall w, In w ws -> exists z, w = JInt z /\ fits32 z) -> ws = map JInt (niter_array x)).
Proof. intros K. exact int_list_exact. Qed.
Print Assumptions C37_lists_exact_in_range_partial.

(** *** C68: writing and reading back. *)

(** An accepted stellarator-symmetric input with finite numbers is read back
    unchanged from the text written for it. *)
Theorem C68_roundtrip_symmetric_partial :
  forall (K : num) (x : indata K),
    IsConsistent x = Ok tt -> lasym x = false -> ints_fit x -> all_finite x -> matching_lengths x -> well_sized x ->
    plus_zero (rbc x) -> plus_zero (zbs x) ->
    exists j, ToJson x = Ok j /\ FromJson (through_text j) = Ok x.
Proof. intros K. exact json_roundtrip. Qed.
Print Assumptions C68_roundtrip_symmetric_partial.

Example C68_case : exists j, ToJson case_x = Ok j /\ FromJson (through_text j) = Ok case_x.
Proof. destruct case_x_meets as (H1 & H2 & H3 & H4 & H5 & H6 & H7 & H8). exact (json_roundtrip case_x H1 H2 H3 H4 H5 H6 H7 H8). Qed.

(** The text written for an input without stellarator symmetry is never accepted. *)
Theorem C68_refuted : forall (K : num) (x : indata K) j, lasym x = true -> ToJson x = Ok j -> forall y, FromJson (through_text j) <> Ok y.
Proof. intros K. exact json_roundtrip_lasym. Qed.
Print Assumptions C68_refuted.

Theorem C68_refuted_case :
  exists (x : indata num_f64) j, IsConsistent x = Ok tt /\ lasym x = true /\ ToJson x = Ok j /\ forall y, FromJson (through_text j) <> Ok y.
Proof.
  destruct case_lasym_ok as (H1 & j & H2). exists case_lasym, j. split; [exact H1|]. split; [reflexivity|]. split; [exact H2|].
  exact (json_roundtrip_lasym case_lasym j eq_refl H2).
Qed.
Print Assumptions C68_refuted_case.

(** *** C69: changing the resolution. *)
Theorem C69_change_resolution :
  forall (K : num) (x : indata K) mp' nt',
    0 <= mpol x -> 0 <= ntor x -> well_sized x -> 0 <= mp' -> 0 <= nt' < 2 ^ 30 ->
    exists y, SetMpolNtor mp' nt' x = Ok y /\ resolution_changed mp' nt' x y.
Proof. intros K. exact SetMpolNtor_ok. Qed.
Print Assumptions C69_change_resolution.

Theorem C69_grow_and_shrink :
  forall (K : num) (x : indata K) mp' nt',
    0 <= mpol x <= mp' -> 0 <= ntor x <= nt' -> nt' < 2 ^ 30 -> well_sized x -> (lasym x = true -> asymmetric_present x) ->
    exists y, SetMpolNtor mp' nt' x = Ok y /\ SetMpolNtor (mpol x) (ntor x) y = Ok x.
Proof. intros K. exact SetMpolNtor_back. Qed.
Print Assumptions C69_grow_and_shrink.

Example C69_case : exists y, SetMpolNtor 5 4 case_x = Ok y /\ SetMpolNtor 2 1 y = Ok case_x.
Proof.
  apply (SetMpolNtor_back case_x 5 4); [cbn; lia|cbn; lia|lia|exact (proj1 (proj2 (proj2 (proj2 (proj2 (proj2 case_x_meets))))))|discriminate].
Qed.

(** *** C70: reading settings. *)

(** Every setting of an input that is returned is the member of the text with its
    name, or the default; sizes match; absent asymmetric data are absent. *)
Theorem C70_settings :
  forall (K : num) (j : list (string * json K)) x, FromJson (JObj j) = Ok x -> reads_as j x /\ IsConsistent x = Ok tt.
Proof.
  intros K j x E. split; [exact (FromJson_reads j x E)|].
  unfold FromJson in E. cbv zeta in E.
  repeat (match type of E with obind _ _ = Ok _ => apply obind_ok in E; destruct E as (? & ? & E); cbv beta in E end).
  match goal with u : unit |- _ => destruct u end. inversion E; subst x. match goal with H : IsConsistent _ = Ok _ |- _ => rewrite H end. reflexivity.
Qed.
Print Assumptions C70_settings.

(** A text gives an input or an error provided the resolution is not negative
    and not huge, no entry has negative m, and the two asymmetric axis arrays
    are there if lasym is set. *)
Theorem C70_input_or_error_partial :
  forall (K : num) (j : list (string * json K)), plain_json j -> FromJson (JObj j) = Error \/ exists x, FromJson (JObj j) = Ok x.
Proof. intros K. exact FromJson_safe. Qed.
Print Assumptions C70_input_or_error_partial.

Example C70_case : plain_json case_json.
Proof. exact case_plain. Qed.

(** Without that proviso: an exception, or undefined behaviour. *)
Theorem C70_refuted :
  forall K : num, FromJson (JObj (lasym_only (K := K))) = Throws /\ FromJson (JObj (mpol_negative (K := K))) = UB.
Proof. intros K. split; [exact lasym_throws|exact mpol_negative_ub]. Qed.
Print Assumptions C70_refuted.
