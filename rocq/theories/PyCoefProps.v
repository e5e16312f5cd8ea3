(** C38, C71: dense and sparse boundary coefficients in Python. *)
From Coq Require Import String ZArith List Bool Lia SpecFloat.
From Verif Require Import Base Num IndataModel IndataSpec PyCoefModel PyCoefSpec PyCoefProofs.
Import ListNotations.
Open Scope Z_scope.

(** C38: serialising an array and reading it back at its resolution gives the
    same array, whatever the arithmetic (a negative zero loses its sign). *)
Theorem C38_roundtrip :
  forall (K : num) (b : mat K) mpol ntor, 0 <= mpol -> 0 <= ntor -> shaped b mpol (2 * ntor + 1) ->
    exists l b', dense_to_sparse b = Ok l /\ read_field mpol ntor l = Ok b' /\ same_up_to_zero b b' mpol ntor /\
      (only_plus_zero b -> b' = b).
Proof. intros K. exact roundtrip. Qed.
Print Assumptions C38_roundtrip.

(** C38: the sparse list names the non-zero modes, each once. *)
Theorem C38_sparse_list :
  forall (K : num) (b : mat K) mpol ntor, 0 <= ntor -> shaped b mpol (2 * ntor + 1) ->
    exists l, dense_to_sparse b = Ok l /\ lists_nonzero b mpol ntor l.
Proof. intros K. exact dense_to_sparse_lists. Qed.
Print Assumptions C38_sparse_list.

(** C38: resizing keeps every coefficient that fits at its mode and zeroes the others. *)
Theorem C38_resize :
  forall (K : num) mp nt mp' nt' (c : mat K), 0 <= mp -> 0 <= nt -> shaped c mp (2 * nt + 1) -> 0 <= mp' -> 0 <= nt' ->
    exists c', resize_2d_coeff c mp' nt' = Ok c' /\ resized mp nt mp' nt' c c'.
Proof. intros K. exact resize_2d_ok. Qed.
Print Assumptions C38_resize.

Theorem C38_resize_back :
  forall (K : num) mp nt mp' nt' (c : mat K), 0 <= mp <= mp' -> 0 <= nt <= nt' -> shaped c mp (2 * nt + 1) ->
    exists c', resize_2d_coeff c mp' nt' = Ok c' /\ resize_2d_coeff c' mp nt = Ok c.
Proof. intros K. exact grow_and_shrink. Qed.
Print Assumptions C38_resize_back.

(** C38: an array given to the constructor ends up at the resolution of the input. *)
Theorem C38_constructor :
  forall (K : num) mp nt mpol ntor (v : option (mat K)), 0 <= mpol -> 0 <= ntor -> 0 <= mp -> 0 <= nt ->
    match v with Some c => shaped c mp (2 * nt + 1) | None => True end ->
    exists r, validate_2d mpol ntor v = Ok r /\
      match v with Some c => resized mp nt mpol ntor c r | None => r = zero_mat mpol (2 * ntor + 1) end.
Proof. intros K. exact validate_2d_ok. Qed.
Print Assumptions C38_constructor.

(** C38: axis arrays are padded with zeros, never cut. *)
Theorem C38_axis :
  forall (K : num) (a : list K) ntor, 0 <= ntor ->
    (zlen a <= ntor + 1 -> exists r, resize_1d_axis_coeff a ntor = Ok r /\ padded a r (ntor + 1)) /\
    (zlen a > ntor + 1 -> resize_1d_axis_coeff a ntor = Throws).
Proof. intros K. exact resize_1d_ok. Qed.
Print Assumptions C38_axis.

(** C38: with an explicit shape the reader is strict: every entry is stored (the
    last one of a mode wins) or an exception is raised. *)
Theorem C38_strict :
  forall (K : num) (l : list (coefficient K)) mpol ntor, 0 <= mpol -> 0 <= ntor ->
    (Forall (inside mpol ntor) l -> exists b, sparse_to_dense l mpol ntor = Ok b /\ holds_entries mpol ntor l b) /\
    (~ Forall (inside mpol ntor) l -> sparse_to_dense l mpol ntor = Throws).
Proof. intros K. exact strict_reading. Qed.
Print Assumptions C38_strict.

(** A 2 x 3 array with three non-zero entries, in double precision. *)
Definition three : mat num_f64 :=
  mkMat 2 3 [[nZ 10; nZ 0; nZ 0]; [nfrac (-3) 2; nZ 0; nfrac 3 2]].
Example three_ok : shaped three 2 (2 * 1 + 1) /\ only_plus_zero three.
Proof.
  split.
  - repeat split. cbn. intros row [<-|[<-|[]]]; reflexivity.
  - intros row x [<-|[<-|[]]] Hx; cbn in Hx; repeat (destruct Hx as [<-|Hx]; [vm_compute; congruence|]); contradiction.
Qed.
Example C38_case : exists l, dense_to_sparse three = Ok l /\ map (fun e => (c_m e, c_n e)) l = [(0, -1); (1, -1); (1, 1)] /\ read_field 2 1 l = Ok three.
Proof.
  destruct (roundtrip three 2 1 ltac:(lia) ltac:(lia) (proj1 three_ok)) as (l & b' & E1 & E2 & _ & H). rewrite (H (proj2 three_ok)) in E2.
  exists l. split; [exact E1|]. split; [|exact E2]. rewrite (dense_to_sparse_eq three 2 1 ltac:(lia) (proj1 three_ok)) in E1. inversion E1. vm_compute. reflexivity.
Qed.

(** C71: for the same list of entries the Python and the C++ reader produce the
    same array (any arithmetic, no entry with negative m). *)
Theorem C71_same_array_partial :
  forall (K : num) (l : list (coefficient K)) mpol ntor, 0 <= mpol -> 0 <= ntor ->
    Forall (fun e => 0 <= c_m e /\ - 2 ^ 31 < c_n e) l ->
    exists b, read_field mpol ntor l = Ok b /\ write_entries mpol ntor l (zero_mat mpol (2 * ntor + 1)) = Ok b.
Proof. intros K. exact agrees_with_cpp. Qed.
Print Assumptions C71_same_array_partial.

(** C71: Python refuses every list with a negative m; C++ may write outside the array. *)
Theorem C71_python_refuses_negative :
  forall (K : num) (l : list (coefficient K)) mpol ntor, Exists (fun e => c_m e < 0) l -> read_field mpol ntor l = Throws.
Proof. intros K. exact read_field_negative. Qed.
Print Assumptions C71_python_refuses_negative.

Theorem C71_refuted :
  forall K : num, exists l : list (coefficient K),
    read_field 2 1 l = Throws /\ write_entries 2 1 l (zero_mat 2 3) = UB.
Proof.
  intros K. exists [mkCoef (-1) 0 (nZ 1)]. split; [|reflexivity]. apply read_field_negative. constructor. cbn. lia.
Qed.
Print Assumptions C71_refuted.

Example C71_case : exists b, read_field 2 1 [mkCoef 0 0 (nZ 3); mkCoef 1 5 (nZ 7); mkCoef 0 0 (nZ 4 : num_f64)] = Ok b /\ coef 1 b 0 0 = nZ 4.
Proof.
  destruct (read_field_holds (K := num_f64) [mkCoef 0 0 (nZ 3); mkCoef 1 5 (nZ 7); mkCoef 0 0 (nZ 4)] 2 1 ltac:(lia) ltac:(lia)) as (b & E & _ & H).
  { repeat constructor; cbn; lia. }
  exists b. split; [exact E|]. apply (H 0 0 ltac:(lia) ltac:(lia)). exists [mkCoef 0 0 (nZ 3); mkCoef 1 5 (nZ 7)], []. split; [reflexivity|intros ? []].
Qed.
