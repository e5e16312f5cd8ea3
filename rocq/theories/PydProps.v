(** Property theorems C128: the JSON form of the data classes with NumPy fields gives
    back the value. *)
From Coq Require Import ZArith List Bool String.
From Verif Require Import PydModel PydSpec PydProofs.
Import ListNotations.

(** C128, round trip: a field whose arrays have at least one dimension, no zero
    dimension except the last, and floats if they are empty. *)
Theorem C128_round_trip (A : Type) (of_int : Z -> A) (t : ty) (v : pv A) :
  has_ty A (faithful A) t v -> bind (dump A t v) (load A of_int t) = Good _ v.
Proof. exact (round_trip A of_int t v). Qed.
Print Assumptions C128_round_trip.

(** C128, the restriction is exact for an array: every other array is refused. *)
Theorem C128_array (A : Type) (of_int : Z -> A) (d : dtype) (n : nat) (a : arr A) :
  array_ok A a -> a_dtype A a = d -> List.length (a_shape A a) = n -> allowed d = true ->
  (faithful A a -> bind (dump A (TArr d n) (PArr A a)) (load A of_int (TArr d n)) = Good _ (PArr A a)) /\
  (~ faithful A a -> bind (dump A (TArr d n) (PArr A a)) (load A of_int (TArr d n)) = Raises _).
Proof. exact (array_trip A of_int d n a). Qed.
Print Assumptions C128_array.

(** C128, no silent change: whatever the arrays, a value that loads is the value that
    was written. *)
Theorem C128_never_wrong (A : Type) (of_int : Z -> A) (t : ty) (v v' : pv A) :
  has_ty A (fun _ => True) t v -> bind (dump A t v) (load A of_int t) = Good _ v' -> v' = v.
Proof. exact (never_wrong A of_int t v v'). Qed.
Print Assumptions C128_never_wrong.

(** C128, strict JSON: what is written has no NaN, infinity or array object, for any
    value of any field type. *)
Theorem C128_strict_json (A : Type) (t : ty) (v j : pv A) : dump A t v = Good _ j -> json_ok A j.
Proof. exact (dump_json A t v j). Qed.
Print Assumptions C128_strict_json.

(** C128 for all accepted values is false: a float array of shape (0, 2), and an
    integer array of length 0, are accepted and written but cannot be read. *)
Theorem C128_all_refuted : exists (t : ty) (v : pv Z) j, has_ty Z (fun _ => True) t v /\ validate Z (fun z => z) t v = Good _ v /\
  dump Z t v = Good _ j /\ load Z (fun z => z) t j = Raises _.
Proof. exact all_refuted. Qed.
Print Assumptions C128_all_refuted.
Theorem C128_empty_int_refuted : exists (v : pv Z) j, has_ty Z (fun _ => True) (TArr DI64 1) v /\ validate Z (fun z => z) (TArr DI64 1) v = Good _ v /\
  dump Z (TArr DI64 1) v = Good _ j /\ load Z (fun z => z) (TArr DI64 1) j = Raises _.
Proof. exact empty_int_refuted. Qed.
Print Assumptions C128_empty_int_refuted.

(** Case: a 2 x 2 array with NaN and -Infinity in an optional field. *)
Theorem C128_case : has_ty Z (faithful Z) (TOpt (TArr DF64 2)) case_v /\
  dump Z (TOpt (TArr DF64 2)) case_v = Good _ (PList Z [PList Z [PStr Z "NaN"; PScal Z (SFlt Z (Ffin Z 3%Z))]; PList Z [PStr Z "-Infinity"; PScal Z (SFlt Z (Ffin Z 0%Z))]]) /\
  bind (dump Z (TOpt (TArr DF64 2)) case_v) (load Z (fun z => z) (TOpt (TArr DF64 2))) = Good _ case_v.
Proof. exact case_ok. Qed.
Print Assumptions C128_case.
