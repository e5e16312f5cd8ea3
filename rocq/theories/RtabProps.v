(** C133: the external field that a run uses is the one its Python object shows. *)
From Coq Require Import ZArith List Bool.
From Verif Require Import RtabModel RtabSpec RtabProofs RtabCase.
Import ListNotations.

(** The parameters of the grid survive the trip to C++ and are refused exactly when an
    integer is beyond the range of an int. *)
Theorem C133_parameters A (of_int : Z -> A) p : typed A p ->
  (small A p -> exists q, to_cpp_parameters A of_int p = Some q /\ forall f, from_cpp_parameters A q f = p f) /\
  (forall q, to_cpp_parameters A of_int p = Some q -> small A p /\ forall f, from_cpp_parameters A q f = p f).
Proof. exact (fun T => conj (params_there A of_int p T) (fun q => params_back A of_int p q T)). Qed.
Print Assumptions C133_parameters.

(** After any program of tame steps the C++ table handed to the solver holds the
    parameters and components that the Python object shows, and the conversion changes
    nothing that any Python object shows. *)
Theorem C133_table A (of_int : Z -> A) h o t p r b z : all_tame A of_int (mkS A [] [] []) h ->
  let s := run A of_int h in nth_error (objs A s) o = Some t -> shows A s o p r b z -> small A p ->
  exists c s', to_cpp A of_int s t = Some (c, s') /\ holds A s' c p r b z /\
    (forall o' p' r' b' z', shows A s o' p' r' b' z' -> shows A s' o' p' r' b' z').
Proof. exact (convert_ok A of_int h o t p r b z). Qed.
Print Assumptions C133_table.

(** If a component belongs to Python the table is a copy: whatever a program does later
    (tame or not), unless it wraps that very table, the copy keeps its contents. *)
Theorem C133_copy A (of_int : Z -> A) h0 t i k c s' p r b z h : let s := run A of_int h0 in
  p_ref A t k = Own i -> to_cpp A of_int s t = Some (c, s') -> holds A s' c p r b z ->
  (forall x, In x h -> match x with Wrap _ c' => c' <> c | _ => True end) ->
  holds A (fold_left (step A of_int) h s') c p r b z.
Proof.
  exact (fun E H Ho W => unlinked_run A of_int h0 t i k c s' p r b z h E H Ho
    (fun x I => match x as x return (match x with Wrap _ c' => c' <> c | _ => True end) -> ~ wraps A c x with
       | Wrap _ _ => fun N => N | _ => fun _ F => F end (W x I))).
Qed.
Print Assumptions C133_copy.

(** Without the restriction the claim is false: parameters assigned to a response
    computed from coils are not used, and exchanged components are not exchanged. *)
Theorem C133_refuted :
  (exists c s', conv h_par 0 = Some (c, s') /\ shows Z (run Z (fun z => z) h_par) 0 (par 4) [[1; 2]] [[3; 4]] [[5; 6]]%Z /\
    holds Z s' c (par 5) [[1; 2]] [[3; 4]] [[5; 6]]%Z) /\
  (exists c s', conv h_swap 0 = Some (c, s') /\ shows Z (run Z (fun z => z) h_swap) 0 (par 5) [[3; 4]] [[1; 2]] [[5; 6]]%Z /\
    holds Z s' c (par 5) [[1; 2]] [[3; 4]] [[5; 6]]%Z).
Proof. exact refuted. Qed.
Print Assumptions C133_refuted.

(** Case: views, owned arrays, sharing and writes in one tame program. *)
Theorem C133_case : all_tame Z (fun z => z) (mkS Z [] [] []) h_ok /\ small Z (par 5) /\
  shows Z (run Z (fun z => z) h_ok) 0 (par 5) [[1; 2]] [[8; 9]] [[4; 4]]%Z /\
  shows Z (run Z (fun z => z) h_ok) 1 (par 5) [[0; 0]] [[8; 9]] [[7; 7]]%Z.
Proof. exact (conj h_ok_tame (conj small5 h_ok_shows)). Qed.
Print Assumptions C133_case.
