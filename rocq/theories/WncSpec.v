(** What saving and loading should preserve: stated on the fields alone. *)
From Coq Require Import String Ascii ZArith List Bool.
From Verif Require Import WncModel.
Import ListNotations.
Open Scope nat_scope.

Section Spec.
  Context {F : Type}.
  (** The value None is represented by the absence of the field *)
  Definition no_edge (c : ascii) : Prop := py_space c = false /\ c <> zero.
  (** Text without white space or NUL at its ends *)
  Definition trimmed (l : list ascii) : Prop :=
    match l with [] => True | c :: _ => no_edge c /\ no_edge (last l c) end.
  Definition int32 (z : Z) : Prop := (- 2 ^ 31 <= z < 2 ^ 31)%Z.
  Definition ascii7 (l : list ascii) : Prop := forall c, In c l -> nat_of_ascii c < 128.

  (** The dimensions a field uses, with their lengths *)
  Definition uses (f : field F) : list (dimid * nat) :=
    match f_val f with
    | WStr l => let n := match f_max f with Some m => m | None => length l end in [(DLen n, n)]
    | WVec l => match f_dims f with Some [a] => [(DName a, length l)] | _ => [(DLen (length l), length l)] end
    | WIvec l => match f_dims f with Some [a] => [(DName a, length l)] | _ => [(DLen (length l), length l)] end
    | WMat n m _ => match f_dims f with Some [a; b] => [(DName a, n); (DName b, m)] | _ => [(DLen n, n); (DLen m, m)] end
    | _ => []
    end.
  Definition rank_ok (f : field F) : Prop :=
    match f_val f, f_dims f with
    | WVec _, Some l | WIvec _, Some l => length l = 1
    | WMat _ _ _, Some l => length l = 2
    | _, _ => True
    end.
  (** Contents that a NetCDF3 variable can hold *)
  Definition storable (f : field F) : Prop :=
    rank_ok f /\
    match f_val f with
    | WInt z => int32 z
    | WStr l => ascii7 l /\ trimmed l /\ (forall m, f_max f = Some m -> length l <= m)
    | WIvec l => forall z, In z l -> int32 z
    | WMat n m d => 0 < n /\ 0 < m /\ length d = n * m
    | _ => True
    end.
  (** [size] is the common length of each dimension; at most one is 0 *)
  Definition agree (size : dimid -> nat) (fs : list (field F)) : Prop :=
    size (DName "mn_mode_pot") = 100 /\ size (DName "current_label") = 30 /\
    (forall n, size (DLen n) = n) /\
    (forall f d n, In f fs -> In (d, n) (uses f) -> n = size d) /\
    (forall f g d e, In f fs -> In g fs -> In (d, 0) (uses f) -> In (e, 0) (uses g) -> d = e).
  Definition names (fs : list (field F)) : list string := map (@f_name F) fs.
  Definition is_int (fs : list (field F)) (s : string) (z : Z) : Prop :=
    exists f, In f fs /\ f_name f = s /\ f_val f = WInt z.
  (** The members every wout object has that loading relies on *)
  Definition complete (fs : list (field F)) : Prop :=
    (exists z, is_int fs "mnmax" z) /\ (exists z, is_int fs "ns" z) /\ (exists z, is_int fs "lasym__logical__" z) /\
    (exists z, is_int fs "lrfp__logical__" z) /\
    (exists f, In f fs /\ f_name f = "lmns_full"%string /\ f_val f <> WNone) /\
    (is_int fs "lasym__logical__" 0 \/ exists f, In f fs /\ f_name f = "lmnc_full"%string /\ f_val f <> WNone).
End Spec.
