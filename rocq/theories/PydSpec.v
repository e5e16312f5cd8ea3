(** Values of a declared field type, and the arrays whose JSON form determines them. *)
From Coq Require Import ZArith List Bool String.
From Verif Require Import PydModel.
Import ListNotations.

Section S.
Variable A : Type.
Definition elem_ok (d : dtype) (s : scalar A) : Prop :=
  match d, s with
  | DF64, SFlt _ _ => True
  | DI64, SInt _ z => (- 2 ^ 63 <= z < 2 ^ 63)%Z
  | DBool, SBool _ _ => True
  | _, _ => False
  end.
(** An array: as many entries as the shape says, all of the dtype. *)
Definition array_ok (a : arr A) : Prop :=
  List.length (a_data A a) = fold_right Nat.mul 1%nat (a_shape A a) /\ Forall (elem_ok (a_dtype A a)) (a_data A a).
(** No dimension except the last is zero, there is one, and an array without entries
    holds floats. *)
Definition faithful (a : arr A) : Prop :=
  a_shape A a <> [] /\ Forall (fun n => n <> 0%nat) (removelast (a_shape A a)) /\ (a_data A a = [] -> a_dtype A a = DF64).
Fixpoint has_ty (arrays : arr A -> Prop) (t : ty) (v : pv A) : Prop :=
  match t with
  | TArr d n => exists a, v = PArr A a /\ a_dtype A a = d /\ List.length (a_shape A a) = n /\ array_ok a /\ arrays a
  | TFloat => exists f, v = PScal A (SFlt A f)
  | TScalar => (exists z, v = PScal A (SInt A z)) \/ (exists b, v = PScal A (SBool A b)) \/ (exists t, v = PStr A t)
  | TAny => False
  | TOpt t => v = PNone A \/ has_ty arrays t v
  | TList t => exists l, v = PList A l /\ Forall (has_ty arrays t) l
  | TDict t => exists l, v = PDict A l /\ Forall (fun kv => has_ty arrays t (snd kv)) l
  end.
(** Strict JSON: no array object and no float that JSON cannot write. *)
Fixpoint json_ok (v : pv A) : Prop :=
  match v with
  | PScal _ (SFlt _ (Ffin _ _)) => True
  | PScal _ (SFlt _ _) => False
  | PList _ l => (fix all l := match l with [] => True | x :: r => json_ok x /\ all r end) l
  | PDict _ l => (fix all l := match l with [] => True | (_, x) :: r => json_ok x /\ all r end) l
  | PArr _ _ => False
  | _ => True
  end.
End S.
