(** What the solver must receive. *)
From Coq Require Import ZArith List Bool.
From Verif Require Import RtabModel.
Import ListNotations.
Section Spec.
Variable A : Type.
Variable of_int : Z -> A.
(** The attributes of a Python table, as a Python program reads them *)
Definition shows (s : state A) (o : nat) (p : params A) (r b z : mat A) : Prop :=
  exists t, nth_error (objs A s) o = Some t /\ (forall f, p_params A t f = p f) /\
    read A s (p_ref A t Br) = Some r /\ read A s (p_ref A t Bp) = Some b /\ read A s (p_ref A t Bz) = Some z.
(** The members of the C++ table [c] *)
Definition holds (s : state A) (c : nat) (p : params A) (r b z : mat A) : Prop :=
  exists t, nth_error (tabs A s) c = Some t /\ (forall f, c_params A t f = p f) /\
    c_data A t Br = r /\ c_data A t Bp = b /\ c_data A t Bz = z.
(** Field types of the pydantic class *)
Definition typed (p : params A) : Prop := forall f,
  match f with
  | F_norm | F_symm => exists b, p f = VBool A b
  | F_nfp | F_nr | F_nz | F_nphi => exists z, p f = VInt A z
  | F_rmin | F_rmax | F_zmin | F_zmax => exists a, p f = VFlt A a
  end.
(** No integer is beyond the range of a C++ int *)
Definition small (p : params A) : Prop := forall f z, p f = VInt A z -> (- 2 ^ 31 <= z < 2 ^ 31)%Z.
(** Steps after which the shortcut stays right: parameters are assigned only to objects
    all of whose arrays belong to Python, and an array of another object only into the
    same component and between objects with the same parameters. *)
Definition tame (s : state A) (x : op A) : Prop :=
  match x with
  | SetParams _ o p => typed p /\ forall t k, nth_error (objs A s) o = Some t -> exists i, p_ref A t k = Own i
  | Share _ o k o' k' => k = k' /\ forall t t', nth_error (objs A s) o = Some t -> nth_error (objs A s) o' = Some t' -> forall f, p_params A t f = p_params A t' f
  | New _ p _ _ _ => typed p
  | Compute _ t => typed (c_params A t)
  | _ => True
  end.
Fixpoint all_tame (s : state A) (h : list (op A)) : Prop :=
  match h with [] => True | x :: r => tame s x /\ all_tame (step A of_int s x) r end.
End Spec.
