(** JSON form of the Python data classes with NumPy fields: BaseModelWithNumpy,
    src/vmecpp/_pydantic_numpy.py.
    A Python value and a JSON value have the same representation [pv] (a JSON value
    has no [PArr]); printing and parsing of the text, which reproduces finite floats
    exactly, is left out.  [A] stands for the finite doubles.  Field types: arrays,
    floats, other scalars (str, int, bool), Any, and Optional, list, dict of these;
    unions of several types, tuples, sets, nested models and computed fields are not
    modelled.  NumPy functions follow NumPy's documentation (tolist, array); JAX
    arrays are not modelled. *)
From Coq Require Import ZArith List Bool String.
Import ListNotations.
Open Scope Z_scope.

Section Pyd.
Variable A : Type.
Variable of_int : Z -> A. (* int to double *)

Inductive flt := Fnan | Finf (negative : bool) | Ffin (a : A).
(** np.float64, np.int64, np.bool_, and any other dtype. *)
Inductive dtype := DF64 | DI64 | DBool | DOther.
Inductive scalar := SFlt (f : flt) | SInt (z : Z) | SBool (b : bool).
Record arr := mkArr { a_dtype : dtype; a_shape : list nat; a_data : list scalar }.
Inductive pv :=
| PNone | PScal (s : scalar) | PStr (t : string) | PList (l : list pv) | PDict (l : list (string * pv)) | PArr (a : arr).
Inductive ty := TArr (d : dtype) (ndim : nat) | TFloat | TScalar | TAny | TOpt (t : ty) | TList (t : ty) | TDict (t : ty).
(** Result of a conversion: a value or an exception. *)
Inductive res (X : Type) := Good (x : X) | Raises.
Arguments Good {X} x. Arguments Raises {X}.
Definition bind {X Y} (r : res X) (f : X -> res Y) : res Y := match r with Good x => f x | Raises => Raises end.
Fixpoint map_res {X Y} (f : X -> res Y) (l : list X) : res (list Y) :=
  match l with [] => Good [] | x :: r => bind (f x) (fun y => bind (map_res f r) (fun ys => Good (y :: ys))) end.

(** ** Serialisation *)
(** np.ndarray.tolist: nested lists, a plain scalar for a 0-d array. *)
Fixpoint prod (sh : list nat) : nat := match sh with [] => 1%nat | n :: r => (n * prod r)%nat end.
Fixpoint chunk (n k : nat) (d : list scalar) : list (list scalar) :=
  match n with O => [] | S n => firstn k d :: chunk n k (skipn k d) end.
Fixpoint tolist (sh : list nat) (d : list scalar) : pv :=
  match sh with
  | [] => match d with s :: _ => PScal s | [] => PNone end
  | n :: r => PList (map (tolist r) (chunk n (prod r) d))
  end.
(** _NUMPY_ALLOWED_NONBINARY_DTYPES, 122 *)
Definition allowed (d : dtype) : bool := match d with DOther => false | _ => true end.
(** _serialize_value, 178-203 *)
Definition ser_array (v : pv) : res pv :=
  match v with PArr a => if allowed (a_dtype a) then Good (tolist (a_shape a) (a_data a)) else Raises | _ => Good v end.
(** _traverse_field_contents, 252-374, with the serialiser.  Optional[T] is
    Union[T, None]: the first alternative decides, and None is left as it is. *)
Fixpoint ser (t : ty) (v : pv) : res pv :=
  match t with
  | TAny | TFloat | TScalar => Good v
  | TArr _ _ => ser_array v
  | TOpt t => ser t v
  | TList t => match v with PList l => bind (map_res (ser t) l) (fun l => Good (PList l)) | _ => Good v end
  | TDict t => match v with
      | PDict l => bind (map_res (fun kv => bind (ser t (snd kv)) (fun w => Good (fst kv, w))) l) (fun l => Good (PDict l))
      | _ => Good v end
  end.
(** _sanitize_float, 393-398 *)
Definition san_float (f : flt) : pv :=
  match f with
  | Fnan => PStr "NaN"
  | Finf true => PStr "-Infinity" | Finf false => PStr "Infinity"
  | Ffin a => PScal (SFlt (Ffin a))
  end.
(** sanitize_floats_in_container, 377-390; model_dump_json does the same
    (ser_json_inf_nan="strings", 25).  An array that is left makes pydantic raise. *)
Fixpoint sanitize (v : pv) : res pv :=
  match v with
  | PScal (SFlt f) => Good (san_float f)
  | PList l => bind ((fix go l := match l with [] => Good [] | x :: r => bind (sanitize x) (fun y => bind (go r) (fun ys => Good (y :: ys))) end) l)
      (fun l => Good (PList l))
  | PDict l => bind ((fix go l := match l with [] => Good [] | (k, x) :: r => bind (sanitize x) (fun y => bind (go r) (fun ys => Good ((k, y) :: ys))) end) l)
      (fun l => Good (PDict l))
  | PArr _ => Raises
  | _ => Good v
  end.
(** _serialize_field, 29-39 and the dump of one field *)
Definition dump (t : ty) (v : pv) : res pv := bind (ser t v) sanitize.

(** ** Reading back *)
(** _reconstruct_float, 416-425 *)
Definition rec_float (v : pv) : pv :=
  match v with
  | PNone => PScal (SFlt Fnan)
  | PStr t =>
      if (t =? "NaN")%string || (t =? "nan")%string then PScal (SFlt Fnan)
      else if (t =? "Infinity")%string || (t =? "inf")%string then PScal (SFlt (Finf false))
      else if (t =? "-Infinity")%string || (t =? "-inf")%string then PScal (SFlt (Finf true))
      else v
  | _ => v
  end.
(** _reconstruct_floats_for_numpy, 401-413 *)
Fixpoint rec_floats (v : pv) : pv :=
  match v with PList l => PList (map rec_floats l) | _ => rec_float v end.
(** np.array of a nested list: the common shape and the leaves; nested lists of
    different shapes raise. *)
Definition shape_eqb (a b : list nat) : bool := if list_eq_dec Nat.eq_dec a b then true else false.
Fixpoint disc (v : pv) : res (list nat * list pv) :=
  match v with
  | PList l => bind ((fix go l := match l with [] => Good [] | x :: r => bind (disc x) (fun y => bind (go r) (fun ys => Good (y :: ys))) end) l)
      (fun rs => match rs with
                 | [] => Good ([0%nat], [])
                 | (sh, _) :: _ => if forallb (fun r => shape_eqb sh (fst r)) rs
                                   then Good (List.length rs :: sh, List.concat (map snd rs)) else Raises
                 end)
  | _ => Good ([], [v])
  end.
(** The dtype of the leaves: the smallest of bool, int64, float64 that holds all of
    them, float64 if there is none; strings, dicts and integers beyond 64 bit give
    other dtypes. *)
Definition in_i64 (z : Z) : bool := (- 2 ^ 63 <=? z) && (z <? 2 ^ 63).
Definition leaf_dtype (v : pv) : dtype :=
  match v with
  | PScal (SFlt _) => DF64
  | PScal (SInt z) => if in_i64 z then DI64 else DOther
  | PScal (SBool _) => DBool
  | _ => DOther
  end.
Definition join (a b : dtype) : dtype :=
  match a, b with
  | DOther, _ | _, DOther => DOther
  | DF64, _ | _, DF64 => DF64
  | DI64, _ | _, DI64 => DI64
  | DBool, DBool => DBool
  end.
Definition leaves_dtype (l : list pv) : dtype :=
  match l with [] => DF64 | x :: r => fold_left (fun d v => join d (leaf_dtype v)) r (leaf_dtype x) end.
Definition cast (d : dtype) (v : pv) : scalar :=
  match v with
  | PScal s =>
      match d, s with
      | DF64, SInt z => SFlt (Ffin (of_int z))
      | DF64, SBool b => SFlt (Ffin (of_int (if b then 1 else 0)))
      | DI64, SBool b => SInt (if b then 1 else 0)
      | _, _ => s
      end
  | _ => SFlt Fnan
  end.
(** _deserialize_value, 206-249 *)
Definition deser_array (v : pv) : res pv :=
  match v with
  | PList _ =>
      bind (disc (rec_floats v)) (fun r =>
        let '(sh, leaves) := r in
        let d := leaves_dtype leaves in
        if allowed d then Good (PArr (mkArr d sh (map (cast d) leaves))) else Good v)
  | _ => Good v
  end.
(** _traverse_field_contents with the deserialiser *)
Fixpoint deser (t : ty) (v : pv) : res pv :=
  match t with
  | TAny | TFloat | TScalar => Good v
  | TArr _ _ => deser_array v
  | TOpt t => deser t v
  | TList t => match v with PList l => bind (map_res (deser t) l) (fun l => Good (PList l)) | _ => Good v end
  | TDict t => match v with
      | PDict l => bind (map_res (fun kv => bind (deser t (snd kv)) (fun w => Good (fst kv, w))) l) (fun l => Good (PDict l))
      | _ => Good v end
  end.
(** Pydantic's own validation (external): an instance check for arrays, with
    jaxtyping's test of the dtype and the number of dimensions; floats accept the
    spellings of NaN and infinity, and integers. *)
Definition dtype_eqb (a b : dtype) : bool :=
  match a, b with DF64, DF64 | DI64, DI64 | DBool, DBool | DOther, DOther => true | _, _ => false end.
Fixpoint validate (t : ty) (v : pv) : res pv :=
  match t with
  | TAny => Good v
  | TArr d n => match v with PArr a => if dtype_eqb (a_dtype a) d && (List.length (a_shape a) =? n)%nat then Good v else Raises | _ => Raises end
  | TFloat => match v with
      | PScal (SFlt _) => Good v | PScal (SInt z) => Good (PScal (SFlt (Ffin (of_int z))))
      | PStr _ => match rec_float v with PScal (SFlt f) => Good (PScal (SFlt f)) | _ => Raises end
      | _ => Raises end
  | TScalar => match v with PScal (SInt _) | PScal (SBool _) | PStr _ => Good v | _ => Raises end
  | TOpt t => match v with PNone => Good PNone | _ => validate t v end
  | TList t => match v with PList l => bind (map_res (validate t) l) (fun l => Good (PList l)) | _ => Raises end
  | TDict t => match v with
      | PDict l => bind (map_res (fun kv => bind (validate t (snd kv)) (fun w => Good (fst kv, w))) l) (fun l => Good (PDict l))
      | _ => Raises end
  end.
(** _validate_field, 41-56 *)
Definition load (t : ty) (v : pv) : res pv := bind (deser t v) (validate t).
End Pyd.
