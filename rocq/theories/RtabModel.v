(** The Python response table of the external field and its conversion to and from the
    C++ table: src/vmecpp/_free_boundary.py and
    cpp/vmecpp/vmec/pybind11/pybind_vmec.cc:1165-1226, makegrid_lib.h:23-78.
    Memory is explicit because the Python arrays may be views of the C++ table.
    An array is one that Python owns or a view of a whole component of a C++ table
    (DefEigenProperty returns a reference that keeps its table alive); slices and
    reshaped views, whose base is an array and not the table, are left out.
    [A] stands for the doubles. Values have the types of their pydantic fields. *)
From Coq Require Import ZArith List Bool.
Import ListNotations.
Open Scope Z_scope.

Section Rtab.
Variable A : Type.
Variable of_int : Z -> A.

(** ** MakegridParameters *)
Inductive field := F_norm | F_symm | F_nfp | F_rmin | F_rmax | F_nr | F_zmin | F_zmax | F_nz | F_nphi.
Definition field_eqb (a b : field) : bool :=
  match a, b with
  | F_norm, F_norm | F_symm, F_symm | F_nfp, F_nfp | F_rmin, F_rmin | F_rmax, F_rmax | F_nr, F_nr
  | F_zmin, F_zmin | F_zmax, F_zmax | F_nz, F_nz | F_nphi, F_nphi => true
  | _, _ => false
  end.
Inductive val := VBool (b : bool) | VInt (z : Z) | VFlt (a : A).
(** attribute access by name, on both sides *)
Definition params := field -> val.
(** _free_boundary.py:24-43, order of model_fields *)
Definition model_fields : list field := [F_norm; F_symm; F_nfp; F_rmin; F_rmax; F_nr; F_zmin; F_zmax; F_nz; F_nphi].
(** makegrid_lib.h:23-58, order of the members of the struct *)
Definition struct_members : list field := [F_norm; F_symm; F_nfp; F_rmin; F_rmax; F_nr; F_zmin; F_zmax; F_nz; F_nphi].
(** pybind_vmec.cc:1166-1167, argument types of py::init *)
Inductive cty := CBool | CInt | CDouble.
Definition init_types : list cty := [CBool; CBool; CInt; CDouble; CDouble; CInt; CDouble; CDouble; CInt; CInt].
Definition int32 (z : Z) : bool := (- 2 ^ 31 <=? z) && (z <? 2 ^ 31).
(** pybind11 argument conversion; None is a TypeError *)
Definition cast (t : cty) (v : val) : option val :=
  match t, v with
  | CBool, VBool b => Some (VBool b)
  | CInt, VInt z => if int32 z then Some (VInt z) else None
  | CDouble, VFlt a => Some (VFlt a)
  | CDouble, VInt z => Some (VFlt (of_int z))
  | _, _ => None
  end.
Fixpoint cast_all (ts : list cty) (vs : list val) : option (list val) :=
  match ts, vs with
  | [], [] => Some []
  | t :: ts, v :: vs => match cast t v, cast_all ts vs with Some x, Some r => Some (x :: r) | _, _ => None end
  | _, _ => None
  end.
(** aggregate initialisation: the members take the arguments in order *)
Fixpoint member (ms : list field) (vs : list val) (f : field) : val :=
  match ms, vs with m :: ms, v :: vs => if field_eqb f m then v else member ms vs f | _, _ => VInt 0 end.
(** _to_cpp_makegrid_parameters, 55-58 *)
Definition to_cpp_parameters (p : params) : option params :=
  option_map (member struct_members) (cast_all init_types (map p model_fields)).
(** _from_cpp_makegrid_parameters, 46-53: getattr by name *)
Definition from_cpp_parameters (q : params) : params := fun f => q f.

(** ** Tables and memory *)
Definition mat := list (list A).
Inductive comp := Br | Bp | Bz.
Definition comp_eqb (a b : comp) : bool := match a, b with Br, Br | Bp, Bp | Bz, Bz => true | _, _ => false end.
Record ctable := mkC { c_params : params; c_data : comp -> mat }.
Inductive aref := Own (id : nat) | View (c : nat) (k : comp).
Record ptable := mkP { p_params : params; p_ref : comp -> aref }.
Record state := mkS { tabs : list ctable; bufs : list mat; objs : list ptable }.

Definition setk {X} (f : comp -> X) (k : comp) (x : X) : comp -> X := fun j => if comp_eqb j k then x else f j.
Fixpoint set_nth {X} (l : list X) (n : nat) (g : X -> X) : list X :=
  match l, n with [], _ => [] | x :: r, O => g x :: r | x :: r, S n => x :: set_nth r n g end.
Definition read (s : state) (a : aref) : option mat :=
  match a with
  | Own i => nth_error (bufs s) i
  | View c k => option_map (fun t => c_data t k) (nth_error (tabs s) c)
  end.
(** a[i, j] = v *)
Definition write (s : state) (a : aref) (i j : nat) (v : A) : state :=
  let put m := set_nth m i (fun r => set_nth r j (fun _ => v)) in
  match a with
  | Own b => mkS (tabs s) (set_nth (bufs s) b put) (objs s)
  | View c k => mkS (set_nth (tabs s) c (fun t => mkC (c_params t) (setk (c_data t) k (put (c_data t k))))) (bufs s) (objs s)
  end.
(** _from_cpp_magnetic_field_response_table, 91-104 *)
Definition from_cpp (s : state) (c : nat) : option ptable :=
  option_map (fun t => mkP (from_cpp_parameters (c_params t)) (fun k => View c k)) (nth_error (tabs s) c).
(** the C++ table that an array is a view of: its .base *)
Definition base (a : aref) : option nat := match a with Own _ => None | View c _ => Some c end.
(** _to_cpp_magnetic_field_response_table, 119-140: the table and the new state *)
Definition to_cpp (s : state) (o : ptable) : option (nat * state) :=
  let fresh :=
    match to_cpp_parameters (p_params o), read s (p_ref o Br), read s (p_ref o Bp), read s (p_ref o Bz) with
    | Some q, Some r, Some p, Some z =>
        Some (length (tabs s), mkS (tabs s ++ [mkC q (fun k => match k with Br => r | Bp => p | Bz => z end)]) (bufs s) (objs s))
    | _, _, _, _ => None
    end in
  match base (p_ref o Br), base (p_ref o Bp), base (p_ref o Bz) with
  | Some u, Some v, Some w => if Nat.eqb u v && Nat.eqb u w then Some (u, s) else fresh
  | _, _, _ => fresh
  end.

(** ** What a Python program may do *)
Inductive op :=
| Compute (t : ctable) (* from_coils_file, 106-117: the C++ code returns a new table, wrapped at once *)
| Wrap (c : nat) (* a Python object for a C++ table *)
| New (p : params) (r b z : mat) (* the constructor with arrays of the caller *)
| Write (o : nat) (k : comp) (i j : nat) (v : A) (* an element of an array *)
| Replace (o : nat) (k : comp) (m : mat) (* assign a new array *)
| Share (o : nat) (k : comp) (o' : nat) (k' : comp) (* assign an array of another object *)
| SetParams (o : nat) (p : params) (* assign parameters, or members of them *)
| Convert (o : nat). (* hand to the solver *)
Definition step (s : state) (x : op) : state :=
  let add s o := mkS (tabs s) (bufs s) (objs s ++ [o]) in
  let seto s o g := mkS (tabs s) (bufs s) (set_nth (objs s) o g) in
  match x with
  | Compute t => let s1 := mkS (tabs s ++ [t]) (bufs s) (objs s) in
      match from_cpp s1 (length (tabs s)) with Some o => add s1 o | None => s1 end
  | Wrap c => match from_cpp s c with Some o => add s o | None => s end
  | New p r b z => let n := length (bufs s) in
      mkS (tabs s) (bufs s ++ [r; b; z]) (objs s ++ [mkP p (fun k => match k with Br => Own n | Bp => Own (S n) | Bz => Own (S (S n)) end)])
  | Write o k i j v => match nth_error (objs s) o with Some t => write s (p_ref t k) i j v | None => s end
  | Replace o k m => let n := length (bufs s) in
      seto (mkS (tabs s) (bufs s ++ [m]) (objs s)) o (fun t => mkP (p_params t) (setk (p_ref t) k (Own n)))
  | Share o k o' k' => match nth_error (objs s) o' with
      | Some t' => seto s o (fun t => mkP (p_params t) (setk (p_ref t) k (p_ref t' k'))) | None => s end
  | SetParams o p => seto s o (fun t => mkP p (p_ref t))
  | Convert o => match nth_error (objs s) o with
      | Some t => match to_cpp s t with Some (_, s1) => s1 | None => s end | None => s end
  end.
Definition run (h : list op) : state := fold_left step h (mkS [] [] []).
End Rtab.
