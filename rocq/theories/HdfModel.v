(** Saving the output quantities of a run to an HDF5 file and loading them:
    vmec/output_quantities/output_quantities.cc:39-1141 (WriteTo and LoadInto of each
    part, the lists of members are in HdfData.v), 1146-1248 (Save), 1250-1363 (Load)
    and util/hdf5_io/hdf5_io.{h,cc}.  The copy of the input (VmecINDATA) is in IhdfModel.v.
    A part is a function from member names to values; a file maps a group and a name to
    the stored value.  HDF5 stores every value as it is; creating a dataset or group
    that exists and opening a dataset that does not exist throw ([None]).
    A member that a constructor leaves uninitialised has an arbitrary value. *)
From Coq Require Import ZArith List Bool String.
Import ListNotations.
Open Scope string_scope.

Section Hdf.
Variable A : Type.
Variable zero : A.
Variable stod : string -> A.

Inductive value :=
| VInt (z : Z) | VDbl (a : A) | VBool (b : bool) | VStr (s : string) | VVec (l : list A) | VIVec (l : list Z)
| VStrs (l : list string) | VMat (rows cols : Z) (d : Z -> Z -> A).
Definition obj := string -> value.
Definition file := list ((string * string) * value).
Fixpoint find (f : file) (g n : string) : option value :=
  match f with
  | [] => None
  | ((g', n'), v) :: r => if String.eqb g g' && String.eqb n n' then Some v else find r g n
  end.
Definition exists_ (f : file) (g n : string) : bool := match find f g n with Some _ => true | None => false end.

(** WRITEMEMBER 41-42 and WriteH5Dataset. A nonempty vector of strings is written from
    the std::string objects as if they were pointers (hdf5_io.cc:29-36): undefined. *)
Definition write (g : string) (x : obj) (f : file) (n : string) : option file :=
  if exists_ f g n then None
  else match x n with VStrs (_ :: _) => None | v => Some (f ++ [((g, n), v)])%list end.
Fixpoint write_all (g : string) (x : obj) (f : file) (ns : list string) : option file :=
  match ns with [] => Some f | n :: r => match write g x f n with Some f1 => write_all g x f1 r | None => None end end.

(** Statements of the LoadInto functions *)
Inductive instr :=
| Rd (n : string) (* READMEMBER 43-44 *)
| RdC (n old : string) (* READMEMBER_COMPAT 47-53 *)
| RdZ (n like : string) (* 137-153: zeros of the size of another member if absent *)
| RdVersion (* 934-943 *)
| RdExt (* 968-976 *)
| RdHalf (l : list (string * string)) (* 1015-1046, new and old names *)
| T2 (n file_name : string) (* ReadAndTranspose2D 1067-1084 *)
| T2o (n file_name : string) (* the same if the name exists, 1113-1118, 1133-1138 *)
| T2p (n file_name size : string). (* ReadAndTransposePadHalfGrid2D 1085-1099 *)

Definition set (y : obj) (n : string) (v : value) : obj := fun m => if String.eqb m n then v else y m.
Definition rd (g : string) (f : file) (y : obj) (n name : string) : option obj :=
  match find f g name with Some v => Some (set y n v) | None => None end.
Definition int_of (v : value) : Z := match v with VInt z => z | _ => 0%Z end.
Definition transpose (r c : Z) (d : Z -> Z -> A) : value := VMat c r (fun i j => d j i).
Definition t2 (y : obj) (v : value) : value :=
  match v with
  | VMat r c d =>
      if (r =? int_of (y "ns"))%Z && ((c =? int_of (y "mnmax"))%Z || (c =? int_of (y "mnmax_nyq"))%Z)
      then transpose r c d else v
  | _ => v
  end.
Definition t2p (y : obj) (size : string) (v : value) : value :=
  let ns := int_of (y "ns") in let mn := int_of (y size) in
  match v with
  | VMat r c d =>
      if (r =? ns - 1)%Z && (c =? mn)%Z then VMat mn ns (fun i j => if (j =? 0)%Z then zero else d (j - 1)%Z i)
      else if (r =? ns)%Z && (c =? mn)%Z then transpose r c d else v
  | _ => v
  end.
Definition zeros (v : value) : value := match v with VVec l => VVec (map (fun _ => zero) l) | _ => VVec [] end.
Fixpoint fold_o {X} (step : obj -> X -> option obj) (l : list X) (y : obj) : option obj :=
  match l with [] => Some y | x :: r => match step y x with Some y1 => fold_o step r y1 | None => None end end.
Definition exec (g : string) (f : file) (y : obj) (i : instr) : option obj :=
  match i with
  | Rd n => rd g f y n n
  | RdC n old => if exists_ f g n then rd g f y n n else rd g f y n old
  | RdZ n like => if exists_ f g n then rd g f y n n else Some (set y n (zeros (y like)))
  | RdVersion =>
      if exists_ f g "version_" then rd g f y "version_" "version_"
      else match find f g "version" with Some (VStr s) => Some (set y "version_" (VDbl (stod s))) | _ => None end
  | RdExt =>
      match y "lfreeb" with
      | VBool true => match rd g f y "nextcur" "nextcur" with Some y1 => rd g f y1 "extcur" "extcur" | None => None end
      | _ => Some (set (set y "nextcur" (VInt 0)) "extcur" (VVec []))
      end
  | RdHalf l =>
      if exists_ f g "iotas" then fold_o (fun y p => rd g f y (fst p) (fst p)) l y
      else fold_o (fun y p => match find f g (snd p) with Some (VVec v) => Some (set y (fst p) (VVec (zero :: v))) | _ => None end) l y
  | T2 n name => match find f g name with Some v => Some (set y n (t2 y v)) | None => None end
  | T2o n name => if exists_ f g name then match find f g name with Some v => Some (set y n (t2 y v)) | None => None end else Some y
  | T2p n name size => match find f g name with Some v => Some (set y n (t2p y size v)) | None => None end
  end.
Definition load_into (g : string) (p : list instr) (f : file) (y0 : obj) : option obj := fold_o (exec g f) p y0.

(** A part: its group, what WriteTo writes, what LoadInto does. *)
Record part := mkPart { key : string; written : list string; program : list instr }.
(** 1146-1248: the groups are created in order in a new file *)
Fixpoint save (ps : list part) (x : string -> obj) (f : file) (groups : list string) : option file :=
  match ps with
  | [] => Some f
  | p :: r => if existsb (String.eqb (key p)) groups then None
      else match write_all (key p) (x (key p)) f (written p) with
           | Some f1 => save r x f1 (key p :: groups) | None => None end
  end.
(** 1250-1363 *)
Definition load (f : file) (y0 : string -> obj) (p : part) : option obj := load_into (key p) (program p) f (y0 (key p)).
End Hdf.
