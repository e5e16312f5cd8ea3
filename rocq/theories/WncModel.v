(** Saving a VmecWOut as a NetCDF3 file and loading it again.
    src/vmecpp/__init__.py:1401-1608 (save, _save_to_netcdf3) and 1678-1741
    (from_wout_file), and the padding of the profile arrays of a run,
    output_quantities.cc:29-35 and 4348-4385.

    The fields are taken as model_dump(by_alias=True) yields them: a name, a value, the
    max_length of a string field, the dimension names of an annotated array field after
    the translation 1445-1448 and the removal of leading underscores (1564-1582). Arrays
    of rank 0 and of rank above 2 do not occur in the class. Floating-point entries are
    only moved, so their type is arbitrary.

    The netCDF4 library: a dimension of size 0 is unlimited and NETCDF3_CLASSIC has at
    most one of them; a variable starts filled with its default fill value; assigning to
    a slice of a fixed dimension needs as many places as values; an assignment of more
    values raises. What the library does with an integer outside of 32 bit, with values
    appended along an unlimited dimension, and with a matrix whose shape differs from the
    shape of its variable (it may broadcast) is [Unspecified] here. *)
From Coq Require Import String Ascii ZArith List Bool.
Import ListNotations.
Open Scope nat_scope.

(** Dimension names: dim_%05d (1502, 1523) or a name of the class. No name of the class
    has the form dim_%05d. *)
Inductive dimid := DLen (n : nat) | DName (s : string).
Definition dimid_eqb (a b : dimid) : bool :=
  match a, b with
  | DLen n, DLen m => n =? m
  | DName s, DName t => String.eqb s t
  | _, _ => false
  end.

(** str.strip() removes these from both ends of an ASCII string: \t \n \v \f \r,
    \x1c-\x1f and space *)
Definition py_space (c : ascii) : bool :=
  let n := nat_of_ascii c in ((9 <=? n) && (n <=? 13)) || ((28 <=? n) && (n <=? 32)).
Definition py_nul (c : ascii) : bool := nat_of_ascii c =? 0.
Fixpoint lstrip (p : ascii -> bool) (l : list ascii) : list ascii :=
  match l with [] => [] | c :: r => if p c then lstrip p r else l end.
Definition strip (p : ascii -> bool) (l : list ascii) : list ascii := rev (lstrip p (rev (lstrip p l))).
Definition is_ascii (c : ascii) : bool := nat_of_ascii c <? 128.

Inductive saved (A : Type) := Saved (a : A) | Raises | Unspecified.
Arguments Saved {A} a. Arguments Raises {A}. Arguments Unspecified {A}.
Definition sbind {A B} (x : saved A) (f : A -> saved B) : saved B :=
  match x with Saved a => f a | Raises => Raises | Unspecified => Unspecified end.

Section Wnc.
  Context {F : Type}.
  (** netCDF4.default_fillvals of f8 and i4 *)
  Variables (fill_f : F) (fill_i : Z).

  (** Values of the fields; a matrix is given by its shape and its row-major entries *)
  Inductive wval :=
  | WInt (z : Z) | WFloat (x : F) | WStr (l : list ascii) | WNone
  | WVec (l : list F) | WIvec (l : list Z) | WMat (nr nc : nat) (d : list F).
  Record field := mkField { f_name : string; f_val : wval; f_max : option nat; f_dims : option (list string) }.

  (** Contents of a NetCDF file *)
  Inductive ncval :=
  | NInt (z : Z) | NFloat (x : F) | NChars (l : list ascii)
  | NVec (l : list F) | NIvec (l : list Z) | NMat (nr nc : nat) (d : list F).
  Record ncfile := mkFile { nc_dims : list (dimid * nat); nc_vars : list (string * ncval) }.

  Fixpoint dim_size (ds : list (dimid * nat)) (d : dimid) : option nat :=
    match ds with [] => None | (e, n) :: r => if dimid_eqb e d then Some n else dim_size r d end.
  (** createDimension unless it exists, 1504-1505, 1585-1586 *)
  Definition ensure_dim (d : dimid) (n : nat) (ds : list (dimid * nat)) : saved (list (dimid * nat)) :=
    match dim_size ds d with
    | Some _ => Saved ds
    | None =>
        if (n =? 0) && existsb (fun e => snd e =? 0) ds then Raises
        else Saved (ds ++ [(d, n)])
    end.
  Definition size_of (ds : list (dimid * nat)) (d : dimid) : nat :=
    match dim_size ds d with Some n => n | None => 0 end.

  (** Assignment of [l] to the first [length l] places of a variable along a dimension of
      size [n], 1598 *)
  Definition put {A} (fill : A) (n : nat) (l : list A) : saved (list A) :=
    if n =? 0 then match l with [] => Saved [] | _ => Unspecified end
    else if length l <=? n then Saved (l ++ repeat fill (n - length l)) else Raises.

  (** The transpose of a row-major matrix, 1602, 1706 *)
  Definition transpose (nr nc : nat) (d : list F) : list F :=
    flat_map (fun j => map (fun i => nth (i * nc + j) d fill_f) (seq 0 nr)) (seq 0 nc).

  Definition dim1 (f : field) (n : nat) : saved dimid :=
    match f_dims f with None => Saved (DLen n) | Some [a] => Saved (DName a) | Some _ => Raises end.
  Definition dim2 (f : field) (n m : nat) : saved (dimid * dimid) :=
    match f_dims f with
    | None => Saved (DLen n, DLen m) | Some [a; b] => Saved (DName a, DName b) | Some _ => Raises end.
  Definition add_var (ds : list (dimid * nat)) (file : ncfile) (f : field) (v : ncval) : ncfile :=
    mkFile ds (nc_vars file ++ [(f_name f, v)]).
  Definition fits32 (z : Z) : bool := ((- 2 ^ 31 <=? z) && (z <? 2 ^ 31))%Z.

  (** One pass of the loop over the fields, 1482-1608 *)
  Definition save_field (file : ncfile) (f : field) : saved ncfile :=
    let ds := nc_dims file in
    match f_val f with
    | WInt z => if fits32 z then Saved (add_var ds file f (NInt z)) else Unspecified
    | WFloat x => Saved (add_var ds file f (NFloat x))
    | WStr l =>
        let n := match f_max f with Some m => m | None => length l end in
        sbind (ensure_dim (DLen n) n ds) (fun ds =>
        if forallb is_ascii l then
          (* ljust(max_len) appends spaces and never shortens *)
          let padded := l ++ repeat " "%char (n - length l) in
          sbind (put zero n padded) (fun v => Saved (add_var ds file f (NChars v)))
        else Raises)
    | WNone => Saved file
    | WVec l =>
        sbind (dim1 f (length l)) (fun d =>
        sbind (ensure_dim d (length l) ds) (fun ds =>
        sbind (put fill_f (size_of ds d) l) (fun v => Saved (add_var ds file f (NVec v)))))
    | WIvec l =>
        sbind (dim1 f (length l)) (fun d =>
        sbind (ensure_dim d (length l) ds) (fun ds =>
        if forallb fits32 l then
          sbind (put fill_i (size_of ds d) l) (fun v => Saved (add_var ds file f (NIvec v)))
        else Unspecified))
    | WMat nr nc d =>
        sbind (dim2 f nr nc) (fun ab =>
        sbind (ensure_dim (fst ab) nr ds) (fun ds =>
        sbind (ensure_dim (snd ab) nc ds) (fun ds =>
        if (size_of ds (fst ab) =? nr) && (size_of ds (snd ab) =? nc) && negb (nr =? 0) && negb (nc =? 0)
        then Saved (add_var ds file f (NMat nc nr (transpose nr nc d)))
        else Unspecified)))
    end.
  (** 1438-1440 *)
  Definition start_file : ncfile :=
    mkFile [(DName "mn_mode_pot", 100); (DName "current_label", 30); (DLen 6, 6)] [].
  Fixpoint save_fields (file : ncfile) (fs : list field) : saved ncfile :=
    match fs with [] => Saved file | f :: r => sbind (save_field file f) (fun file => save_fields file r) end.
  (** _save_to_netcdf3, 1433-1608 *)
  Definition save_netcdf (fs : list field) : saved ncfile := save_fields start_file fs.

  (** The attribute read from a variable, 1690-1708; text that is not ASCII becomes the
      empty string *)
  Definition load_var (v : ncval) : wval :=
    match v with
    | NInt z => WInt z
    | NFloat x => WFloat x
    | NChars l => WStr (if forallb is_ascii l then strip py_space (strip py_nul l) else [])
    | NVec l => WVec l
    | NIvec l => WIvec l
    | NMat nr nc d => WMat nc nr (transpose nr nc d)
    end.
  Definition attrs_of (file : ncfile) : list (string * wval) :=
    map (fun e => (fst e, load_var (snd e))) (nc_vars file).
  Fixpoint attr (l : list (string * wval)) (s : string) : option wval :=
    match l with [] => None | (t, v) :: r => if String.eqb t s then Some v else attr r s end.
  (** dict.setdefault *)
  Definition set_default (s : string) (v : wval) (l : list (string * wval)) : list (string * wval) :=
    match attr l s with Some _ => l | None => l ++ [(s, v)] end.

  (** from_wout_file, 1678-1719, without the fall-backs for files of version 8 and older.
      [fzero] is 0.0. A missing key raises KeyError. *)
  Definition load_netcdf (fzero : F) (file : ncfile) : option (list (string * wval)) :=
    let l := attrs_of file in
    match attr l "mnmax", attr l "ns", attr l "lasym__logical__" with
    | Some (WInt mnmax), Some (WInt ns), Some (WInt asym) =>
        let zeros := WMat (Z.to_nat mnmax) (Z.to_nat ns) (repeat fzero (Z.to_nat mnmax * Z.to_nat ns)) in
        let l := set_default "lmns_full" zeros l in
        let l := if (asym =? 0)%Z then l else set_default "lmnc_full" zeros l in
        Some (set_default "lrfp__logical__" (WInt 0) l)
    | _, _, _ => None
    end.
  (** The field of the loaded object: fields absent from the file keep their default, None
      for the asymmetric arrays *)
  Definition loaded (fzero : F) (file : ncfile) (s : string) : option wval :=
    match load_netcdf fzero file with
    | None => None
    | Some l => Some (match attr l s with Some v => v | None => WNone end)
    end.

  (** NonEmptyVectorOr, output_quantities.cc:29-35, and PadVector, 4363-4369 *)
  Definition non_empty_or (l : list F) (v : F) : list F := match l with [] => [v] | _ => l end.
  Definition pad_vector (l : list F) (n : nat) (v : F) : list F :=
    if length l <? n then l ++ repeat v (n - length l) else l.
  (** wout.am, wout.ac, wout.ai: 4349, 4352, 4355, 4371-4373 *)
  Definition wout_coefs (fzero : F) (l : list F) : list F := pad_vector (non_empty_or l fzero) 21 fzero.

  (** save, 1401-1431: files by name. [tmp] is the name mkstemp returns, a name not in use.
      If the library's behaviour is unspecified nothing is said about the result. *)
  Definition disk := string -> option ncfile.
  Definition on_disk (d : disk) (p : string) (c : option ncfile) : disk :=
    fun q => if String.eqb q p then c else d q.
  Definition save (is_h5 : bool) (tmp out : string) (fs : list field) (partial_file : ncfile) (d : disk)
      : saved unit * disk :=
    if is_h5 then (Raises, d)
    else
      let d1 := on_disk d tmp (Some (mkFile [] [])) in
      match save_netcdf fs with
      | Saved file => (Saved tt, on_disk (on_disk (on_disk d1 tmp (Some file)) out (Some file)) tmp None)
      | Raises => (Raises, on_disk (on_disk d1 tmp (Some partial_file)) tmp None)
      | Unspecified => (Unspecified, d1)
      end.
End Wnc.
Arguments wval F : clear implicits.
Arguments field F : clear implicits.
Arguments ncfile F : clear implicits.
