(** The Python input object: dense and sparse boundary coefficients.
    src/vmecpp/_util.py:314-415 and src/vmecpp/__init__.py:505-665.

    A 2-D NumPy array is a [mat] of [IndataModel]. Python exceptions
    (AssertionError, ValueError) are [Throws]. Python integers are unbounded. *)
From Coq Require Import String ZArith List Bool.
From Verif Require Import Base Num IndataModel.
Import ListNotations.
Open Scope Z_scope.

Definition raise_unless (b : bool) : outcome unit := if b then Ok tt else Throws.

Section Py.
  Context {K : num}.

  (** dense_to_sparse_coefficients, _util.py:314-352. np.nonzero lists the
      indices of the elements unequal to 0 (NaN included), row by row. *)
  Definition dense_to_sparse (b : mat K) : outcome (list (coefficient K)) :=
    if (m_rows b =? 0) && (m_cols b =? 0) then Ok [] else
    _ <- raise_unless ((m_cols b - 1) mod 2 =? 0) ;;
    let ntor := (m_cols b - 1) / 2 in
    Ok (flat_map (fun m => flat_map (fun col =>
          let value := at_ij (m_body b) m col in
          if neq value (nZ 0) then [] else [mkCoef m (col - ntor) value])
        (zrange 0 (m_cols b))) (zrange 0 (m_rows b))).

  (** np.zeros((r, c)): negative dimensions raise ValueError. *)
  Definition np_zeros (r c : Z) : outcome (mat K) :=
    _ <- raise_unless ((0 <=? r) && (0 <=? c)) ;; Ok (zero_mat r c).

  (** sparse_to_dense_coefficients, _util.py:354-396. *)
  Definition sparse_to_dense (l : list (coefficient K)) (mpol ntor : Z) : outcome (mat K) :=
    z <- np_zeros mpol (2 * ntor + 1) ;;
    fold_left (fun o e => b <- o ;;
      let col_idx := c_n e + ntor in
      if ((0 <=? c_m e) && (c_m e <? mpol)) && ((0 <=? col_idx) && (col_idx <? m_cols b))
      then Ok (mkMat (m_rows b) (m_cols b) (set_at (m_body b) (c_m e) col_idx (c_value e)))
      else Throws) l (Ok z).

  (** sparse_to_dense_coefficients_implicit, _util.py:398-415, for a list (an
      ndarray is returned as it is). *)
  Definition sparse_to_dense_implicit (l : list (coefficient K)) : outcome (mat K) :=
    let mpol := fold_left (fun a e => Z.max a (c_m e)) l 0 in
    let ntor := fold_left (fun a e => Z.max a (Z.abs (c_n e))) l 0 in
    sparse_to_dense l (mpol + 1) ntor.

  (** VmecInput.resize_2d_coeff, __init__.py:603-655. *)
  Definition resize_2d_coeff (c : mat K) (mpol_new ntor_new : Z) : outcome (mat K) :=
    _ <- raise_unless (mpol_new >=? 0) ;;
    _ <- raise_unless (ntor_new >=? 0) ;;
    let mpol := m_rows c in
    let nmax := m_cols c in
    let ntor := (nmax - 1) / 2 in
    _ <- raise_unless (nmax =? 2 * ntor + 1) ;;
    z <- np_zeros mpol_new (2 * ntor_new + 1) ;;
    let smaller_ntor := Z.min ntor ntor_new in
    let smaller_mpol := Z.min mpol mpol_new in
    Ok (mkMat (m_rows z) (m_cols z)
      (for_up 0 smaller_mpol (fun m b =>
         for_up (- smaller_ntor) (smaller_ntor + 1) (fun n b =>
           set_at b m (n + ntor_new) (at_ij (m_body c) m (n + ntor))) b) (m_body z))).

  (** VmecInput.resize_1d_axis_coeff, __init__.py:571-601 (a 1-D array). *)
  Definition resize_1d_axis_coeff (a : list K) (ntor_new : Z) : outcome (list K) :=
    _ <- raise_unless (ntor_new >=? 0) ;;
    let new_len := ntor_new + 1 in
    _ <- raise_unless (negb (zlen a >? new_len)) ;;
    Ok (a ++ zeros (new_len - zlen a)).

  (** One boundary field in _validate_fourier_coefficients_shapes,
      __init__.py:512-536; [mpol], [ntor] are the final resolutions. *)
  Definition validate_2d (mpol ntor : Z) (v : option (mat K)) : outcome (mat K) :=
    c <- match v with None => np_zeros mpol (2 * ntor + 1) | Some c => Ok c end ;;
    if (m_rows c =? mpol) && (m_cols c =? 2 * ntor + 1) then Ok c else resize_2d_coeff c mpol ntor.
  (** One axis field, ibid. 538-556. *)
  Definition validate_1d (ntor : Z) (v : option (list K)) : outcome (option (list K)) :=
    match v with
    | None => Ok None
    | Some a => if zlen a =? ntor + 1 then Ok (Some a) else r <- resize_1d_axis_coeff a ntor ;; Ok (Some r)
    end.

  (** A boundary field of an input built from its JSON representation: the list is
      converted by the BeforeValidator, then the model validator runs. *)
  Definition read_field (mpol ntor : Z) (l : list (coefficient K)) : outcome (mat K) :=
    b <- sparse_to_dense_implicit l ;; validate_2d mpol ntor (Some b).
End Py.
