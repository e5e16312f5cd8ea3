(** C126: saving a wout object and loading it again. *)
From Coq Require Import String Ascii ZArith List Bool.
From Verif Require Import WncModel WncSpec WncProofs WncFinal.
Import ListNotations.
Open Scope nat_scope.

(** An object whose arrays agree on the length of each dimension, whose integers fit in 32
    bit and whose texts are ASCII, not too long and without white space at the ends, comes
    back from the file field by field, and no other field appears. *)
Theorem C126_round_trip : forall (F : Type) (fill_f fzero : F) (fill_i : Z) size fs,
  NoDup (names fs) -> (forall f, In f fs -> storable f) -> agree size fs -> complete fs ->
  exists file, save_netcdf fill_f fill_i fs = Saved file /\
    (forall f, In f fs -> loaded fill_f fzero file (f_name f) = Some (f_val f)) /\
    (forall s, ~ In s (names fs) -> loaded fill_f fzero file s = Some WNone).
Proof. intros F fill_f fzero fill_i. exact (round_trip fill_f fill_i fzero). Qed.
Print Assumptions C126_round_trip.

(** The profile coefficients of a run: the array of the current profile comes back with one
    fill value for each coefficient that the pressure profile has beyond 21 and beyond the
    current profile; if the current profile is the longer one, nothing is saved. *)
Theorem C126_profiles : forall (F : Type) (fill_f fzero : F) (fill_i : Z) pre mid post am ac,
  let fs := pre ++ vec_field "am" "preset" (wout_coefs fzero am) :: mid ++ vec_field "ac" "preset" (wout_coefs fzero ac) :: post in
  NoDup (names fs) -> (forall f, In f pre -> ~ In (DName "preset") (map fst (uses f))) ->
  forall file, save_netcdf fill_f fill_i fs = Saved file ->
  length ac <= Nat.max 21 (length am) /\
  forall v, loaded fill_f fzero file "ac" = Some v ->
    v = WVec (wout_coefs fzero ac ++ repeat fill_f (Nat.max 21 (length am) - Nat.max 21 (length ac))).
Proof. intros F fill_f fzero fill_i. exact (profiles fill_f fill_i fzero). Qed.
Print Assumptions C126_profiles.

(** A run with 22 pressure coefficients and one current coefficient: the loaded current
    profile ends in the fill value. *)
Theorem C126_all_runs_refuted : forall (F : Type) (fill_f fzero : F) (fill_i : Z),
  fill_f <> fzero -> forall x, exists am ac : list F, exists file,
  length am = 22 /\ ac = [x] /\
  save_netcdf fill_f fill_i (small fzero am ac demo_text) = Saved file /\
  loaded fill_f fzero file "ac" = Some (WVec ([x] ++ repeat fzero 20 ++ [fill_f])) /\
  ~ In (WVec ([x] ++ repeat fzero 20 ++ [fill_f])) (map (@f_val F) (small fzero am ac demo_text)).
Proof. intros F fill_f fzero fill_i. exact (lost fill_f fill_i fzero). Qed.
Print Assumptions C126_all_runs_refuted.

(** A run with more than 21 current coefficients and at most 21 pressure coefficients: the
    result cannot be saved. *)
Theorem C126_long_current_refuted : forall (F : Type) (fill_f fzero : F) (fill_i : Z),
  forall am, length am <= 21 -> forall ac, 21 < length ac ->
  forall file, save_netcdf fill_f fill_i (small fzero am ac demo_text) <> Saved file.
Proof. intros F fill_f fzero fill_i. exact (refused fill_f fill_i fzero). Qed.
Print Assumptions C126_long_current_refuted.

(** A save that raises leaves every file as it was; one that succeeds changes the named
    file only. *)
Theorem C126_atomic : forall (F : Type) (fill_f : F) (fill_i : Z) h5 tmp out fs part d r d',
  d tmp = None -> tmp <> out -> save fill_f fill_i h5 tmp out fs part d = (r, d') -> r <> Unspecified ->
  (r = Raises -> forall q, d' q = d q) /\
  (r = Saved tt -> exists file, save_netcdf fill_f fill_i fs = Saved file /\
     d' out = Some file /\ forall q, q <> out -> d' q = d q).
Proof. intros F fill_f fill_i. exact (save_disk fill_f fill_i). Qed.
Print Assumptions C126_atomic.

(** The object [small] with at most 21 coefficients in each profile meets the hypotheses of
    [C126_round_trip]. *)
Theorem C126_case : forall (F : Type) (fzero : F) am ac, length am <= 21 -> length ac <= 21 ->
  NoDup (names (small fzero am ac demo_text)) /\ (forall f, In f (small fzero am ac demo_text) -> storable f) /\
  agree small_size (small fzero am ac demo_text) /\ complete (small fzero am ac demo_text).
Proof. intros F fzero. exact (small_ok fzero). Qed.
Print Assumptions C126_case.
