(** How far two evaluations of the geometry or of the forces may be apart when the
    toroidal transforms have a relative error [eps]: the size of what is summed. *)
From Coq Require Import ZArith Bool Reals.
From Verif Require Import SumLemmas SizesModel PartModel DftModel FftSpec FftCodSpec.
Open Scope R_scope.

(** A pair of batched transforms with relative error [eps] per signal. *)
Definition near (eps : R) (inv : bool) (N cnt : Z) (run : (Z -> R) -> (Z -> R) -> Z -> R) : Prop :=
  forall out inp, transforms eps inv N cnt inp (run out inp).

(** The two arrays of coefficients that make up a quantity. *)
Definition parts_of (q : gq) : (comp * bk) * (comp * bk) :=
  match q with
  | G_r1 | G_ru | G_rv => ((cR, b_cc), (cR, b_ss))
  | G_z1 | G_zu | G_zv => ((cZ, b_sc), (cZ, b_cs))
  | G_lu | G_lv => ((cL, b_sc), (cL, b_cs))
  end.
(** Sum of the absolute values of the coefficients with poloidal number m, in an
    array that starts with row [j]. *)
Definition row_size (s : sizes) (a : Z -> R) (j m : Z) : R :=
  zsum 0 (sz_ntor s + 1) (fun n => Rabs (a ((j * sz_mpol s + m) * (sz_ntor s + 1) + n)%Z)).
(** Poloidal derivatives weigh a coefficient with m, toroidal ones with n * nfp. *)
Definition weight (s : sizes) (q : gq) (m : Z) : R :=
  match q with
  | G_r1 | G_z1 => 1
  | G_ru | G_zu | G_lu => IZR m
  | G_rv | G_zv | G_lv => IZR (sz_ntor s * sz_nfp s)
  end.
Definition size_of (s : sizes) (x : coefs) (q : gq) (j m : Z) : R :=
  let '((c1, a1), (c2, a2)) := parts_of q in
  sqrt 2 * weight s q m * (row_size s (x c1 a1) j m + row_size s (x c2 a2) j m).
(** Force components: average over the angular grid of the absolute values of what
    enters the coefficient (m, n) of component [c] on the row [j]. *)
Definition force_size (s : sizes) (xmpq : Z -> R) (d : forces) (j m n : Z) (c : comp) : R :=
  let e := Z.even m in
  sqrt 2 / IZR (sz_nZeta s * (sz_nThetaReduced s - 1)) *
  zsum 0 (sz_nZeta s) (fun k => zsum 0 (sz_nThetaReduced s) (fun l =>
    let i := ((j * sz_nZeta s + k) * sz_nThetaEff s + l)%Z in
    match c with
    | cR => Rabs (d F_ar e i) + Rabs (xmpq m) * Rabs (d F_frcon e i) + IZR m * Rabs (d F_br e i) + IZR (n * sz_nfp s) * Rabs (d F_cr e i)
    | cZ => Rabs (d F_az e i) + Rabs (xmpq m) * Rabs (d F_fzcon e i) + IZR m * Rabs (d F_bz e i) + IZR (n * sz_nfp s) * Rabs (d F_cz e i)
    | cL => IZR m * Rabs (d F_bl e i) + IZR (n * sz_nfp s) * Rabs (d F_cl e i)
    end)).
