(** Fourier basis tables, conversions between the combined basis
    cos(m theta - n zeta), sin(m theta - n zeta) and the product basis, and the
    mode number tables.
    Source: src/vmecpp/cpp/vmecpp/common/fourier_basis/fourier_basis.{h,cc}.
    Simplifications: [double] is modelled by [R] (exact arithmetic), [int] by
    [Z]; arrays are functions from the flat index of the source. *)
From Coq Require Import ZArith List Bool Reals.
From Verif Require Import Base.
Open Scope Z_scope.

(** fourier_basis.h:28-62, the two layouts. *)
Inductive layout := FastPoloidal | FastToroidal.
Definition PoloidalBasisIndex (la : layout) (m l num_m num_l : Z) : Z :=
  match la with FastPoloidal => m * num_l + l | FastToroidal => l * num_m + m end.
Definition ToroidalBasisIndex (la : layout) (n k num_n num_k : Z) : Z :=
  match la with FastPoloidal => k * num_n + n | FastToroidal => n * num_k + k end.
Definition ProductIndex (la : layout) (m n m_size n_size : Z) : Z :=
  match la with FastPoloidal => m * (n_size + 1) + n | FastToroidal => n * m_size + m end.

(** common/util/util.cc:49-52 *)
Definition signum (x : Z) : Z := (if x >? 0 then 1 else 0) - (if x <? 0 then 1 else 0).

(** fourier_basis.cc:66-76, 109-119: entry [m] of mscale (nscale is the same
    table for n). *)
Definition mscale (m : Z) : R := if m =? 0 then 1%R else sqrt 2.
Definition nscale (n : Z) : R := if n =? 0 then 1%R else sqrt 2.
Definition basis_norm (m n : Z) : R := (1 / (mscale m * nscale n))%R.

(** [absl::c_fill_n(a, n, 0)] *)
Definition fill0 (n : Z) (a : Z -> R) : Z -> R := for_up 0 n (fun i a => upd a i 0%R) a.

Section Conv.
Variable la : layout.
Variables n_size m_size : Z.
Local Notation P m n := (ProductIndex la m n m_size n_size).

(** fourier_basis.cc:142-192.  State: running index mn and the two output
    arrays; the result carries the final mn, which line 188 CHECKs. *)
Definition cos_to_cc_ss (fcCos cc0 ss0 : Z -> R) : Z * ((Z -> R) * (Z -> R)) :=
  let cc := fill0 (m_size * (n_size + 1)) cc0 in
  let ss := fill0 (m_size * (n_size + 1)) ss0 in
  let s1 := for_up 0 (n_size + 1) (fun n s =>
    let mn := fst s in let '(cc, ss) := snd s in
    let normedFC := (basis_norm 0 (Z.abs n) * fcCos mn)%R in
    let i := P 0 (Z.abs n) in
    (mn + 1, (upd cc i (cc i + normedFC)%R, ss))) (0, (cc, ss)) in
  for_up 1 m_size (fun m s =>
    for_up (- n_size) (n_size + 1) (fun n s =>
      let mn := fst s in let '(cc, ss) := snd s in
      let abs_n := Z.abs n in let sgn_n := signum n in
      let normedFC := (basis_norm m abs_n * fcCos mn)%R in
      let i := P m abs_n in
      (mn + 1, (upd cc i (cc i + normedFC)%R,
        if abs_n >? 0 then upd ss i (ss i + IZR sgn_n * normedFC)%R else ss))) s) s1.

(** fourier_basis.cc:195-247 *)
Definition sin_to_sc_cs (fcSin sc0 cs0 : Z -> R) : Z * ((Z -> R) * (Z -> R)) :=
  let sc := fill0 (m_size * (n_size + 1)) sc0 in
  let cs := fill0 (m_size * (n_size + 1)) cs0 in
  let s1 := for_up 1 (n_size + 1) (fun n s =>
    let mn := fst s in let '(sc, cs) := snd s in
    let normedFC := (basis_norm 0 (Z.abs n) * fcSin mn)%R in
    let i := P 0 (Z.abs n) in
    (mn + 1, (sc, upd cs i (IZR (- signum n) * normedFC)%R))) (1, (sc, cs)) in
  for_up 1 m_size (fun m s =>
    for_up (- n_size) (n_size + 1) (fun n s =>
      let mn := fst s in let '(sc, cs) := snd s in
      let abs_n := Z.abs n in let sgn_n := signum n in
      let normedFC := (basis_norm m abs_n * fcSin mn)%R in
      let i := P m abs_n in
      (mn + 1, (upd sc i (sc i + normedFC)%R,
        if abs_n >? 0 then upd cs i (cs i + IZR (- sgn_n) * normedFC)%R else cs))) s) s1.

(** fourier_basis.cc:250-295; [mnmax] is the local of line 256. *)
Definition mnmax_of : Z := (n_size + 1) + (m_size - 1) * (2 * n_size + 1).
Definition cc_ss_to_cos (fcCC fcSS fc0 : Z -> R) : Z * (Z -> R) :=
  let fc := fill0 mnmax_of fc0 in
  let s1 := for_up 0 (n_size + 1) (fun n s =>
    (fst s + 1, upd (snd s) (fst s) (fcCC (P 0 n) / basis_norm 0 n)%R)) (0, fc) in
  for_up 1 m_size (fun m s =>
    for_up (- n_size) (n_size + 1) (fun n s =>
      let abs_n := Z.abs n in let sgn_n := signum n in
      let i := P m abs_n in
      (fst s + 1, upd (snd s) (fst s)
        (if abs_n =? 0 then fcCC i / basis_norm m abs_n
         else 1 / 2 * (fcCC i + IZR sgn_n * fcSS i) / basis_norm m abs_n)%R)) s) s1.

(** fourier_basis.cc:298-344 *)
Definition sc_cs_to_sin (fcSC fcCS fc0 : Z -> R) : Z * (Z -> R) :=
  let fc := fill0 mnmax_of fc0 in
  let s1 := for_up 1 (n_size + 1) (fun n s =>
    (fst s + 1, upd (snd s) (fst s) (- fcCS (P 0 n) / basis_norm 0 n)%R)) (1, fc) in
  for_up 1 m_size (fun m s =>
    for_up (- n_size) (n_size + 1) (fun n s =>
      let abs_n := Z.abs n in let sgn_n := signum n in
      let i := P m abs_n in
      (fst s + 1, upd (snd s) (fst s)
        (if abs_n =? 0 then fcSC i / basis_norm m abs_n
         else 1 / 2 * (fcSC i - IZR sgn_n * fcCS i) / basis_norm m abs_n)%R)) s) s1.
End Conv.

(** fourier_basis.cc:360-366 *)
Definition mnMax (m_size n_size : Z) : Z := (n_size + 1) + (m_size - 1) * (2 * n_size + 1).

(** fourier_basis.cc:347-354; [None] is the failed CHECK of line 349. *)
Definition mnIdx (ntor m n : Z) : option Z :=
  if m =? 0 then (if n <? 0 then None else Some n)
  else Some ((ntor + 1) + (m - 1) * (2 * ntor + 1) + (n + ntor)).

(** fourier_basis.cc:369-392; tables start zeroed (39-42, 46-49).  Result: final
    mn (CHECKed against mnMax in line 391) and the tables xm, xn. *)
Definition computeConversionIndices (n_size m_size nfp : Z) : Z * ((Z -> Z) * (Z -> Z)) :=
  let s1 := for_up 0 (n_size + 1) (fun n s =>
    (fst s + 1, (upd (fst (snd s)) (fst s) 0, upd (snd (snd s)) (fst s) (n * nfp))))
    (0, (fun _ => 0, fun _ => 0)) in
  for_up 1 m_size (fun m s =>
    for_up (- n_size) (n_size + 1) (fun n s =>
      (fst s + 1, (upd (fst (snd s)) (fst s) m, upd (snd (snd s)) (fst s) (n * nfp)))) s) s1.

(** fourier_basis.cc:56-138: the basis tables.  Inputs are the members of Sizes
    used there.  Each table is written by loops over all (m, l) or (k, n). *)
Record basis_tables := mkBT {
  bt_cosmu : Z -> R; bt_sinmu : Z -> R; bt_cosmui : Z -> R; bt_sinmui : Z -> R;
  bt_cosmum : Z -> R; bt_sinmum : Z -> R; bt_cosmumi : Z -> R; bt_sinmumi : Z -> R;
  bt_cosnv : Z -> R; bt_sinnv : Z -> R; bt_cosnvn : Z -> R; bt_sinnvn : Z -> R }.
Section Tables.
Variable la : layout.
Variables nfp nZeta nThetaEven nThetaReduced mnyq2 nnyq2 : Z.
Local Open Scope R_scope.
Definition intNorm : R := 1 / IZR (nZeta * (nThetaReduced - 1)).
Definition theta_of (l : Z) : R := 2 * PI * IZR l / IZR nThetaEven.
Definition zeta_of (k : Z) : R := 2 * PI * IZR k / IZR nZeta.
Definition poloidal_entry (m l : Z) (b : basis_tables) : basis_tables :=
  let i := PoloidalBasisIndex la m l (mnyq2 + 1) nThetaReduced in
  let arg := IZR m * theta_of l in
  let cosmu := upd (bt_cosmu b) i (cos arg * mscale m) in
  let sinmu := upd (bt_sinmu b) i (sin arg * mscale m) in
  let cosmui := upd (bt_cosmui b) i (cosmu i * intNorm) in
  let sinmui := upd (bt_sinmui b) i (sinmu i * intNorm) in
  let cosmui := if (l =? 0)%Z || (l =? nThetaReduced - 1)%Z then upd cosmui i (cosmui i / 2) else cosmui in
  mkBT cosmu sinmu cosmui sinmui
    (upd (bt_cosmum b) i (IZR m * cosmu i)) (upd (bt_sinmum b) i (IZR (- m) * sinmu i))
    (upd (bt_cosmumi b) i (IZR m * cosmui i)) (upd (bt_sinmumi b) i (IZR (- m) * sinmui i))
    (bt_cosnv b) (bt_sinnv b) (bt_cosnvn b) (bt_sinnvn b).
Definition toroidal_entry (k n : Z) (b : basis_tables) : basis_tables :=
  let i := ToroidalBasisIndex la n k (nnyq2 + 1) nZeta in
  let arg := IZR n * zeta_of k in
  let cosnv := upd (bt_cosnv b) i (cos arg * nscale n) in
  let sinnv := upd (bt_sinnv b) i (sin arg * nscale n) in
  mkBT (bt_cosmu b) (bt_sinmu b) (bt_cosmui b) (bt_sinmui b)
    (bt_cosmum b) (bt_sinmum b) (bt_cosmumi b) (bt_sinmumi b) cosnv sinnv
    (upd (bt_cosnvn b) i (IZR (n * nfp) * cosnv i)) (upd (bt_sinnvn b) i (IZR (- n * nfp) * sinnv i)).
Definition computeFourierBasis (b : basis_tables) : basis_tables :=
  let b := for_up 0 (mnyq2 + 1) (fun m b => for_up 0 nThetaReduced (fun l b => poloidal_entry m l b) b) b in
  for_up 0 nZeta (fun k b => for_up 0 (nnyq2 + 1) (fun n b => toroidal_entry k n b) b) b.
End Tables.
