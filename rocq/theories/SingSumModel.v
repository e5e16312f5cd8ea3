(** Model of SingularIntegrals::performUpdate,
    free_boundary/singular_integrals/singular_integrals.cc:337-600: the
    projection of the singular part onto the Fourier basis, summed over the grid
    points of one thread. [double] is modelled by [R] (exact arithmetic), [int]
    by [Z], arrays by functions of the flat index of the source. [/] and [%] act
    on non-negative integers only, where they are [Z.div] and [Z.modulo].
    The Slp / Slm arrays are inputs here: their formula (lines 361-374) is
    [SingModel.s_table]; the code fills row [fl] before it reads row [fl]. *)
From Coq Require Import ZArith Reals Bool.
From Verif Require Import Base FourierModel.
Open Scope R_scope.

(** bvec_sin, grpmn_sin, bvec_cos, grpmn_cos. *)
Record sums := mkSums { s_bs : Z -> R; s_gs : Z -> R; s_bc : Z -> R; s_gc : Z -> R }.

(** [a[i] += v] *)
Definition add_at (a : Z -> R) (i : Z) (v : R) : Z -> R := upd a i (a i + v).

Section SUMS.
(** Members used: mf, nf, the sizes, the tangential range of this thread, the
    switches, the basis tables (FourierBasisFastToroidal), the weights, cmns,
    the rows of Tlp, Tlm, Slp, Slm (row [fl], local point [klRel]) and bDotN. *)
Variables mf nf nZeta nThetaReduced nThetaEven mnyq2 ztMin ztMax : Z.
Variables lasym fullUpdate : bool.
Variable fb : basis_tables.
Variables wInt cmns : Z -> R.
Variables Tlp Tlm Slp Slm : Z -> Z -> R.
Variable bDotN : Z -> R.

(** singular_integrals.cc:339 *)
Definition numLocal : Z := (ztMax - ztMin)%Z.
(** singular_integrals.cc:378-383 *)
Definition i_posn (n m : Z) : Z := ((nf + n) * (mf + 1) + m)%Z.
Definition i_negn (n m : Z) : Z := ((nf - n) * (mf + 1) + m)%Z.
Definition cfac (fl n m : Z) : R :=
  cmns ((fl * (nf + 1) + n) * (mf + 1) + m)%Z / (mscale m * nscale n).
(** singular_integrals.cc:398-401 (and 439-441, 559-562): reflection onto the
    reduced poloidal range. *)
Definition refl (l : Z) : Z := if (l <? nThetaReduced)%Z then l else (nThetaEven - l)%Z.
Definition sgnmu (l : Z) : R := if (l <? nThetaReduced)%Z then 1 else -1.
Definition i_lm (l m : Z) : Z := (refl l * (mnyq2 + 1) + m)%Z.
Definition i_nk (n k : Z) : Z := (n * nZeta + k)%Z.

(** analysum, singular_integrals.cc:385-429 *)
Definition analysum (fl n m : Z) (st : sums) : sums :=
  for_up ztMin ztMax (fun kl st =>
    let l := (kl / nZeta)%Z in
    let k := (kl mod nZeta)%Z in
    let klRel := (kl - ztMin)%Z in
    let sinp := (sgnmu l * bt_sinmu fb (i_lm l m) * bt_cosnv fb (i_nk n k)
                 - bt_cosmu fb (i_lm l m) * bt_sinnv fb (i_nk n k)) * cfac fl n m in
    let cosp := (bt_cosmu fb (i_lm l m) * bt_cosnv fb (i_nk n k)
                 + sgnmu l * bt_sinmu fb (i_lm l m) * bt_sinnv fb (i_nk n k)) * cfac fl n m in
    mkSums
      (add_at (s_bs st) (i_posn n m) ((Tlp fl klRel + Tlm fl klRel) * bDotN klRel * wInt l * sinp))
      (if fullUpdate then add_at (s_gs st) (i_posn n m * numLocal + klRel)%Z
         ((Slp fl klRel + Slm fl klRel) * sinp) else s_gs st)
      (if lasym then add_at (s_bc st) (i_posn n m)
         ((Tlp fl klRel + Tlm fl klRel) * bDotN klRel * wInt l * cosp) else s_bc st)
      (if (lasym && fullUpdate)%bool then add_at (s_gc st) (i_posn n m * numLocal + klRel)%Z
         ((Slp fl klRel + Slm fl klRel) * cosp) else s_gc st)) st.

(** One lane [j] of the loop unrolled by four, singular_integrals.cc:451-510:
    what lane j of pass p adds to its two buffers and to grpmn_sin. *)
Definition lane_sinp (coeff1 coeff2 : R) (n k : Z) : R :=
  coeff1 * bt_cosnv fb (i_nk n k) - coeff2 * bt_sinnv fb (i_nk n k).
Definition lane_sinm (coeff1 coeff2 : R) (n k : Z) : R :=
  coeff1 * bt_cosnv fb (i_nk n k) + coeff2 * bt_sinnv fb (i_nk n k).

(** The unrolled loop, singular_integrals.cc:447-510, as [passes] passes that
    each advance i, k and kl by 4. State: the eight buffers and grpmn_sin. *)
Definition unrolled (fl n m l k0 kl0 passes : Z) (coeff1 coeff2 : R) (gs : Z -> R)
  : ((R * R * R * R) * (R * R * R * R)) * (Z -> R) :=
  for_up 0 passes (fun p '(((p0, p1, p2, p3), (q0, q1, q2, q3)), gs) =>
    let k := (k0 + 4 * p)%Z in
    let klRel := (kl0 + 4 * p - ztMin)%Z in
    let c0 := bDotN (klRel + 0)%Z * wInt l in
    let c1 := bDotN (klRel + 1)%Z * wInt l in
    let c2 := bDotN (klRel + 2)%Z * wInt l in
    let c3 := bDotN (klRel + 3)%Z * wInt l in
    let sinp0 := lane_sinp coeff1 coeff2 n (k + 0)%Z in
    let sinp1 := lane_sinp coeff1 coeff2 n (k + 1)%Z in
    let sinp2 := lane_sinp coeff1 coeff2 n (k + 2)%Z in
    let sinp3 := lane_sinp coeff1 coeff2 n (k + 3)%Z in
    let sinm0 := lane_sinm coeff1 coeff2 n (k + 0)%Z in
    let sinm1 := lane_sinm coeff1 coeff2 n (k + 1)%Z in
    let sinm2 := lane_sinm coeff1 coeff2 n (k + 2)%Z in
    let sinm3 := lane_sinm coeff1 coeff2 n (k + 3)%Z in
    let P := (i_posn n m * numLocal + klRel)%Z in
    let Q := (i_negn n m * numLocal + klRel)%Z in
    ((p0 + Tlp fl (klRel + 0)%Z * c0 * sinp0, p1 + Tlp fl (klRel + 1)%Z * c1 * sinp1,
      p2 + Tlp fl (klRel + 2)%Z * c2 * sinp2, p3 + Tlp fl (klRel + 3)%Z * c3 * sinp3),
     (q0 + Tlm fl (klRel + 0)%Z * c0 * sinm0, q1 + Tlm fl (klRel + 1)%Z * c1 * sinm1,
      q2 + Tlm fl (klRel + 2)%Z * c2 * sinm2, q3 + Tlm fl (klRel + 3)%Z * c3 * sinm3),
     if fullUpdate then
       let gs := add_at gs (P + 0)%Z (Slp fl (klRel + 0)%Z * sinp0) in
       let gs := add_at gs (P + 1)%Z (Slp fl (klRel + 1)%Z * sinp1) in
       let gs := add_at gs (P + 2)%Z (Slp fl (klRel + 2)%Z * sinp2) in
       let gs := add_at gs (P + 3)%Z (Slp fl (klRel + 3)%Z * sinp3) in
       let gs := add_at gs (Q + 0)%Z (Slm fl (klRel + 0)%Z * sinm0) in
       let gs := add_at gs (Q + 1)%Z (Slm fl (klRel + 1)%Z * sinm1) in
       let gs := add_at gs (Q + 2)%Z (Slm fl (klRel + 2)%Z * sinm2) in
       add_at gs (Q + 3)%Z (Slm fl (klRel + 3)%Z * sinm3)
     else gs)) (((0, 0, 0, 0), (0, 0, 0, 0)), gs).

(** The remainder loop, singular_integrals.cc:517-545: i from 4 passes to
    remaining. State: bvec_sin, grpmn_sin. *)
Definition leftover (fl n m l k0 kl0 from remaining : Z) (bg : (Z -> R) * (Z -> R))
  : (Z -> R) * (Z -> R) :=
  for_up from remaining (fun i '(bs, gs) =>
    let k := (k0 + i)%Z in
    let klRel := (kl0 + i - ztMin)%Z in
    let coeff1 := sgnmu l * bt_sinmu fb (i_lm l m) * bt_cosnv fb (i_nk n k) * cfac fl n m in
    let coeff2 := bt_cosmu fb (i_lm l m) * bt_sinnv fb (i_nk n k) * cfac fl n m in
    let sinm := coeff1 + coeff2 in
    let sinp := coeff1 - coeff2 in
    let c := bDotN klRel * wInt l in
    let bs := add_at bs (i_posn n m) (Tlp fl klRel * c * sinp) in
    let bs := add_at bs (i_negn n m) (Tlm fl klRel * c * sinm) in
    (bs, if fullUpdate then
           let gs := add_at gs (i_posn n m * numLocal + klRel)%Z (Slp fl klRel * sinp) in
           add_at gs (i_negn n m * numLocal + klRel)%Z (Slm fl klRel * sinm)
         else gs)) bg.

(** Body of the kl loop of analysum2, singular_integrals.cc:435-548: handles the
    points kl, ..., kl + remaining - 1 of one poloidal row and leaves [kl] at
    kl + remaining after the [--kl] of line 548 and the [++kl] of the loop. *)
Definition row (fl n m kl : Z) (bg : (Z -> R) * (Z -> R)) : Z * ((Z -> R) * (Z -> R)) :=
  let l := (kl / nZeta)%Z in
  let k := (kl mod nZeta)%Z in
  let remaining := Z.min (nZeta - k) (ztMax - kl) in
  let coeff1 := sgnmu l * bt_sinmu fb (i_lm l m) * cfac fl n m in
  let coeff2 := bt_cosmu fb (i_lm l m) * cfac fl n m in
  let passes := (remaining / 4)%Z in
  let '(bs, gs) := bg in
  let '(((p0, p1, p2, p3), (q0, q1, q2, q3)), gs) :=
    unrolled fl n m l k kl passes coeff1 coeff2 gs in
  let bs := add_at bs (i_posn n m) (p0 + p1 + p2 + p3) in
  let bs := add_at bs (i_negn n m) (q0 + q1 + q2 + q3) in
  ((kl + remaining)%Z, leftover fl n m l k kl (4 * passes) remaining (bs, gs)).

(** The kl loop of analysum2, singular_integrals.cc:434-549. Every pass moves
    [kl] up by at least one, so ztMax - ztMin passes are enough ([fuel]). *)
Fixpoint rows (fuel : nat) (fl n m kl : Z) (bg : (Z -> R) * (Z -> R)) : (Z -> R) * (Z -> R) :=
  match fuel with
  | O => bg
  | S fuel => if (kl <? ztMax)%Z
              then let '(kl, bg) := row fl n m kl bg in rows fuel fl n m kl bg
              else bg
  end.

(** analysum2 with its lasym part, singular_integrals.cc:431-586 *)
Definition analysum2 (fl n m : Z) (st : sums) : sums :=
  let '(bs, gs) := rows (Z.to_nat (ztMax - ztMin)) fl n m ztMin (s_bs st, s_gs st) in
  let st := mkSums bs gs (s_bc st) (s_gc st) in
  if lasym then
    for_up ztMin ztMax (fun kl st =>
      let l := (kl / nZeta)%Z in
      let k := (kl mod nZeta)%Z in
      let klRel := (kl - ztMin)%Z in
      let coeff1 := bt_cosmu fb (i_lm l m) * bt_cosnv fb (i_nk n k) * cfac fl n m in
      let coeff2 := sgnmu l * bt_sinmu fb (i_lm l m) * bt_sinnv fb (i_nk n k) * cfac fl n m in
      let cosm := coeff1 - coeff2 in
      let cosp := coeff1 + coeff2 in
      let bc := add_at (s_bc st) (i_posn n m) (Tlp fl klRel * bDotN klRel * wInt l * cosp) in
      let bc := add_at bc (i_negn n m) (Tlm fl klRel * bDotN klRel * wInt l * cosm) in
      mkSums (s_bs st) (s_gs st) bc
        (if fullUpdate then
           let gc := add_at (s_gc st) (i_posn n m * numLocal + klRel)%Z (Slp fl klRel * cosp) in
           add_at gc (i_negn n m * numLocal + klRel)%Z (Slm fl klRel * cosm)
         else s_gc st)) st
  else st.

(** performUpdate, singular_integrals.cc:341-351 (zeroing) and 358-599. *)
Definition perform_update (st : sums) : sums :=
  let zero := fun _ : Z => 0 in
  let st := mkSums zero (if fullUpdate then zero else s_gs st)
              (if lasym then zero else s_bc st)
              (if (lasym && fullUpdate)%bool then zero else s_gc st) in
  for_up 0 (1 + nf + mf) (fun fl st =>
    for_up 0 (nf + 1) (fun n st =>
      for_up 0 (mf + 1) (fun m st =>
        if ((n =? 0) || (m =? 0))%Z%bool then analysum fl n m st else analysum2 fl n m st)
        st) st) st.
End SUMS.
