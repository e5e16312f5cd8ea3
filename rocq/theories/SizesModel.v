(** Grid and array sizes derived from the input resolution.
    Source: src/vmecpp/cpp/vmecpp/common/sizes/sizes.cc.
    Simplification: [int] is modelled by [Z] (no wrap-around); the real-valued
    integration weights are computed in exact arithmetic. *)
From Coq Require Import ZArith List Bool Reals.
From Verif Require Import Base.
Open Scope Z_scope.

(** Members of [Sizes] (sizes.h); [wInt] is a function of the poloidal index. *)
Record sizes := mkSizes {
  sz_lasym : bool; sz_nfp : Z; sz_mpol : Z; sz_ntor : Z;
  sz_mpolGeometry : Z; sz_ntorGeometry : Z;
  sz_ntheta : Z; sz_nZeta : Z;
  sz_lthreed : bool; sz_num_basis : Z;
  sz_nThetaEven : Z; sz_nThetaReduced : Z; sz_nThetaEff : Z; sz_nZnT : Z;
  sz_wInt : Z -> R;
  sz_mnsize : Z; sz_mnmax : Z;
  sz_mnyq2 : Z; sz_nnyq2 : Z; sz_mnmax_nyq : Z; sz_mnyq : Z; sz_nnyq : Z }.

(** sizes.cc:126-138: normalisation and integration weights. *)
Definition dnorm3 (lasym : bool) (nZeta nThetaReduced nThetaEven : Z) : R :=
  if lasym then (1 / IZR (nZeta * nThetaEven))%R
  else (1 / IZR (nZeta * (nThetaReduced - 1)))%R.
Definition wint (lasym : bool) (nZeta nThetaReduced nThetaEven nThetaEff : Z) : Z -> R :=
  for_up 0 nThetaEff (fun l w =>
    let w := upd w l (dnorm3 lasym nZeta nThetaReduced nThetaEven) in
    if negb lasym && ((l =? 0) || (l =? nThetaReduced - 1))
    then upd w l (w l / 2)%R else w) (fun _ => 0%R).

(** sizes.cc:20-165, constructor and computeDerivedSizes.  [None] stands for a
    failed [CHECK] (process abort) on nfp, mpol, ntor (43-51). *)
Definition make_sizes (lasym : bool) (nfp mpol ntor ntheta nzeta mpol_geometry ntor_geometry : Z)
  : option sizes :=
  let mpolGeometry := if (mpol_geometry <? 1) || (mpol_geometry >? mpol) then mpol else mpol_geometry in
  let ntorGeometry := if (ntor_geometry <? 0) || (ntor_geometry >? ntor) then ntor else ntor_geometry in
  if (nfp <? 1) || (mpol <? 1) || (ntor <? 0) then None else
  let ntheta := if ntheta <? 2 * mpol + 6 then 2 * mpol + 6 else ntheta in
  let nZeta := if (ntor =? 0) && (nzeta <? 1) then 1 else nzeta in
  let nZeta := if ntor >? 0 then (if nZeta <? 2 * ntor + 4 then 2 * ntor + 4 else nZeta) else nZeta in
  let lthreed := ntor >? 0 in
  let num_basis := 1 in
  let num_basis := if lthreed then num_basis * 2 else num_basis in
  let num_basis := if lasym then num_basis * 2 else num_basis in
  let nThetaEven := 2 * Z.quot ntheta 2 in
  let nThetaReduced := Z.quot nThetaEven 2 + 1 in
  let nThetaEff := if lasym then nThetaEven else nThetaReduced in
  let nZnT := nZeta * nThetaEff in
  let wInt := wint lasym nZeta nThetaReduced nThetaEven nThetaEff in
  let mnsize := mpol * (ntor + 1) in
  let mnmax := (ntor + 1) + (mpol - 1) * (2 * ntor + 1) in
  let mnyq0 := Z.quot nThetaEven 2 in
  let nnyq0 := Z.quot nZeta 2 in
  let mnyq2 := Z.max 0 (Z.max (2 * mnyq0) (2 * (mpol - 1))) in
  let nnyq2 := Z.max 0 (Z.max (2 * nnyq0) (2 * ntor)) in
  let mnmax_nyq := Z.quot nnyq2 2 + 1 + Z.quot mnyq2 2 * (nnyq2 + 1) in
  let mnyq := Z.quot mnyq2 2 in
  let nnyq := Z.quot nnyq2 2 in
  Some (mkSizes lasym nfp mpol ntor mpolGeometry ntorGeometry ntheta nZeta lthreed num_basis
    nThetaEven nThetaReduced nThetaEff nZnT wInt mnsize mnmax mnyq2 nnyq2 mnmax_nyq mnyq nnyq).
