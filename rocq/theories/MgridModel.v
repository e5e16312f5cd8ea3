(** The vacuum grid: loading coil fields into MGridProvider and interpolating
    them on the plasma boundary.
    free_boundary/mgrid_provider/mgrid_provider.{h,cc}. *)
From Coq Require Import ZArith List Bool.
From Verif Require Import Base Num.
Import ListNotations.
Open Scope Z_scope.

Section Mgrid.
  Context {K : num}.

  (** Members of MGridProvider, mgrid_provider.h:38-73 (nfp and mgrid_mode are
      never read by the code modelled here). [len] is the size of bR, bP, bZ. *)
  Record mgrid := mkMgrid {
    numR : Z; minR : K; maxR : K; deltaR : K;
    numZ : Z; minZ : K; maxZ : K; deltaZ : K;
    numPhi : Z; nextcur : Z;
    len : Z; bR : Z -> K; bP : Z -> K; bZ : Z -> K;
    has_mgrid_loaded : bool; has_fixed_field : bool;
    fixed_br : Z -> K; fixed_bp : Z -> K; fixed_bz : Z -> K }.

  (** [static_cast<int>(floor(x))]: [None] is undefined behaviour (the value does
      not fit an int). *)
  Definition nfloor (x : K) : Z := let t := ntrunc x in if nlt x (nZ t) then t - 1 else t.
  Definition floor_int (x : K) : option Z :=
    if nfinite x && ((- 2 ^ 31 <=? nfloor x) && (nfloor x <? 2 ^ 31)) then Some (nfloor x) else None.

  (** Element access of an Eigen vector of size [n]; [None]: out of range. *)
  Definition rd (n : Z) (a : Z -> K) (i : Z) : option K := if (0 <=? i) && (i <? n) then Some (a i) else None.

  Definition bind {A B} (o : option A) (f : A -> option B) : option B := match o with Some a => f a | None => None end.

  (** "crop to available grid", mgrid_provider.cc:371-372. *)
  Definition crop (lo hi x : K) : K := nmax lo (nmin x hi).

  (** One boundary point in toroidal plane [k]; mgrid_provider.cc:371-403. *)
  Definition interpolate_point (g : mgrid) (k : Z) (rL zL : K) : option (K * K * K) :=
    let r := crop (minR g) (maxR g) rL in
    let z := crop (minZ g) (maxZ g) zL in
    bind (floor_int (ndiv (nsub r (minR g)) (deltaR g))) (fun ir =>
    bind (floor_int (ndiv (nsub z (minZ g)) (deltaZ g))) (fun jz =>
    let ir1 := Z.min (numR g - 1) (ir + 1) in
    let jz1 := Z.min (numZ g - 1) (jz + 1) in
    let ri := nadd (minR g) (nmul (nZ ir) (deltaR g)) in
    let zj := nadd (minZ g) (nmul (nZ jz) (deltaZ g)) in
    let pr := ndiv (nsub r ri) (deltaR g) in
    let qz := ndiv (nsub z zj) (deltaZ g) in
    let w22 := nmul pr qz in
    let w21 := nsub pr w22 in
    let w12 := nsub qz w22 in
    let w11 := nsub (nadd (nZ 1) w22) (nadd pr qz) in
    let kj_i_ := (k * numZ g + jz) * numR g + ir in
    let kj1i_ := (k * numZ g + jz1) * numR g + ir in
    let kj_i1 := (k * numZ g + jz) * numR g + ir1 in
    let kj1i1 := (k * numZ g + jz1) * numR g + ir1 in
    let comb (b : Z -> K) :=
      bind (rd (len g) b kj_i_) (fun b11 => bind (rd (len g) b kj1i_) (fun b12 =>
      bind (rd (len g) b kj_i1) (fun b21 => bind (rd (len g) b kj1i1) (fun b22 =>
        Some (nadd (nadd (nadd (nmul w11 b11) (nmul w12 b12)) (nmul w21 b21)) (nmul w22 b22)))))) in
    bind (comb (bR g)) (fun br => bind (comb (bP g)) (fun bp => bind (comb (bZ g)) (fun bz => Some (br, bp, bz)))))).

  (** MGridProvider::interpolate, mgrid_provider.cc:325-430.  [None]: CHECK
      failure (no grid loaded) or undefined behaviour.  The warning about points
      outside the grid (345-368, 406-425) and the final barrier are left out. *)
  Definition interpolate (g : mgrid) (ztMin ztMax nZeta : Z) (rL zL : Z -> K)
      (o : (Z -> K) * (Z -> K) * (Z -> K)) : option ((Z -> K) * (Z -> K) * (Z -> K)) :=
    if negb (has_mgrid_loaded g) then None else
    if has_fixed_field g then
      Some (for_up ztMin ztMax (fun kl o => match o with (br, bp, bz) =>
              (upd br (kl - ztMin) (fixed_br g kl), upd bp (kl - ztMin) (fixed_bp g kl), upd bz (kl - ztMin) (fixed_bz g kl)) end) o)
    else
      for_up ztMin ztMax (fun kl s => bind s (fun o => match o with (br, bp, bz) =>
        bind (interpolate_point g (Z.rem kl nZeta) (rL kl) (zL kl)) (fun v => match v with (vr, vp, vz) =>
          Some (upd br (kl - ztMin) vr, upd bp (kl - ztMin) vp, upd bz (kl - ztMin) vz) end) end)) (Some o).

  (** MakegridParameters and MagneticFieldResponseTable, makegrid_lib.h:22-80, as
      far as LoadFields reads them. *)
  Record table := mkTable {
    t_numR : Z; t_minR : K; t_maxR : K; t_numZ : Z; t_minZ : K; t_maxZ : K; t_numPhi : Z;
    t_rows : Z; t_br : Z -> Z -> K; t_bp : Z -> Z -> K; t_bz : Z -> Z -> K }.

  Definition delta (lo hi : K) (n : Z) : K := ndiv (nsub hi lo) (nsub (nZ n) (nZ 1)).

  (** The accumulation loops of LoadFields, 295-304. *)
  Definition accumulate_linear (n ncur : Z) (t : Z -> Z -> K) (I : Z -> K) : Z -> K :=
    for_up 0 ncur (fun i b => for_up 0 n (fun l b => upd b l (nadd (b l) (nmul (t i l) (I i)))) b) (fun _ => nZ 0).

  (** MGridProvider::LoadFields, mgrid_provider.cc:255-310; the boolean tells
      whether the status is ok. *)
  Definition LoadFields (t : table) (ncur : Z) (I : Z -> K) (g : mgrid) : bool * mgrid :=
    if negb (ncur =? t_rows t) then (false, g) else
    let n := t_numPhi t * t_numZ t * t_numR t in
    (true, mkMgrid (t_numR t) (t_minR t) (t_maxR t) (delta (t_minR t) (t_maxR t) (t_numR t))
                   (t_numZ t) (t_minZ t) (t_maxZ t) (delta (t_minZ t) (t_maxZ t) (t_numZ t))
                   (t_numPhi t) ncur n
                   (accumulate_linear n ncur (t_br t) I) (accumulate_linear n ncur (t_bp t) I) (accumulate_linear n ncur (t_bz t) I)
                   true false (fixed_br g) (fixed_bp g) (fixed_bz g)).

  (** What a readable mgrid file holds: the scalars, and for each circuit three
      arrays [phi][z][r], if they can be read and have the right shape
      (mgrid_provider.cc:118-165, 183-226). *)
  Record mgrid_file := mkFile {
    f_numR : Z; f_minR : K; f_maxR : K; f_numZ : Z; f_minZ : K; f_maxZ : K; f_numPhi : Z; f_nextcur : Z;
    f_br : Z -> option (Z -> Z -> Z -> K); f_bp : Z -> option (Z -> Z -> Z -> K); f_bz : Z -> option (Z -> Z -> Z -> K) }.

  (** The accumulation of one circuit, 228-242. *)
  Definition add_contribution (nphi nz nr : Z) (c : Z -> Z -> Z -> K) (x : K) (b : Z -> K) : Z -> K :=
    for_up 0 nphi (fun p b => for_up 0 nz (fun j b => for_up 0 nr (fun i b =>
      let l := (p * nz + j) * nr + i in upd b l (nadd (b l) (nmul (c p j i) x))) b) b) b.

  (** MGridProvider::LoadFile, mgrid_provider.cc:87-253, after the scalars have
      been read successfully.  Note that the sizes are stored before the number of
      currents is checked, and the fields are overwritten before a circuit turns
      out to be unreadable. *)
  Definition LoadFile (f : mgrid_file) (ncur : Z) (I : Z -> K) (g : mgrid) : bool * mgrid :=
    let sized l br bp bz ld fx :=
      mkMgrid (f_numR f) (f_minR f) (f_maxR f) (delta (f_minR f) (f_maxR f) (f_numR f))
              (f_numZ f) (f_minZ f) (f_maxZ f) (delta (f_minZ f) (f_maxZ f) (f_numZ f))
              (f_numPhi f) (f_nextcur f) l br bp bz ld fx (fixed_br g) (fixed_bp g) (fixed_bz g) in
    if negb (ncur =? f_nextcur f) then (false, sized (len g) (bR g) (bP g) (bZ g) (has_mgrid_loaded g) (has_fixed_field g)) else
    let n := f_numPhi f * f_numZ f * f_numR f in
    let z := fun _ : Z => nZ 0 : K in
    let r := for_up 0 (f_nextcur f) (fun i s => match s with (ok, (br, bp, bz)) =>
        if ok : bool then
          match f_br f i, f_bp f i, f_bz f i with
          | Some cr, Some cp, Some cz =>
              (true, (add_contribution (f_numPhi f) (f_numZ f) (f_numR f) cr (I i) br,
                      add_contribution (f_numPhi f) (f_numZ f) (f_numR f) cp (I i) bp,
                      add_contribution (f_numPhi f) (f_numZ f) (f_numR f) cz (I i) bz))
          | _, _, _ => (false, (br, bp, bz))
          end
        else s end) (true, (z, z, z)) in
    match r with
    | (true, (br, bp, bz)) => (true, sized n br bp bz true false)
    | (false, (br, bp, bz)) => (false, sized n br bp bz (has_mgrid_loaded g) (has_fixed_field g))
    end.

  (** SetFixedMagneticField, 312-322. *)
  Definition SetFixedMagneticField (br bp bz : Z -> K) (g : mgrid) : mgrid :=
    mkMgrid (numR g) (minR g) (maxR g) (deltaR g) (numZ g) (minZ g) (maxZ g) (deltaZ g) (numPhi g) (nextcur g)
            (len g) (bR g) (bP g) (bZ g) true true br bp bz.
End Mgrid.

Arguments mgrid : clear implicits.
Arguments table : clear implicits.
Arguments mgrid_file : clear implicits.
