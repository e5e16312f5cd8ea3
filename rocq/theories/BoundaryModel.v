(** Reading the boundary: sorting of the input coefficients into the product
    basis, the poloidal origin shift, the orientation test, the reversal of the
    poloidal angle and the m=1 constraint.
    Source: src/vmecpp/cpp/vmecpp/vmec/boundaries/boundaries.cc and
    src/vmecpp/cpp/vmecpp/vmec/fourier_coefficients/fourier_coefficients.cc.
    Simplifications: exact arithmetic over [R], [int] as [Z]; arrays that are not
    allocated when lthreed / lasym is false are present in the record but neither
    written nor (by the specification) read; the axis coefficients and the
    console output are left out. *)
From Coq Require Import ZArith List Bool Reals.
From Verif Require Import Base FourierModel.
Open Scope R_scope.

(** C [atan2] on the reals (ISO C 7.12.4.4); the sign of a zero argument is not
    represented, atan2(0,0) = 0. *)
Definition atan2 (y x : R) : R :=
  match total_order_T x 0 with
  | inright _ => atan (y / x)                                     (* x > 0 *)
  | inleft (left _) => if Rle_dec 0 y then atan (y / x) + PI else atan (y / x) - PI  (* x < 0 *)
  | inleft (right _) =>                                           (* x = 0 *)
      match total_order_T y 0 with
      | inright _ => PI / 2
      | inleft (left _) => - (PI / 2)
      | inleft (right _) => 0
      end
  end.

(** The input coefficients: functions of (m, column), column = ntor + n
    (vmec_indata.h: rbc, zbs, rbs, zbc are mpol x (2 ntor + 1) matrices). *)
Record indata_bdy := mkIn { in_rbc : Z -> Z -> R; in_zbs : Z -> Z -> R;
                            in_rbs : Z -> Z -> R; in_zbc : Z -> Z -> R }.

(** Members of [Boundaries] (boundaries.h). *)
Record bdy := mkBdy { rbcc : Z -> R; zbsc : Z -> R; rbss : Z -> R; zbcs : Z -> R;
                      rbsc : Z -> R; zbcc : Z -> R; rbcs : Z -> R; zbss : Z -> R }.

Section Boundary.
Variables (lasym lthreed : bool) (mpol ntor : Z).
Variable id : indata_bdy.

(** boundaries.cc:70-91 *)
Definition shift_delta : R :=
  if lasym then atan2 (in_rbs id 1 (ntor + 0)%Z - in_zbc id 1 (ntor + 0)%Z)
                      (in_rbc id 1 (ntor + 0)%Z + in_zbs id 1 (ntor + 0)%Z)
  else 0.

(** Decision of [delta == 0.0]. *)
Definition req (x y : R) : bool := if Req_EM_T x y then true else false.

(** boundaries.cc:93-106 *)
Definition clear_bdy (b : bdy) : bdy :=
  let c := fill0 (mpol * (ntor + 1)) in
  mkBdy (c (rbcc b)) (c (zbsc b))
        (if lthreed then c (rbss b) else rbss b) (if lthreed then c (zbcs b) else zbcs b)
        (if lasym then c (rbsc b) else rbsc b) (if lasym then c (zbcc b) else zbcc b)
        (if lasym && lthreed then c (rbcs b) else rbcs b) (if lasym && lthreed then c (zbss b) else zbss b).

(** boundaries.cc:116-172, body of the loop over n *)
Definition parse_mode (delta : R) (m n : Z) (b : bdy) : bdy :=
  let cosMDelta := if req delta 0 then 1 else cos (IZR m * delta) in
  let sinMDelta := if req delta 0 then 0 else sin (IZR m * delta) in
  let source_n := (ntor + n)%Z in
  let target_n := Z.abs n in
  let sign_n := IZR (signum n) in
  let rbc := if negb lasym || req delta 0 then in_rbc id m source_n
             else in_rbc id m source_n * cosMDelta + in_rbs id m source_n * sinMDelta in
  let zbs := if negb lasym || req delta 0 then in_zbs id m source_n
             else in_zbs id m source_n * cosMDelta - in_zbc id m source_n * sinMDelta in
  let i := (m * (ntor + 1) + target_n)%Z in
  let b := mkBdy (upd (rbcc b) i (rbcc b i + rbc))
     (if (m >? 0)%Z then upd (zbsc b) i (zbsc b i + zbs) else zbsc b)
     (if lthreed && (m >? 0)%Z then upd (rbss b) i (rbss b i + sign_n * rbc) else rbss b)
     (if lthreed then upd (zbcs b) i (zbcs b i - sign_n * zbs) else zbcs b)
     (rbsc b) (zbcc b) (rbcs b) (zbss b) in
  if lasym then
    let rbs := if req delta 0 then in_rbs id m source_n
               else in_rbs id m source_n * cosMDelta - in_rbc id m source_n * sinMDelta in
    let zbc := if req delta 0 then in_zbc id m source_n
               else in_zbc id m source_n * cosMDelta + in_zbs id m source_n * sinMDelta in
    mkBdy (rbcc b) (zbsc b) (rbss b) (zbcs b)
      (if (m >? 0)%Z then upd (rbsc b) i (rbsc b i + rbs) else rbsc b)
      (upd (zbcc b) i (zbcc b i + zbc))
      (if lthreed then upd (rbcs b) i (rbcs b i - sign_n * rbs) else rbcs b)
      (if lthreed && (m >? 0)%Z then upd (zbss b) i (zbss b i + sign_n * zbc) else zbss b)
  else b.

(** boundaries.cc:57-174 *)
Definition parseToInternalArrays (b : bdy) : bdy :=
  let delta := shift_delta in
  for_up 0 mpol (fun m b =>
    for_up (- ntor) (ntor + 1) (fun n b => parse_mode delta m n b) b) (clear_bdy b).

(** boundaries.cc:176-203 *)
Definition checkSignOfJacobian (sign_of_jacobian : Z) (b : bdy) : bool :=
  let '(rTest, zTest) := for_up 0 (ntor + 1) (fun n s =>
    let i := (1 * (ntor + 1) + n)%Z in (fst s + rbcc b i, snd s + zbsc b i)) (0, 0) in
  if Rlt_dec 0 (rTest * zTest * IZR sign_of_jacobian) then true else false.

(** boundaries.cc:205-229 *)
Definition flip_mode (m n : Z) (b : bdy) : bdy :=
  let i := (m * (ntor + 1) + n)%Z in
  let p := if (Z.rem m 2 =? 0)%Z then 1%Z else (-1)%Z in
  let mul f k := upd f i (f i * IZR k) in
  mkBdy (mul (rbcc b) p) (mul (zbsc b) (- p)%Z)
    (if lthreed then mul (rbss b) (- p)%Z else rbss b) (if lthreed then mul (zbcs b) p else zbcs b)
    (if lasym then mul (rbsc b) (- p)%Z else rbsc b) (if lasym then mul (zbcc b) p else zbcc b)
    (if lasym && lthreed then mul (rbcs b) p else rbcs b)
    (if lasym && lthreed then mul (zbss b) (- p)%Z else zbss b).
Definition flipTheta (b : bdy) : bdy :=
  for_up 1 mpol (fun m b => for_up 0 (ntor + 1) (fun n b => flip_mode m n b) b) b.

(** One rotation step of boundaries.cc:243-252 and fourier_coefficients.cc:189-199
    at flat index [i]. *)
Definition m1_step (scaling : R) (i : Z) (b : bdy) : bdy :=
  let b := if lthreed then
      let backup := rbss b i in
      let rss := upd (rbss b) i ((backup + zbcs b i) * scaling) in
      mkBdy (rbcc b) (zbsc b) rss (upd (zbcs b) i ((backup - zbcs b i) * scaling))
            (rbsc b) (zbcc b) (rbcs b) (zbss b)
    else b in
  if lasym then
      let backup := rbsc b i in
      let rsc := upd (rbsc b) i ((backup + zbcc b i) * scaling) in
      mkBdy (rbcc b) (zbsc b) (rbss b) (zbcs b) rsc (upd (zbcc b) i ((backup - zbcc b i) * scaling))
            (rbcs b) (zbss b)
  else b.

(** boundaries.cc:239-254 *)
Definition ensureM1Constrained (scaling : R) (b : bdy) : bdy :=
  for_up 0 (ntor + 1) (fun n b => m1_step scaling (1 * (ntor + 1) + n)%Z b) b.

(** fourier_coefficients.cc:176-202, FourierCoeffs::m1Constraint on the surfaces
    nsMin <= jF < min(nsMax, jMax); the record holds the R and Z arrays of the
    coefficient set (rcc zsc rss zcs rsc zcc rcs zss). *)
Definition m1Constraint (nsMin nsMax : Z) (scaling : R) (jMax : option Z) (b : bdy) : bdy :=
  let nsMaxToUse := match jMax with Some j => Z.min j nsMax | None => nsMax end in
  for_up nsMin nsMaxToUse (fun jF b =>
    for_up 0 (ntor + 1) (fun n b =>
      m1_step scaling (((jF - nsMin) * mpol + 1) * (ntor + 1) + n)%Z b) b) b.

(** boundaries.cc:40-55 *)
Definition setupFromIndata (sign_of_jacobian : Z) (b : bdy) : bool * bdy :=
  let b := parseToInternalArrays b in
  let haveToFlipTheta := checkSignOfJacobian sign_of_jacobian b in
  let b := if haveToFlipTheta then flipTheta b else b in
  (haveToFlipTheta, ensureM1Constrained (1 / 2) b).
End Boundary.
