(** Radial profiles (pressure, rotational transform, current, magnetic flux) as
    functions of the normalised flux, radial_profiles.cc. Arithmetic over the
    reals. [outcome] separates a real result from a value which is not a finite
    real in the code (division by zero, [std::pow] outside its domain) and from
    a read outside a coefficient vector. Warning messages are not modelled. *)
From Coq Require Import ZArith List Bool Reals String.
From Verif Require Import Base PartModel.
Import ListNotations.
Open Scope R_scope.

Inductive outcome : Type :=
| Val (r : R)
| NotFinite
| OutOfRange.

Definition obind (o : outcome) (f : R -> outcome) : outcome :=
  match o with Val r => f r | NotFinite => NotFinite | OutOfRange => OutOfRange end.

(** An Eigen::VectorXd is a list; [vlen] is size(), [vat] an access the code
    makes after having tested the size, [vget] an access it makes without. *)
Definition vlen (v : list R) : Z := Z.of_nat (List.length v).
Definition vat (v : list R) (i : Z) : R := nth (Z.to_nat i) v 0.
Definition vget (v : list R) (i : Z) : outcome :=
  if (0 <=? i)%Z && (i <? vlen v)%Z then Val (vat v i) else OutOfRange.

(** Coef, radial_profiles.cc:55-57: entries beyond the end count as zero. *)
Definition coef (c : list R) (i : Z) : R :=
  if (0 <=? i)%Z && (i <? vlen c)%Z then vat c i else 0.

(** IEEE division seen over the reals. *)
Definition odiv (x y : R) : outcome := if Req_EM_T y 0 then NotFinite else Val (x / y).

(** std::pow seen over the reals: a pole at zero and a negative base with a
    non-integer exponent are not finite reals. *)
Definition std_pow (x y : R) : outcome :=
  match total_order_T 0 x with
  | inleft (left _) => Val (Rpower x y)
  | inleft (right _) =>
      match total_order_T 0 y with
      | inleft (left _) => Val 0
      | inleft (right _) => Val 1
      | inright _ => NotFinite
      end
  | inright _ =>
      if Req_EM_T y (IZR (Int_part y)) then Val (powerRZ x (Int_part y)) else NotFinite
  end.

Definition rltb (x y : R) : bool := if Rlt_dec x y then true else false.
Definition rleb (x y : R) : bool := if Rle_dec x y then true else false.
Definition reqb (x y : R) : bool := if Req_EM_T x y then true else false.

(** ** Polynomials *)

(** evalPowerSeries, radial_profiles.cc:615-631. *)
Definition evalPowerSeries (c : list R) (x : R) (should_integrate : bool) : R :=
  let ret := for_down (vlen c - 1) 0
    (fun i ret => if should_integrate then x * ret + vat c i / IZR (i + 1)
                  else x * ret + vat c i) 0 in
  if should_integrate then ret * x else ret.

(** evalPowerSeriesI, radial_profiles.cc:633-641. *)
Definition evalPowerSeriesI (c : list R) (x : R) : R :=
  for_down (vlen c - 1) 0 (fun i ret => (ret + vat c i) * x) 0.

(** torfluxDeriv, radial_profiles.cc:462-468. *)
Definition torfluxDeriv (aphi : list R) (x : R) : R :=
  for_down (vlen aphi - 1) 0 (fun i t => x * t + IZR (i + 1) * vat aphi i) 0.

(** torflux, radial_profiles.cc:476-484. *)
Definition torflux (aphi : list R) (x : R) : R :=
  for_down (vlen aphi - 1) 0 (fun i t => x * t + vat aphi i) 0 * x.

(** maxToroidalFlux of computeMagneticFluxes, radial_profiles.cc:440-445. The
    poloidal edge flux (447-454) is not used afterwards and is left out. *)
Definition maxToroidalFlux (signOfJacobian phiedge : R) (aphi : list R) : R :=
  let m := signOfJacobian * phiedge / (2 * PI) in
  let e := torflux aphi 1 in
  if Req_EM_T e 0 then m else m / e.

(** evalNiceQuadratic, radial_profiles.cc:1120-1127. *)
Definition evalNiceQuadratic (c : list R) (x : R) : R :=
  coef c 0 * (1 - x) + coef c 1 * x + 4 * coef c 2 * x * (1 - x).

(** evalRational, radial_profiles.cc:1033-1047. A vanishing denominator gives the
    largest double, kept as the parameter [dbl_max]. *)
Definition evalRational (dbl_max : R) (c : list R) (x : R) : R :=
  let numerator := for_down 9 0 (fun i a => x * a + coef c i) 0 in
  let denominator := for_down (vlen c - 1) 10 (fun i a => x * a + coef c i) 0 in
  if Req_EM_T denominator 0 then dbl_max else numerator / denominator.

(** ** Gauss-Legendre rule, radial_profiles.cc:29-38 (and again 767-776). *)
Definition gl_nodes : list R :=
  [ 01304673574141414 / 100000000000000000;  06746831665550774 / 100000000000000000;
    1602952158504878 / 10000000000000000;    2833023029353764 / 10000000000000000;
    4255628305091844 / 10000000000000000;    5744371694908156 / 10000000000000000;
    7166976970646236 / 10000000000000000;    8397047841495122 / 10000000000000000;
    9325316833444923 / 10000000000000000;    9869532642585859 / 10000000000000000 ].
Definition gl_weights : list R :=
  [ 03333567215434407 / 100000000000000000;  0747256745752903 / 10000000000000000;
    1095431812579910 / 10000000000000000;    1346333596549982 / 10000000000000000;
    1477621123573764 / 10000000000000000;    1477621123573764 / 10000000000000000;
    1346333596549982 / 10000000000000000;    1095431812579910 / 10000000000000000;
    0747256745752903 / 10000000000000000;    03333567215434407 / 100000000000000000 ].

(** ** Analytic shapes *)

(** evalGaussTrunc, radial_profiles.cc:643-669. *)
Definition evalGaussTrunc (c : list R) (x : R) (shouldIntegrate : bool) : outcome :=
  if (vlen c <? 2)%Z then Val 0 else
  let a0 := vat c 0 in let a1 := vat c 1 in
  obind (odiv 1 a1) (fun q =>
  let edge := exp (- q ^ 2) in
  if negb shouldIntegrate then
    obind (odiv a0 (1 - edge)) (fun f =>
    obind (odiv x a1) (fun y => Val (f * (exp (- y ^ 2) - edge))))
  else
    let integral := for_up 0 10 (fun i s =>
      let xp := x * vat gl_nodes i in
      s + vat gl_weights i * a0 * (exp (- (xp / a1) ^ 2) - edge)) 0 in
    Val (integral * x)).

(** One term of evalSumAtan below the edge, radial_profiles.cc:697-700:
    [ret += c[k] * atan(c[k+1] * pow(x, c[k+2]) / pow(1-x, c[k+3]))]. *)
Definition atan_term (c : list R) (x : R) (k : Z) (ret : R) : outcome :=
  obind (std_pow x (vat c (k + 2))) (fun u =>
  obind (std_pow (1 - x) (vat c (k + 3))) (fun w =>
  obind (odiv (vat c (k + 1) * u) w) (fun y => Val (ret + vat c k * atan y)))).

(** evalSumAtan, radial_profiles.cc:671-718. *)
Definition evalSumAtan (c : list R) (x : R) : outcome :=
  let ret := if (0 <? vlen c)%Z then vat c 0 else 0 in
  if rleb 1 x then
    let ret := if (2 <=? vlen c)%Z then ret + vat c 1 else ret in
    let ret := if (6 <=? vlen c)%Z then ret + vat c 5 else ret in
    let ret := if (10 <=? vlen c)%Z then ret + vat c 9 else ret in
    let ret := if (14 <=? vlen c)%Z then ret + vat c 13 else ret in
    let ret := if (18 <=? vlen c)%Z then ret + vat c 17 else ret in
    Val ret
  else
    let step k o := if (k + 4 <=? vlen c)%Z then obind o (atan_term c x k) else o in
    step 17%Z (step 13%Z (step 9%Z (step 5%Z (step 1%Z (Val ret))))).

(** [1.0 / pow(1.0 + pow(z / (a*a), b), d)] in evalTwoLorentz,
    radial_profiles.cc:728-749. *)
Definition lorentz (a b d z : R) : outcome :=
  obind (odiv z (a * a)) (fun q =>
  obind (std_pow q b) (fun u =>
  obind (std_pow (1 + u) d) (fun w => odiv 1 w))).

(** [A * (L(x) - L(1)) / (1 - L(1))]. *)
Definition lorentz_part (amp a b d x : R) : outcome :=
  obind (lorentz a b d x) (fun lx =>
  obind (lorentz a b d 1) (fun l1 => odiv (amp * (lx - l1)) (1 - l1))).

(** evalTwoLorentz, radial_profiles.cc:720-751. *)
Definition evalTwoLorentz (c : list R) (x : R) : outcome :=
  if (vlen c <? 8)%Z then Val 0 else
  obind (lorentz_part (vat c 1) (vat c 2) (vat c 3) (vat c 4) x) (fun p1 =>
  obind (lorentz_part (1 - vat c 1) (vat c 5) (vat c 6) (vat c 7) x) (fun p2 =>
  Val (vat c 0 * (p1 + p2)))).

(** [c0 * pow(1 - pow(s, c1), c2)]. *)
Definition two_power_raw (c0 c1 c2 s : R) : outcome :=
  obind (std_pow s c1) (fun u =>
  obind (std_pow (1 - u) c2) (fun w => Val (c0 * w))).

(** The Gauss-Legendre loop with an integrand that may fail. The code multiplies
    weight, amplitude and power from left to right; over the reals the grouping
    is immaterial. *)
Definition gl_sum (f : R -> outcome) (x : R) : outcome :=
  obind (for_up 0 10 (fun i o =>
           obind o (fun s => obind (f (x * vat gl_nodes i)) (fun y =>
             Val (s + vat gl_weights i * y)))) (Val 0))
        (fun s => Val (s * x)).

(** evalTwoPower, radial_profiles.cc:753-787. *)
Definition evalTwoPower (c : list R) (x : R) (shouldIntegrate : bool) : outcome :=
  if (vlen c <? 3)%Z then Val 0 else
  let raw := two_power_raw (vat c 0) (vat c 1) (vat c 2) in
  if negb shouldIntegrate then raw x else gl_sum raw x.

(** The Gaussian factor of evalTwoPowerGs, radial_profiles.cc:806-814
    (i = 3, 6, ..., 18). *)
Definition gs_factor (c : list R) (s : R) : outcome :=
  for_up 0 6 (fun k o =>
    let i := (3 + 3 * k)%Z in
    obind o (fun g =>
      if Req_EM_T (coef c i) 0 then Val g
      else obind (odiv (s - coef c (i + 1)) (coef c (i + 2))) (fun y =>
             Val (g + coef c i * exp (- y ^ 2))))) (Val 1).

(** evalTwoPowerGs, radial_profiles.cc:789-826. *)
Definition evalTwoPowerGs (c : list R) (x : R) (shouldIntegrate : bool) : outcome :=
  if (vlen c <? 3)%Z then Val 0 else
  let raw s := obind (two_power_raw (coef c 0) (coef c 1) (coef c 2) s) (fun p =>
               obind (gs_factor c s) (fun g => Val (p * g))) in
  if negb shouldIntegrate then raw x else gl_sum raw x.

(** evalPedestal, radial_profiles.cc:971-1031. *)
Definition evalPedestal (c : list R) (x : R) (shouldIntegrate : bool) : outcome :=
  if shouldIntegrate then
    let value := for_down 7 0 (fun i a => x * a + coef c i / (IZR i + 1)) 0 * x in
    let w0 := coef c 11 in
    let off := rleb w0 0 in
    let width := if off then 10 ^ 30 else w0 in
    let amplitude := if off then 0 else coef c 8 in
    obind (if off then Val 0
           else odiv 1 (tanh (2 * coef c 10 / width) - tanh (2 * (coef c 10 - 1) / width)))
      (fun normalization =>
    let width1 := Rmax (coef c 16) (1 / 100) in
    let width2 := Rmax (coef c 20) (1 / 100) in
    let g1 := (x - coef c 15) / width1 in
    let g3 := (- coef c 15) / width1 in
    let g2 := (x - coef c 19) / width2 in
    let g4 := (- coef c 19) / width2 in
    Val (value + (normalization * amplitude *
                    (tanh (2 * coef c 10 / width) - tanh (2 * (coef c 10 - sqrt x) / width))
                  + coef c 13 * (tanh g1 - tanh g3)
                  + coef c 17 * (tanh g2 - tanh g4))))
  else
    let value := for_down 15 0 (fun i a => x * a + coef c i) 0 in
    let w0 := coef c 19 in
    let off := rleb w0 0 in
    let width := if off then 10 ^ 30 else w0 in
    obind (if off then Val 0
           else odiv 1 (tanh (2 * coef c 18 / width) - tanh (2 * (coef c 18 - 1) / width)))
      (fun normalization =>
    Val (value + normalization * coef c 17 *
           (tanh (2 * (coef c 18 - sqrt x) / width) - tanh (2 * (coef c 18 - 1) / width)))).

(** ** Akima spline, radial_profiles.cc:59-163.
    Arrays are functions of the Fortran index (-1 .. iv+2); entries not written
    are 0 as after assign(sz, 0.0). *)
Definition aX (xx : list R) : Z -> R :=
  let iv := vlen xx in
  let X := for_up 1 (iv + 1) (fun i X => upd X i (vat xx (i - 1))) (fun _ => 0) in
  let X := upd X (-1) (2 * X 1%Z - X 3%Z) in
  let X := upd X 0 (X 1%Z + X 2%Z - X 3%Z) in
  let X := upd X (iv + 2) (2 * X iv - X (iv - 2)%Z) in
  upd X (iv + 1) (X iv + X (iv - 1)%Z - X (iv - 2)%Z).

Definition aY0 (yy : list R) (iv : Z) : Z -> R :=
  for_up 1 (iv + 1) (fun i Y => upd Y i (vat yy (i - 1))) (fun _ => 0).

(** slopes, first pass (104-105) *)
Definition aM0 (X Y : Z -> R) (iv : Z) : Z -> R :=
  for_up (-1) (iv + 2) (fun f M => upd M f ((Y (f + 1)%Z - Y f) / (X (f + 1)%Z - X f)))
    (fun _ => 0).

(** values at the phantom points (107-124) *)
Definition aY (X Y M : Z -> R) (iv : Z) : Z -> R :=
  let cl := (M 2%Z - M 1%Z) / (X 3%Z - X 1%Z) in
  let bl := M 1%Z - cl * (X 2%Z - X 1%Z) in
  let cr := (M (iv - 1)%Z - M (iv - 2)%Z) / (X iv - X (iv - 2)%Z) in
  let br := M (iv - 1)%Z - cr * (X (iv - 1)%Z - X iv) in
  let Y := upd Y 0 (Y 1%Z + bl * (X 0%Z - X 1%Z) + cl * (X 0%Z - X 1%Z) ^ 2) in
  let Y := upd Y (-1) (Y 1%Z + bl * (X (-1)%Z - X 1%Z) + cl * (X (-1)%Z - X 1%Z) ^ 2) in
  let Y := upd Y (iv + 1) (Y iv + br * (X (iv + 1)%Z - X iv) + cr * (X (iv + 1)%Z - X iv) ^ 2) in
  upd Y (iv + 2) (Y iv + br * (X (iv + 2)%Z - X iv) + cr * (X (iv + 2)%Z - X iv) ^ 2).

(** slopes next to the phantom points (126-129) *)
Definition aM (X Y M : Z -> R) (iv : Z) : Z -> R :=
  let sl f := (Y (f + 1)%Z - Y f) / (X (f + 1)%Z - X f) in
  upd (upd (upd (upd M (-1) (sl (-1)%Z)) 0 (sl 0%Z)) iv (sl iv)) (iv + 1) (sl (iv + 1)%Z).

(** 131 *)
Definition aDM (M : Z -> R) (iv : Z) : Z -> R :=
  for_up (-1) (iv + 1) (fun f DM => upd DM f (Rabs (M (f + 1)%Z - M f))) (fun _ => 0).

(** weights (132-138); the pair is (P, Q) *)
Definition aPQ (DM : Z -> R) (iv : Z) : (Z -> R) * (Z -> R) :=
  for_up 1 (iv + 1) (fun i pq =>
    let denom := DM i + DM (i - 2)%Z in
    if Req_EM_T denom 0 then pq
    else (upd (fst pq) i (DM i / denom), upd (snd pq) i (DM (i - 2)%Z / denom)))
    (fun _ => 0, fun _ => 0).

(** slope estimates (139-144); [tiny] is std::numeric_limits<double>::min() *)
Definition aT (tiny : R) (M P Q : Z -> R) (iv : Z) : Z -> R :=
  for_up 1 (iv + 1) (fun i T =>
    let T := upd T i (P i * M (i - 1)%Z + Q i * M i) in
    if rltb (P i + Q i) tiny then upd T i (1 / 2 * M (i - 1)%Z + 1 / 2 * M i) else T)
    (fun _ => 0).

(** interval coefficients (145-153) *)
Definition aC (X M T : Z -> R) (iv : Z) : Z -> R :=
  for_up 1 iv (fun i C => let h := X (i + 1)%Z - X i in
    upd C i ((3 * M i - T (i + 1)%Z - 2 * T i) / h)) (fun _ => 0).
Definition aD (X M T : Z -> R) (iv : Z) : Z -> R :=
  for_up 1 iv (fun i D => let h := X (i + 1)%Z - X i in
    upd D i ((T (i + 1)%Z + T i - 2 * M i) / (h * h))) (fun _ => 0).

Record akima := mk_akima {
  ak_iv : Z; ak_X : Z -> R;
  ak_A : Z -> R; ak_B : Z -> R; ak_C : Z -> R; ak_D : Z -> R }.

(** BuildAkimaCoeffs; the loop 145-148 copies Y to A and T to B over the whole
    range. *)
Definition buildAkima (tiny : R) (xx yy : list R) : akima :=
  let iv := vlen xx in
  let X := aX xx in
  let Y0 := aY0 yy iv in
  let M0 := aM0 X Y0 iv in
  let Y := aY X Y0 M0 iv in
  let M := aM X Y M0 iv in
  let PQ := aPQ (aDM M iv) iv in
  let T := aT tiny M (fst PQ) (snd PQ) iv in
  mk_akima iv X Y T (aC X M T iv) (aD X M T iv).

(** The search-and-return loop over the intervals 1 .. iv-1
    (radial_profiles.cc:849-856): the first interval containing [x]. *)
Definition first_interval (P : Z -> bool) (lo hi : Z) : option Z :=
  find P (zrange lo hi).

(** evalAkima, radial_profiles.cc:828-858. *)
Definition evalAkima (tiny : R) (knots values : list R) (x : R) : R :=
  let n := vlen knots in
  if (n <? 4)%Z || negb (n =? vlen values)%Z then 0 else
  let k := buildAkima tiny knots values in
  let X := ak_X k in let iv := ak_iv k in
  if rltb x (X 1%Z) || rltb (X iv) x then 0
  else if reqb x (X iv) then vat values (iv - 1)
  else match first_interval (fun i => rleb (X i) x && rltb x (X (i + 1)%Z)) 1 iv with
       | Some i => let dx := x - X i in
                   ak_A k i + dx * (ak_B k i + dx * (ak_C k i + ak_D k i * dx))
       | None => 0
       end.

(** evalAkimaIntegrated, radial_profiles.cc:860-906. [kThird] is 1.0 / 3.0. The
    last loop returns from the first interval whose right end lies beyond [x]. *)
Definition akimaInterval (k : akima) (i : Z) : R :=
  let dx := ak_X k (i + 1)%Z - ak_X k i in
  ak_A k i * dx + 1 / 2 * ak_B k i * dx * dx + 1 / 3 * ak_C k i * dx * dx * dx
  + 1 / 4 * ak_D k i * dx * dx * dx * dx.

Definition evalAkimaIntegrated (tiny : R) (knots values : list R) (x : R) : R :=
  let n := vlen knots in
  if (n <? 4)%Z || negb (n =? vlen values)%Z then 0 else
  let k := buildAkima tiny knots values in
  let X := ak_X k in let iv := ak_iv k in
  if rleb (X iv) x then for_up 1 iv (fun i y => y + akimaInterval k i) 0
  else if rleb x (X 1%Z) then 0
  else match first_interval (fun i => negb (rleb (X (i + 1)%Z) x)) 1 iv with
       | Some i =>
           let y := for_up 1 i (fun j y => y + akimaInterval k j) 0 in
           let dx := x - X i in
           y + dx * (ak_A k i + dx * (1 / 2 * ak_B k i + dx * (1 / 3 * ak_C k i
                                        + 1 / 4 * ak_D k i * dx)))
       | None => for_up 1 iv (fun i y => y + akimaInterval k i) 0
       end.

(** ** Cubic spline, radial_profiles.cc:156-211 *)

(** End derivatives by a quadratic fit (163-172). *)
Definition cubic_yp1 (xa ya : Z -> R) : R :=
  let c := ((ya 2%Z - ya 0%Z) / (xa 2%Z - xa 0%Z) - (ya 1%Z - ya 0%Z) / (xa 1%Z - xa 0%Z))
           / (xa 2%Z - xa 1%Z) in
  (ya 1%Z - ya 0%Z) / (xa 1%Z - xa 0%Z) - c * (xa 1%Z - xa 0%Z).
Definition cubic_ypn (xa ya : Z -> R) (n : Z) : R :=
  let c := ((ya (n - 3)%Z - ya (n - 1)%Z) / (xa (n - 3)%Z - xa (n - 1)%Z)
            - (ya (n - 2)%Z - ya (n - 1)%Z) / (xa (n - 2)%Z - xa (n - 1)%Z))
           / (xa (n - 3)%Z - xa (n - 2)%Z) in
  (ya (n - 2)%Z - ya (n - 1)%Z) / (xa (n - 2)%Z - xa (n - 1)%Z)
  - c * (xa (n - 2)%Z - xa (n - 1)%Z).

(** Forward sweep (173-189); the pair is (y2, u). *)
Definition cubic_forward (xa ya : Z -> R) (n : Z) : (Z -> R) * (Z -> R) :=
  let y2 := upd (fun _ : Z => 0) 0 (- (1 / 2)) in
  let u := upd (fun _ : Z => 0) 0
    (3 / (xa 1%Z - xa 0%Z) * ((ya 1%Z - ya 0%Z) / (xa 1%Z - xa 0%Z) - cubic_yp1 xa ya)) in
  for_up 1 (n - 1) (fun i yu =>
    let sig := (xa i - xa (i - 1)%Z) / (xa (i + 1)%Z - xa (i - 1)%Z) in
    let p := sig * fst yu (i - 1)%Z + 2 in
    (upd (fst yu) i ((sig - 1) / p),
     upd (snd yu) i
       ((6 * ((ya (i + 1)%Z - ya i) / (xa (i + 1)%Z - xa i)
              - (ya i - ya (i - 1)%Z) / (xa i - xa (i - 1)%Z)) / (xa (i + 1)%Z - xa (i - 1)%Z)
         - sig * snd yu (i - 1)%Z) / p))) (y2, u).

(** BuildCubicSecondDerivatives (160-195). *)
Definition cubic_y2 (xa ya : Z -> R) (n : Z) : Z -> R :=
  let yu := cubic_forward xa ya n in
  let u := snd yu in
  let qn := 1 / 2 in
  let un := 3 / (xa (n - 1)%Z - xa (n - 2)%Z)
            * (cubic_ypn xa ya n - (ya (n - 1)%Z - ya (n - 2)%Z) / (xa (n - 1)%Z - xa (n - 2)%Z)) in
  let y2 := upd (fst yu) (n - 1)%Z
              ((un - qn * u (n - 2)%Z) / (qn * fst yu (n - 2)%Z + 1)) in
  for_down (n - 2) 0 (fun k y2 => upd y2 k (y2 k * y2 (k + 1)%Z + u k)) y2.

(** CubicLowerIndex (197-210): the binary search, with the C++ integer division
    of the non-negative sum. [fuel] bounds the number of halvings; the caller
    passes the number of knots, which is enough (proved). *)
Fixpoint bisect (xa : Z -> R) (x : R) (fuel : nat) (klo khi : Z) : Z :=
  match fuel with
  | O => klo
  | S f =>
      if (khi - klo >? 1)%Z then
        let k := ((khi + klo) / 2)%Z in
        if rltb x (xa k) then bisect xa x f klo k else bisect xa x f k khi
      else klo
  end.
Definition cubicLowerIndex (xa : Z -> R) (n : Z) (x : R) : Z :=
  bisect xa x (Z.to_nat n) 0 (n - 1).

(** evalCubic, radial_profiles.cc:908-933. *)
Definition evalCubic (knots values : list R) (x : R) : R :=
  let n := vlen knots in
  if (n <? 4)%Z || negb (n =? vlen values)%Z then 0 else
  let xa := vat knots in let ya := vat values in
  if rltb x (xa 0%Z) || rltb (xa (n - 1)%Z) x then 0 else
  let y2 := cubic_y2 xa ya n in
  let klo := cubicLowerIndex xa n x in
  let khi := (klo + 1)%Z in
  let h := xa khi - xa klo in
  let a := (xa khi - x) / h in
  let b := (x - xa klo) / h in
  a * ya klo + b * ya khi
  + ((a * a * a - a) * y2 klo + (b * b * b - b) * y2 khi) * (h * h) / 6.

(** evalCubicIntegrated, radial_profiles.cc:935-969. *)
Definition evalCubicIntegrated (knots values : list R) (x : R) : R :=
  let n := vlen knots in
  if (n <? 4)%Z || negb (n =? vlen values)%Z then 0 else
  let xa := vat knots in let ya := vat values in
  if rltb x (xa 0%Z) || rltb (xa (n - 1)%Z) x then 0 else
  let y2 := cubic_y2 xa ya n in
  let klo := cubicLowerIndex xa n x in
  let khi := (klo + 1)%Z in
  let prefix := for_up 0 klo (fun i p =>
    let dxa := xa (i + 1)%Z - xa i in
    p + (1 / 2 * dxa * (ya (i + 1)%Z + ya i)
         - (dxa * dxa * dxa) * (y2 (i + 1)%Z + y2 i) / 24)) 0 in
  let h := xa khi - xa klo in
  let dx := x - xa klo in
  let dya := ya khi - ya klo in
  let dy2a := y2 khi - y2 klo in
  let y := ya klo * dx + 1 / 2 * dya * dx * dx / h
           + y2 klo * dx * dx * (2 * dx - 3 * h) / 12
           + dy2a * dx * dx * (dx * dx - 2 * h * h) / (h * 24) in
  y + prefix.

(** ** Line segments *)

(** std::lower_bound: the position of the first element that is not less than
    [x], [vlen] if there is none (for sorted knots this is what the standard
    guarantees). *)
Fixpoint lower_bound (v : list R) (x : R) : Z :=
  match v with
  | [] => 0
  | a :: v' => if rltb a x then (1 + lower_bound v' x)%Z else 0%Z
  end.

(** evalLineSegment, radial_profiles.cc:1051-1074. *)
Definition evalLineSegment (knots values : list R) (x : R) : R :=
  let n := vlen knots in
  if (n <? 2)%Z || negb (n =? vlen values)%Z then 0 else
  let it := lower_bound knots x in
  if (it >=? n - 1)%Z then vat values (n - 1)
  else if (it =? 0)%Z then vat values 0
  else
    let x0 := vat knots it in
    let x1 := vat knots (it + 1) in
    let y0 := vat values it in
    let y1 := vat values (it + 1) in
    let t := (x - x0) / (x1 - x0) in
    (1 - t) * y0 + t * y1.

(** integrate_segment, radial_profiles.cc:1084-1088. *)
Definition integrate_segment (x0 x1 y0 y1 : R) : outcome :=
  obind (odiv (y1 - y0) (x1 - x0)) (fun m =>
  let b := y0 - m * x0 in
  Val (m * (1 / 2) * (x1 * x1 - x0 * x0) + b * (x1 - x0))).

(** The while loop 1099-1104: sum of the complete segments and the index where it
    stops. The reads are inside the vectors because [idx < n - 1]. *)
Fixpoint segments (knots values : list R) (x : R) (fuel : nat) (idx : Z) (acc : outcome)
  : outcome * Z :=
  match fuel with
  | O => (acc, idx)
  | S f =>
      if (idx <? vlen knots - 1)%Z && rltb (vat knots (idx + 1)) x then
        segments knots values x f (idx + 1)
          (obind acc (fun a => obind
             (integrate_segment (vat knots idx) (vat knots (idx + 1))
                                (vat values idx) (vat values (idx + 1)))
             (fun s => Val (a + s))))
      else (acc, idx)
  end.

(** evalLineSegmentIntegrated, radial_profiles.cc:1076-1118. *)
Definition evalLineSegmentIntegrated (knots values : list R) (x : R) : outcome :=
  let n := vlen knots in
  if (n <? 2)%Z || negb (n =? vlen values)%Z then Val 0 else
  if rleb x (vat knots 0) then
    integrate_segment 0 x (vat values 0) (evalLineSegment knots values x)
  else
    let ri := segments knots values x (Z.to_nat n) 0 (Val 0) in
    let idx := snd ri in
    obind (fst ri) (fun result =>
    obind (vget knots idx) (fun x0 =>
    obind (vget knots (idx + 1)) (fun k1 =>
    obind (vget values idx) (fun y0 =>
    obind (vget values (idx + 1)) (fun y1 =>
    obind (integrate_segment x0 (Rmin x k1) y0 y1) (fun s =>
    if rltb (vat knots (n - 1)) x then
      obind (integrate_segment (vat knots (n - 1)) x (vat values (n - 1))
               (evalLineSegment knots values x)) (fun e => Val (result + s + e))
    else Val (result + s))))))).

(** ** The table of parametrisations, radial_profiles.cc:288-387 and
    profile_parameterization_data.h:42-66. The position in the list is the
    enumerator. *)
Inductive quantity := Pressure | Current | Iota.

Record param := mk_param { pname : string; for_pres : bool; for_curr : bool; for_iota : bool }.

Open Scope string_scope.
Definition all_params : list param :=
  [ mk_param "---invalid---" false false false;
    mk_param "power_series" true true true;
    mk_param "power_series_i" false true false;
    mk_param "gauss_trunc" true true false;
    mk_param "sum_atan" false true true;
    mk_param "two_lorentz" true false false;
    mk_param "two_power" true true false;
    mk_param "two_power_gs" true true false;
    mk_param "akima_spline" true false true;
    mk_param "akima_spline_i" false true false;
    mk_param "akima_spline_ip" false true false;
    mk_param "cubic_spline" true false true;
    mk_param "cubic_spline_i" false true false;
    mk_param "cubic_spline_ip" false true false;
    mk_param "pedestal" true true false;
    mk_param "rational" true true true;
    mk_param "line_segment" true false true;
    mk_param "line_segment_i" false true false;
    mk_param "line_segment_ip" false true false;
    mk_param "nice_quadratic" false false true;
    mk_param "sum_cossq_s" false true false;
    mk_param "sum_cossq_sqrts" false true false;
    mk_param "sum_cossq_s_free" false true false ].

Definition allowed (p : param) (q : quantity) : bool :=
  match q with Pressure => for_pres p | Current => for_curr p | Iota => for_iota p end.

(** findParameterization, radial_profiles.cc:389-424: index in the table, 0 for
    INVALID_PARAM. *)
Fixpoint find_param (l : list param) (i : Z) (name : string) (q : quantity) : Z :=
  match l with
  | [] => 0%Z
  | p :: l' => if String.eqb name (pname p) then (if allowed p q then i else 0%Z)
               else find_param l' (i + 1) name q
  end.
Definition findParameterization (name : string) (q : quantity) : Z :=
  find_param all_params 0 name q.
Close Scope string_scope.

(** evalProfileFunction, radial_profiles.cc:561-613. *)
Definition evalProfileFunction (dbl_max tiny : R) (param : Z) (coeffs knots values : list R)
    (shouldIntegrate : bool) (x : R) : outcome :=
  match param with
  | 1%Z => Val (evalPowerSeries coeffs x shouldIntegrate)
  | 2%Z => Val (evalPowerSeriesI coeffs x)
  | 3%Z => evalGaussTrunc coeffs x shouldIntegrate
  | 4%Z => evalSumAtan coeffs x
  | 5%Z => evalTwoLorentz coeffs x
  | 6%Z => evalTwoPower coeffs x shouldIntegrate
  | 7%Z => evalTwoPowerGs coeffs x shouldIntegrate
  | 8%Z | 9%Z => Val (evalAkima tiny knots values x)
  | 10%Z => Val (evalAkimaIntegrated tiny knots values x)
  | 11%Z | 12%Z => Val (evalCubic knots values x)
  | 13%Z => Val (evalCubicIntegrated knots values x)
  | 14%Z => evalPedestal coeffs x shouldIntegrate
  | 15%Z => Val (evalRational dbl_max coeffs x)
  | 16%Z | 17%Z => Val (evalLineSegment knots values x)
  | 18%Z => evalLineSegmentIntegrated knots values x
  | 19%Z => Val (evalNiceQuadratic coeffs x)
  | _ => Val 0
  end.

(** The user's input for one profile. *)
Record profile_in := mk_profile_in {
  pi_type : string; pi_coeffs : list R; pi_knots : list R; pi_values : list R }.

(** evalMassProfile, evalIotaProfile, evalCurrProfile (radial_profiles.cc:530-559)
    with the parametrisation looked up as in setupInputProfiles (278-286).
    [mu0] is the vacuum permeability. *)
Definition evalMassProfile (dbl_max tiny mu0 pres_scale bloat : R) (p : profile_in) (x : R) : outcome :=
  let normX := Rmin (Rabs (x * bloat)) 1 in
  obind (evalProfileFunction dbl_max tiny (findParameterization (pi_type p) Pressure)
           (pi_coeffs p) (pi_knots p) (pi_values p) false normX)
        (fun v => Val (v * (mu0 * pres_scale))).
Definition evalIotaProfile (dbl_max tiny : R) (p : profile_in) (x : R) : outcome :=
  evalProfileFunction dbl_max tiny (findParameterization (pi_type p) Iota)
    (pi_coeffs p) (pi_knots p) (pi_values p) false x.
Definition evalCurrProfile (dbl_max tiny bloat : R) (p : profile_in) (x : R) : outcome :=
  let normX := Rmin (Rabs (x * bloat)) 1 in
  evalProfileFunction dbl_max tiny (findParameterization (pi_type p) Current)
    (pi_coeffs p) (pi_knots p) (pi_values p) true normX.

(** ** The radial grid, evalRadialProfiles (radial_profiles.cc:1129-1251).
    Profiles that may fail ([iota], [curr], [mass] as functions of the flux) are
    parameters here. *)
Record grid_in := mk_grid_in {
  gi_mtf : R;                  (* maxToroidalFlux *)
  gi_aphi : list R;
  gi_iota : R -> outcome; gi_curr : R -> outcome; gi_mass : R -> outcome;
  gi_r00 : R; gi_gamma : R; gi_spres_ped : R; gi_flip : bool }.

(** currv and Itor, 1135-1148. [eps] is DBL_EPSILON. *)
Definition itor (eps mu0 signgs curtor edgeCurrent : R) : outcome :=
  let currv := mu0 * curtor in
  if rltb (Rabs (eps * curtor)) (Rabs edgeCurrent)
  then odiv (signgs * currv) (2 * PI * edgeCurrent)
  else Val 0.

Definition half_pos (ns jH : Z) : R := (IZR jH + 1 / 2) / (IZR ns - 1).
Definition full_pos (ns jF : Z) : R := IZR jF / (IZR ns - 1).

(** Half-grid quantities of 1153-1195 at global index [jH] *)
Definition phipH (g : grid_in) (ns jH : Z) : R := gi_mtf g * torfluxDeriv (gi_aphi g) (half_pos ns jH).
Definition polfluxDeriv (g : grid_in) (x : R) : outcome :=
  obind (gi_iota g (Rmin (torflux (gi_aphi g) x) 1)) (fun i => Val (i * torfluxDeriv (gi_aphi g) x)).
Definition flip_sign (flip : bool) (v : R) : R := if flip then v * -1 else v.
Definition chipH (g : grid_in) (ns jH : Z) : outcome :=
  obind (polfluxDeriv g (half_pos ns jH)) (fun d => Val (flip_sign (gi_flip g) (gi_mtf g * d))).
Definition iotaH (g : grid_in) (ns jH : Z) : outcome :=
  obind (gi_iota g (Rmin (torflux (gi_aphi g) (half_pos ns jH)) 1))
        (fun i => Val (flip_sign (gi_flip g) i)).
Definition currH (g : grid_in) (it : R) (ns jH : Z) : outcome :=
  obind (gi_curr g (Rmin (torflux (gi_aphi g) (half_pos ns jH)) 1)) (fun c => Val (c * it)).
Definition massH (g : grid_in) (ns jH : Z) : outcome :=
  let s := half_pos ns jH in
  let vpnorm := gi_mtf g * torfluxDeriv (gi_aphi g) s in
  obind (gi_mass g (Rmin (torflux (gi_aphi g) (Rmin s (gi_spres_ped g))) 1)) (fun m =>
  obind (std_pow (Rabs vpnorm * gi_r00 g) (gi_gamma g)) (fun w => Val (m * w))).

(** Full-grid quantities of 1205-1215: no change of sign here. *)
Definition phipF (g : grid_in) (ns jF : Z) : R := gi_mtf g * torfluxDeriv (gi_aphi g) (full_pos ns jF).
Definition chipF (g : grid_in) (ns jF : Z) : outcome :=
  obind (polfluxDeriv g (full_pos ns jF)) (fun d => Val (gi_mtf g * d)).
Definition iotaF (g : grid_in) (ns jF : Z) : outcome :=
  gi_iota g (Rmin (torflux (gi_aphi g) (full_pos ns jF)) 1).

(** The contribution of one thread to rmsPhiP, 1150 and 1189-1198. *)
Definition local_rmsPhiP (g : grid_in) (r : rpart) (ns : Z) : R :=
  for_up (nsMinH r) (nsMaxH r) (fun jH s =>
    if (jH <? nsMaxH r - 1)%Z || (jH =? ns - 2)%Z
    then s + phipH g ns jH * phipH g ns jH else s) 0.

(** The geometry factors sqrtSH, sqrtSF, scalxc, sm, sp of one thread
    (1157, 1208-1246) at a global index. [sqrtSF] is overwritten with 1 at the
    boundary if the thread holds it. *)
Definition sqrtSH (ns jH : Z) : R := sqrt (half_pos ns jH).
Definition sqrtSF (r : rpart) (ns jF : Z) : R :=
  if (nsMaxF1 r =? ns)%Z && (jF =? ns - 1)%Z then 1 else sqrt (full_pos ns jF).
Definition scalxc_odd (ns jF : Z) : R :=
  1 / Rmax (sqrt (full_pos ns jF)) (sqrt (1 / (IZR ns - 1))).
Definition smH (r : rpart) (ns jH : Z) : R := sqrtSH ns jH / sqrtSF r ns (jH + 1).
Definition spH (r : rpart) (ns jH : Z) : R :=
  if (jH =? 0)%Z then smH r ns 0 else sqrtSH ns jH / sqrtSF r ns jH.
