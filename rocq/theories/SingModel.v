(** Model of the analytic singular part of the vacuum solver,
    free_boundary/singular_integrals/singular_integrals.{h,cc}, over the real
    numbers: every [double] operation is the exact one, [log] and [sqrt] are
    those of the standard library. Arrays are functions of an integer index;
    an array that the code never initialised is an arbitrary function.
    One grid point [kl] is modelled at a time in [prepareUpdate], whose body
    reads and writes entry [kl] of its arrays only (lines 181-334). *)
From Coq Require Import ZArith Reals Bool.
From Verif Require Import Base.
Open Scope R_scope.

(** Real comparison as a test (the code's [>] on doubles). *)
Definition Rgtb (x y : R) : bool := if Rlt_dec y x then true else false.

(** ** computeCoefficients, singular_integrals.cc:82-155 *)

(** Index of cmn / cmns, singular_integrals.cc:118 (line 139 and line 381 use
    the same index). *)
Definition lnm_idx (mf nf l n m : Z) : Z := ((l * (nf + 1) + n) * (mf + 1) + m)%Z.

(** Factorials on entry of the l loop, singular_integrals.cc:97-106: the pair
    (f1, f2). *)
Definition cmn_start (m n : Z) : R * R :=
  let k_mn := Z.abs (m - n) in
  let s_mn := Z.max m n in
  for_up 1 (k_mn + 1)
    (fun i '(f1, f2) => (f1 * IZR (s_mn - i + 1), f2 * IZR i)) (1, 1).

(** The l loop, singular_integrals.cc:117-127. The C++ loop steps [l] by 2
    from k_mn to j_mn; here [i] counts its passes, so [l = k_mn + 2 i], and the
    number of passes is (j_mn - k_mn) / 2 + 1 (j_mn - k_mn is twice min(m, n)).
    The state is the array cmn, f1, f2, f3 and cmnSign. *)
Definition cmn_mode (mf nf n m : Z) (cmn : Z -> R) : Z -> R :=
  let i_mn := (m - n)%Z in
  let j_mn := (m + n)%Z in
  let k_mn := Z.abs i_mn in
  let '(f1, f2) := cmn_start m n in
  let sign := if (Z.max 0 (n - m) mod 2 =? 0)%Z then 1 else -1 in
  let '(cmn, _, _, _, _) :=
    for_up 0 ((j_mn - k_mn) / 2 + 1)
      (fun i '(cmn, f1, f2, f3, sign) =>
         let l := (k_mn + 2 * i)%Z in
         let cmn := upd cmn (lnm_idx mf nf l n m) (f1 / (f2 * f3) * sign) in
         let f1 := f1 * (IZR ((l + 2 + j_mn) * (j_mn - l)) * (1 / 4)) in
         let f2 := f2 * (IZR (l + 2 + k_mn) * (1 / 2)) in
         let f3 := f3 * (IZR (l + 2 - k_mn) * (1 / 2)) in
         (cmn, f1, f2, f3, - sign))
      (cmn, f1, f2, 1, sign) in
  cmn.

(** The whole table cmn, singular_integrals.cc:85-129. *)
Definition cmn_table (mf nf : Z) : Z -> R :=
  for_up 0 (nf + 1)
    (fun n cmn => for_up 0 (mf + 1) (fun m cmn => cmn_mode mf nf n m cmn) cmn)
    (fun _ => 0).

(** cmns from cmn, singular_integrals.cc:132-154. *)
Definition cmns_table (mf nf : Z) (cmn cmns0 : Z -> R) : Z -> R :=
  for_up 0 (nf + 1) (fun n cmns =>
    for_up 0 (mf + 1) (fun m cmns =>
      let n_m_ := (n * (mf + 1) + m)%Z in
      let n1m_ := ((n - 1) * (mf + 1) + m)%Z in
      let n_m1 := (n * (mf + 1) + (m - 1))%Z in
      let n1m1 := ((n - 1) * (mf + 1) + (m - 1))%Z in
      for_up 0 (1 + mf + nf) (fun l cmns =>
        let ln_m_ := (l * (mf + 1) * (nf + 1) + n_m_)%Z in
        let ln1m_ := (l * (mf + 1) * (nf + 1) + n1m_)%Z in
        let ln_m1 := (l * (mf + 1) * (nf + 1) + n_m1)%Z in
        let ln1m1 := (l * (mf + 1) * (nf + 1) + n1m1)%Z in
        upd cmns ln_m_
          (if ((m =? 0) && (n =? 0))%Z%bool then cmn ln_m_
           else if ((m =? 0) && (0 <? n))%Z%bool then (cmn ln_m_ + cmn ln1m_) / 2
           else if ((0 <? m) && (n =? 0))%Z%bool then (cmn ln_m_ + cmn ln_m1) / 2
           else (cmn ln_m_ + cmn ln1m_ + cmn ln_m1 + cmn ln1m1) / 2))
        cmns) cmns) cmns0.

(** ** prepareUpdate, singular_integrals.cc:176-335, for one grid point *)

(** T_0 of one sign, singular_integrals.cc:216-221, with A = ap for T^+ and
    A = am for T^-. *)
Definition t_zero (A d sqrtc2 sqrta2 : R) : R :=
  let sqrtA := sqrt A in
  ln ((sqrtA * sqrtc2 + A + d) / (sqrtA * sqrta2 - A + d)) / sqrtA.

(** useBackwardP / useBackwardM, singular_integrals.cc:253-261. *)
Definition log_growth_threshold : R := 10 * (230258509299 / 100000000000).
Definition use_backward (A B : R) (kL : Z) : bool :=
  let logRatio := if (Rgtb B A && Rgtb A 0)%bool then ln (B / A) else 0 in
  Rgtb (IZR kL * logRatio) log_growth_threshold.

(** Forward branch, singular_integrals.cc:284-297 (T^+) and 320-333 (T^-). *)
Definition t_forward (A B d sqrtc2 sqrta2 : R) (kL : Z) (T : Z -> R) : Z -> R :=
  let '(T, _, _) :=
    for_up 0 kL (fun fl '(T, T_prev, sgn) =>
      let sgn := - sgn in
      let rhs := sqrtc2 + sgn * sqrta2 in
      let T_next := (rhs - IZR (2 * fl + 1) * d * T fl - IZR fl * B * T_prev)
                    / (A * IZR (fl + 1)) in
      (upd T (fl + 1) T_next, T fl, sgn)) (T, 0, 1) in
  T.

(** The downward loop of the backward branch, singular_integrals.cc:267-279
    and 303-315. *)
Definition t_down (A B d sqrtc2 sqrta2 : R) (kL kLtail : Z) (T : Z -> R) : Z -> R :=
  let '(T, _, _) :=
    for_down kLtail 1 (fun l '(T, T_hi, T_cur) =>
      let rhs := sqrtc2 + (if (l mod 2 =? 0)%Z then -1 else 1) * sqrta2 in
      let T_lo := (rhs - IZR (2 * l + 1) * d * T_cur - IZR (l + 1) * A * T_hi)
                  / (IZR l * B) in
      (if (l - 1 <=? kL)%Z then upd T (l - 1)%Z T_lo else T, T_cur, T_lo))
      (T, 0, / 10 ^ 300) in
  T.

(** Backward branch with its normalisation, singular_integrals.cc:265-283. *)
Definition t_backward (A B d sqrtc2 sqrta2 T0 : R) (kL kLtail : Z) (T : Z -> R) : Z -> R :=
  let T := t_down A B d sqrtc2 sqrta2 kL kLtail T in
  let scale := T0 / T 0%Z in
  for_up 0 (kL + 1) (fun l T => upd T l (T l * scale)) T.

(** T^+_l with (A, B) = (ap, am), singular_integrals.cc:264-297; T^-_l with
    (A, B) = (am, ap), lines 300-333. [T] is the array on entry. *)
Definition t_table (A B d sqrtc2 sqrta2 : R) (kL : Z) (T : Z -> R) : Z -> R :=
  let T0 := t_zero A d sqrtc2 sqrta2 in
  let T := upd T 0%Z T0 in
  if use_backward A B kL
  then t_backward A B d sqrtc2 sqrta2 T0 kL (kL + 50) T
  else t_forward A B d sqrtc2 sqrta2 kL T.

(** Tlp and Tlm at one grid point from the metric (a, b2, c) = (guu, guv, gvv),
    singular_integrals.cc:183-187, 212-333. *)
Definition tlp (a b2 c : R) (mf nf : Z) (T : Z -> R) : Z -> R :=
  t_table (a + b2 + c) (a - b2 + c) (c - a) (2 * sqrt c) (2 * sqrt a) (mf + nf) T.
Definition tlm (a b2 c : R) (mf nf : Z) (T : Z -> R) : Z -> R :=
  t_table (a - b2 + c) (a + b2 + c) (c - a) (2 * sqrt c) (2 * sqrt a) (mf + nf) T.

(** Which branch fills them, singular_integrals.cc:254-261. *)
Definition backward_p (a b2 c : R) (mf nf : Z) : bool :=
  use_backward (a + b2 + c) (a - b2 + c) (mf + nf).
Definition backward_m (a b2 c : R) (mf nf : Z) : bool :=
  use_backward (a - b2 + c) (a + b2 + c) (mf + nf).

(** R1, R0, Ra1 of one sign, singular_integrals.cc:190-209: ([x], [y], [X],
    [Y]) is (ap, am, Ap, Am) for the plus sign and (am, ap, Am, Ap) for the
    minus sign. *)
Definition r1_of (x y d X Y D : R) : R :=
  let delta4 := x * y - d * d in
  (X * (delta4 - d * d) / x - Y * x + 2 * D * d) / delta4.
Definition r0_of (x y d X Y D : R) : R :=
  let delta4 := x * y - d * d in
  (- X * y * d / x - Y * d + 2 * D * y) / delta4.
Definition ra1_of (x X : R) : R := X / x.

(** Slp / Slm, singular_integrals.cc:353-373 and 594-598: at pass [fl] the
    shifted array Tl1 holds T_{fl-1} (zero at the first pass) and [sgn] has
    been negated [fl] times. The state of the loop is the array Sl, Tl1 and sgn. *)
Definition s_table (R1 R0 Ra1 sqrtc2 sqrta2 : R) (T : Z -> R) (kL : Z) (Sl : Z -> R) : Z -> R :=
  let '(Sl, _, _) :=
    for_up 0 (1 + kL) (fun fl '(Sl, Tl1, sgn) =>
      let v := (R1 * IZR fl + Ra1) * T fl + R0 * IZR fl * Tl1
               - (R0 + R1) / sqrtc2 + sgn * (R0 - R1) / sqrta2 in
      (upd Sl fl v, T fl, - sgn)) (Sl, 0, 1) in
  Sl.

(** Slp and Slm at one grid point from (a, b2, c) and
    (A, B2, C) = (auu, auv, avv), for given Tlp / Tlm. *)
Definition slp (a b2 c A B2 C : R) (T : Z -> R) (mf nf : Z) (Sl : Z -> R) : Z -> R :=
  let ap := a + b2 + c in let am := a - b2 + c in let d := c - a in
  let Ap := A + B2 + C in let Am := A - B2 + C in let D := C - A in
  s_table (r1_of ap am d Ap Am D) (r0_of ap am d Ap Am D) (ra1_of ap Ap)
    (2 * sqrt c) (2 * sqrt a) T (mf + nf) Sl.
Definition slm (a b2 c A B2 C : R) (T : Z -> R) (mf nf : Z) (Sl : Z -> R) : Z -> R :=
  let ap := a + b2 + c in let am := a - b2 + c in let d := c - a in
  let Ap := A + B2 + C in let Am := A - B2 + C in let D := C - A in
  s_table (r1_of am ap d Am Ap D) (r0_of am ap d Am Ap D) (ra1_of am Am)
    (2 * sqrt c) (2 * sqrt a) T (mf + nf) Sl.
