(** The arithmetic the solver runs on, as a record of operations.

    Control-flow models are parametric in this record, so a theorem proved for
    every [num] holds for IEEE doubles with whatever rounding; laws needed
    by a theorem appear as explicit hypotheses of that theorem.  Three
    instances: [num_R] (exact arithmetic, Coq Reals), [num_f64] (binary64 of
    the standard library's [SpecFloat], used for executable cases and for
    counterexamples), and arbitrary. *)
From Coq Require Import ZArith Bool Reals SpecFloat.
From Verif Require Import Base.
Open Scope Z_scope.

Record num : Type := mkNum {
  N :> Type;
  nadd : N -> N -> N;
  nsub : N -> N -> N;
  nmul : N -> N -> N;
  ndiv : N -> N -> N;
  nabs : N -> N;                 (* std::abs *)
  nlog : N -> N;                 (* std::log, never interpreted *)
  nlt : N -> N -> bool;          (* C++ [a < b] on doubles *)
  nle : N -> N -> bool;          (* C++ [a <= b] *)
  neq : N -> N -> bool;          (* C++ [a == b] *)
  nfinite : N -> bool;           (* std::isfinite *)
  ntrunc : N -> Z;               (* static_cast<int> *)
  nZ : Z -> N                    (* integer-valued literal *)
}.

Arguments nadd {_} _ _.  Arguments nsub {_} _ _.  Arguments nmul {_} _ _.  Arguments ndiv {_} _ _.
Arguments nabs {_} _.    Arguments nlog {_} _.    Arguments nlt {_} _ _.
Arguments nle {_} _ _.   Arguments neq {_} _ _.   Arguments nfinite {_} _.
Arguments ntrunc {_} _.  Arguments nZ {_} _.

(** A decimal literal p/q with p, q exactly representable: the nearest double of
    the rational p/q is the correctly rounded quotient. *)
Definition nfrac {K : num} (p q : Z) : K := ndiv (nZ p) (nZ q).

(** std::min(a, b) returns [b < a ? b : a]; std::max(a, b) returns
    [a < b ? b : a]. *)
Definition nmin {K : num} (a b : K) : K := if nlt b a then b else a.
Definition nmax {K : num} (a b : K) : K := if nlt a b then b else a.

(** Exact arithmetic. *)
Definition Rltb (a b : R) : bool := if Rlt_dec a b then true else false.
Definition Rleb (a b : R) : bool := if Rle_dec a b then true else false.
Definition Reqb (a b : R) : bool := if Req_EM_T a b then true else false.

Definition num_R : num :=
  mkNum R Rplus Rminus Rmult Rdiv Rabs (fun x => ln x) Rltb Rleb Reqb (fun _ => true)
        (fun x => if Rlt_dec x 0 then - (Int_part (- x)) else Int_part x) IZR.

(** binary64. *)
Definition f64 := spec_float.
Definition f64_ofZ (z : Z) : f64 := binary_normalize 53 1024 z 0 false.
Definition f64_add := SFadd 53 1024.
Definition f64_sub := SFsub 53 1024.
Definition f64_mul := SFmul 53 1024.
Definition f64_div := SFdiv 53 1024.
Definition f64_abs := SFabs.
Definition f64_lt (a b : f64) : bool :=
  match SFcompare a b with Some Lt => true | _ => false end.
Definition f64_le (a b : f64) : bool :=
  match SFcompare a b with Some Lt => true | Some Eq => true | _ => false end.
Definition f64_eq (a b : f64) : bool :=
  match SFcompare a b with Some Eq => true | _ => false end.
Definition f64_finite (a : f64) : bool :=
  match a with S754_zero _ => true | S754_finite _ _ _ => true | _ => false end.
(** Truncation towards zero; out-of-range conversions (undefined in C++) give 0
    here and are never reached: the only conversion modelled is of a value
    between 0 and 10. *)
Definition f64_trunc (a : f64) : Z :=
  match a with
  | S754_finite s m e =>
      let v := if 0 <=? e then Z.pos m * 2 ^ e else Z.pos m / 2 ^ (- e) in
      if s then - v else v
  | _ => 0
  end.
(** [log] on doubles is only used through [min (abs (log r)) 0.15]; the
    executable instance uses the crude stand-in [r - 1].  No theorem depends on
    it: theorems are stated for every [num]. *)
Definition num_f64 : num :=
  mkNum f64 f64_add f64_sub f64_mul f64_div f64_abs
        (fun x => f64_add x (f64_ofZ (-1)))
        f64_lt f64_le f64_eq f64_finite f64_trunc f64_ofZ.
