(** The fragment of C++ in which the vendored FFTX routines are written
    (src/vmecpp/cpp/third_party/fftx_codelets), with a semantics that stops
    ([None]) on reading an uninitialised variable or array cell and on every
    access outside an array.
    Simplifications: [double] is [R] (exact arithmetic, decimal literals are the
    exact decimals), [int] is [Z]; a declaration without initialiser makes the
    variables uninitialised. *)
From Coq Require Import ZArith List Bool Reals.
From Verif Require Import Base.
Import ListNotations.
Open Scope Z_scope.

Inductive iexp := IC (z : Z) | IV (v : Z) | IAdd (a b : iexp) | ISub (a b : iexp) | IMul (a b : iexp).
(** [DC n d]: the literal n / d; [DLd a i]: [*(A + i)]; [DTab l i]: entry i of an
    array written out in the expression; [DCospi i d]: [cospi(((double)i) / d)]. *)
Inductive dexp :=
  | DC (n d : Z) | DV (v : Z) | DLd (a : Z) (i : iexp) | DTab (l : list (Z * Z)) (i : iexp)
  | DAdd (x y : dexp) | DSub (x y : dexp) | DMul (x y : dexp) | DNeg (x : dexp)
  | DCospi (i : iexp) (d : Z) | DSinpi (i : iexp) (d : Z).
(** [SFor v h s]: [for (int v = 0; v <= h; v++) { s }]. *)
Inductive stmt :=
  | SSkip | SSeq (s1 s2 : stmt) | SUndefI (l : list Z) | SUndefD (l : list Z)
  | SI (v : Z) (e : iexp) | SD (v : Z) (e : dexp) | ST (a : Z) (i : iexp) (e : dexp)
  | SFor (v h : Z) (s : stmt).
Definition block (l : list stmt) : stmt := fold_right SSeq SSkip l.

(** Transform length, static arrays with their sizes, those of them that are
    thread-local, the init function and the body of the loop over transforms. *)
Record codelet := { cd_n : Z; cd_lens : list (Z * Z); cd_local : list Z; cd_init : stmt; cd_body : stmt }.

(** third_party/fftx_codelets/include/omega64.h:12 *)
Definition cPI : R := IZR 314159265358979323846 / IZR 100000000000000000000.
(** omega64.h:37-39: the two loops bring the argument into [0, 2). *)
Definition reduce2 (a : R) : R := (a - 2 * IZR (Int_part (a / 2)))%R.
(** omega64.h:35-60 *)
Definition spiral_cospi (a : R) : R :=
  let a := reduce2 a in
  let '(sign, a) := if Rle_dec 1 a then ((-1)%R, (a - 1)%R) else (1%R, a) in
  if Req_EM_T a 0 then sign
  else if Req_EM_T a (1 / 4) then (sign * (IZR 70710678118654752440 / IZR 100000000000000000000))%R
  else if Req_EM_T a (1 / 2) then 0%R
  else if Rlt_dec (1 / 2) a then (- sign * sin (cPI * (a - 1 / 2)))%R
  else (sign * cos (cPI * a))%R.
(** omega64.h:62-64 *)
Definition spiral_sinpi (a : R) : R := spiral_cospi (1 / 2 - a).

Record cst := { c_iv : Z -> option Z; c_dv : Z -> option R; c_mem : Z -> Z -> option R }.
Definition set_iv (st : cst) v x := {| c_iv := upd (c_iv st) v x; c_dv := c_dv st; c_mem := c_mem st |}.
Definition set_dv (st : cst) v x := {| c_iv := c_iv st; c_dv := upd (c_dv st) v x; c_mem := c_mem st |}.
Definition set_mem (st : cst) a k x :=
  {| c_iv := c_iv st; c_dv := c_dv st; c_mem := upd (c_mem st) a (upd (c_mem st a) k x) |}.
Definition bind {A B} (o : option A) (f : A -> option B) : option B := match o with Some x => f x | None => None end.
Definition lift2 {A B C} (f : A -> B -> C) (x : option A) (y : option B) : option C :=
  bind x (fun a => bind y (fun b => Some (f a b))).
Definition inside (n k : Z) : bool := (0 <=? k) && (k <? n).
Fixpoint repeat_opt {S} (n : nat) (k : Z) (f : Z -> S -> option S) (st : S) : option S :=
  match n with O => Some st | S m => bind (f k st) (repeat_opt m (k + 1) f) end.

Section Exec.
(** Number of cells of each array. *)
Variable len : Z -> Z.

Fixpoint iev (st : cst) (e : iexp) : option Z :=
  match e with
  | IC z => Some z | IV v => c_iv st v
  | IAdd a b => lift2 Z.add (iev st a) (iev st b)
  | ISub a b => lift2 Z.sub (iev st a) (iev st b)
  | IMul a b => lift2 Z.mul (iev st a) (iev st b)
  end.
Fixpoint dev (st : cst) (e : dexp) : option R :=
  match e with
  | DC n d => Some (IZR n / IZR d)%R
  | DV v => c_dv st v
  | DLd a i => bind (iev st i) (fun k => if inside (len a) k then c_mem st a k else None)
  | DTab l i => bind (iev st i) (fun k => if inside (Z.of_nat (length l)) k
      then let '(n, d) := nth (Z.to_nat k) l (0, 1) in Some (IZR n / IZR d)%R else None)
  | DAdd x y => lift2 Rplus (dev st x) (dev st y)
  | DSub x y => lift2 Rminus (dev st x) (dev st y)
  | DMul x y => lift2 Rmult (dev st x) (dev st y)
  | DNeg x => bind (dev st x) (fun r => Some (- r)%R)
  | DCospi i d => bind (iev st i) (fun k => Some (spiral_cospi (IZR k / IZR d)))
  | DSinpi i d => bind (iev st i) (fun k => Some (spiral_sinpi (IZR k / IZR d)))
  end.
Fixpoint exec (s : stmt) (st : cst) : option cst :=
  match s with
  | SSkip => Some st
  | SSeq s1 s2 => bind (exec s1 st) (exec s2)
  | SUndefI l => Some (fold_left (fun st v => set_iv st v None) l st)
  | SUndefD l => Some (fold_left (fun st v => set_dv st v None) l st)
  | SI v e => bind (iev st e) (fun k => Some (set_iv st v (Some k)))
  | SD v e => bind (dev st e) (fun r => Some (set_dv st v (Some r)))
  | ST a i e => bind (iev st i) (fun k => bind (dev st e) (fun r =>
      if inside (len a) k then Some (set_mem st a k (Some r)) else None))
  | SFor v h b => repeat_opt (Z.to_nat (h + 1)) 0 (fun k st => exec b (set_iv st v (Some k))) st
  end.
End Exec.

(** Array sizes during a call for [cnt] transforms with input stride [sx] and
    output stride [sy]: X is array 0, Y is array 1. *)
Definition lookup (l : list (Z * Z)) (a : Z) : Z :=
  match find (fun p => fst p =? a) l with Some p => snd p | None => 0 end.
Definition lens (cd : codelet) (lx ly : Z) (a : Z) : Z :=
  if a =? 0 then lx else if a =? 1 then ly else lookup (cd_lens cd) a.
(** init_fftx_... *)
Definition cd_start (cd : codelet) (st : cst) : option cst := exec (lens cd 0 0) (cd_init cd) st.
(** fftx_...(Y, X): the loop over the [cnt] transforms. *)
Definition cd_run (cd : codelet) (cnt lx ly : Z) (st : cst) : option cst :=
  exec (lens cd lx ly) (SFor 0 (cnt - 1) (cd_body cd)) st.

(** lib_fftx_prdftbat_cpu_srcs/fftx_prdftbat_cpu_libentry.cpp:36-56 (and iprdftbat):
    linear search of the table of sizes; NULL if there is no match. *)
Fixpoint tuple_search (sizes : list (Z * Z * Z * Z)) (tuples : list (codelet * Z)) (req : Z * Z * Z * Z) : option (codelet * Z) :=
  match sizes, tuples with
  | (a0, a1, a2, a3) :: sizes', t :: tuples' =>
      let '(r0, r1, r2, r3) := req in
      if (r0 =? a0) && (r1 =? a1) && (r2 =? a2) && (r3 =? a3) then Some t else tuple_search sizes' tuples' req
  | _, _ => None
  end.
