(** What a batched FFT routine has to deliver, up to a small relative error. *)
From Coq Require Import ZArith List Bool Reals.
From Verif Require Import SumLemmas FftSpec FftLang.
Import ListNotations.
Open Scope R_scope.

(** Numbers per transform on the spectrum side. *)
Definition spec_len (N : Z) : Z := (2 * half_len N)%Z.
Definition read_len (inv : bool) (N : Z) : Z := if inv then spec_len N else N.
Definition write_len (inv : bool) (N : Z) : Z := if inv then N else spec_len N.
(** The exact transform of the numbers [x 0], [x 1], ... of one slot. *)
Definition exact_out (inv : bool) (N : Z) (x : Z -> R) (w : Z) : R :=
  if inv then signal N (fun j => x (2 * j)%Z) (fun j => x (2 * j + 1)%Z) w
  else
    let j := (w / 2)%Z in
    let sc := if (j =? 0)%Z then 1 else sqrt 2 in
    if (w mod 2 =? 0)%Z then sc * zsum 0 N (fun k => x k * cos (turn N j k))
    else - (sc * zsum 0 N (fun k => x k * sin (turn N j k))).
(** [y] holds the transforms of all [cnt] slots of [x], with errors below [eps]
    times the sum of the absolute values of the slot. *)
Definition transforms (eps : R) (inv : bool) (N cnt : Z) (x y : Z -> R) : Prop :=
  forall i w, (0 <= i < cnt)%Z -> (0 <= w < write_len inv N)%Z ->
    Rabs (y (write_len inv N * i + w)%Z - exact_out inv N (fun b => x (read_len inv N * i + b)%Z) w)
    <= eps * zsum 0 (read_len inv N) (fun b => Rabs (x (read_len inv N * i + b)%Z)).

(** The static arrays (but not the thread-local ones) are as the init function left
    them, started in whatever state. *)
Definition ready (cd : codelet) (st : cst) : Prop :=
  exists st0 st1, cd_start cd st0 = Some st1 /\
    forall a, (2 <= a)%Z -> ~ In a (cd_local cd) -> forall k, c_mem st a k = c_mem st1 a k.
(** The input buffer holds [x]. *)
Definition input_is (x : Z -> R) (n : Z) (st : cst) : Prop := forall k, (0 <= k < n)%Z -> c_mem st 0%Z k = Some (x k).
