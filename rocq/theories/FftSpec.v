(** What the two batched FFT routines compute, independent of how.
    [count] real signals of length [N] lie one after the other, and so do
    [count] half-spectra of N/2 + 1 complex numbers. *)
From Coq Require Import ZArith Bool Reals.
From Verif Require Import SumLemmas.
Open Scope R_scope.

Definition turn (N j k : Z) : R := 2 * PI * IZR j * IZR k / IZR N.
Definition half_len (N : Z) : Z := (N / 2 + 1)%Z.
(** An entry of the half-spectrum stands for itself and its conjugate, except the
    first and, for even N, the last one. *)
Definition alone (N j : Z) : bool := (j =? 0)%Z || (2 * j =? N)%Z.
(** Real signal with the given half-spectrum. *)
Definition signal (N : Z) (re im : Z -> R) (k : Z) : R :=
  zsum 0 (half_len N) (fun j => if alone N j then re j * cos (turn N j k)
    else 2 * (re j * cos (turn N j k) - im j * sin (turn N j k))).
(** Complex to real, unscaled. *)
Definition c2r_ok (N count : Z) (run : (Z -> R) -> (Z -> R) -> Z -> R) : Prop :=
  forall out inp i k, (0 <= i < count)%Z -> (0 <= k < N)%Z ->
    run out inp (i * N + k)%Z =
    signal N (fun j => inp (2 * (i * half_len N + j))%Z) (fun j => inp (2 * (i * half_len N + j) + 1)%Z) k.
(** Real to complex; entry j >= 1 is scaled by sqrt 2. *)
Definition r2c_ok (N count : Z) (run : (Z -> R) -> (Z -> R) -> Z -> R) : Prop :=
  forall out inp i j, (0 <= i < count)%Z -> (0 <= j < half_len N)%Z ->
    let sc := if (j =? 0)%Z then 1 else sqrt 2 in
    run out inp (2 * (i * half_len N + j))%Z = sc * zsum 0 N (fun k => inp (i * N + k)%Z * cos (turn N j k)) /\
    run out inp (2 * (i * half_len N + j) + 1)%Z = - (sc * zsum 0 N (fun k => inp (i * N + k)%Z * sin (turn N j k))).
