(** C81, C82: the analytic singular integrals of the vacuum solver. *)
From Coq Require Import ZArith Reals Lra Lia.
From Verif Require Import Base SingModel SingSpec SingProofs SingMain SingMiller SingCoef.
Open Scope R_scope.

(** C81, upward branch: every T^+_l and T^-_l, l = 0 .. mf + nf, is the integral
    of t^l / sqrt(q(t)) over [-1, 1], for every regular surface metric, every
    resolution and whatever the array held before. Missing from the full
    statement: the downward branch, for which it is false (below). *)
Theorem C81_forward_integrals_partial :
  forall a b2 c mf nf T,
    regular_metric a b2 c -> (0 <= mf)%Z -> (0 <= nf)%Z ->
    (backward_p a b2 c mf nf = false -> forall l, (Z.of_nat l <= mf + nf)%Z ->
       is_T (form_plus a b2 c) l (tlp a b2 c mf nf T (Z.of_nat l))) /\
    (backward_m a b2 c mf nf = false -> forall l, (Z.of_nat l <= mf + nf)%Z ->
       is_T (form_minus a b2 c) l (tlm a b2 c mf nf T (Z.of_nat l))).
Proof. exact integrals_forward. Qed.
Print Assumptions C81_forward_integrals_partial.

(** A metric and resolution that use the upward branch for both signs. *)
Example C81_case : regular_metric 1 (1 / 2) (3 / 2) /\
  backward_p 1 (1 / 2) (3 / 2) 5 4 = false /\ backward_m 1 (1 / 2) (3 / 2) 5 4 = false.
Proof. exact forward_case. Qed.

(** C81, S^+_l and S^-_l: whenever the T_l are the integrals, so are the S_l,
    for every second fundamental form (A, B2, C). *)
Theorem C81_double_layer_integrals :
  forall a b2 c A B2 C mf nf T Sl,
    regular_metric a b2 c -> (0 <= mf)%Z -> (0 <= nf)%Z ->
    ((forall l, (Z.of_nat l <= mf + nf)%Z -> is_T (form_plus a b2 c) l (T (Z.of_nat l))) ->
     forall l, (Z.of_nat l <= mf + nf)%Z ->
       is_S (form_plus a b2 c) (form_plus A B2 C) l (slp a b2 c A B2 C T mf nf Sl (Z.of_nat l))) /\
    ((forall l, (Z.of_nat l <= mf + nf)%Z -> is_T (form_minus a b2 c) l (T (Z.of_nat l))) ->
     forall l, (Z.of_nat l <= mf + nf)%Z ->
       is_S (form_minus a b2 c) (form_minus A B2 C) l (slm a b2 c A B2 C T mf nf Sl (Z.of_nat l))).
Proof. exact integrals_S. Qed.
Print Assumptions C81_double_layer_integrals.

(** C81 refuted for the downward branch: a regular metric and a resolution
    (mf = nf = 25) for which a T^+_l, computed in exact arithmetic, is off by
    more than one part in a million. *)
Theorem C81_backward_refuted : exists a b2 c mf nf l,
  regular_metric a b2 c /\ (0 <= mf)%Z /\ (0 <= nf)%Z /\ (Z.of_nat l <= mf + nf)%Z /\
  forall T v, is_T (form_plus a b2 c) l v ->
    0 < v /\ / 10 ^ 6 * v < Rabs (tlp a b2 c mf nf T (Z.of_nat l) - v).
Proof. exact backward_error. Qed.
Print Assumptions C81_backward_refuted.

(** C82: every entry of the coefficient table has the closed form. *)
Theorem C82_coefficients_closed_form :
  forall mf nf m n s, (Z.of_nat m <= mf)%Z -> (Z.of_nat n <= nf)%Z -> (s <= m)%nat -> (s <= n)%nat ->
    cmn_table mf nf (lnm_idx mf nf (Z.of_nat (m + n - 2 * s)) (Z.of_nat n) (Z.of_nat m)) = zernike m n s.
Proof. exact cmn_closed. Qed.
Print Assumptions C82_coefficients_closed_form.

(** ... all other entries (l too small, too large, or of the wrong parity) are
    zero. *)
Theorem C82_other_coefficients_zero :
  forall mf nf l m n, (0 <= m <= mf)%Z -> (0 <= n <= nf)%Z ->
    (forall s, (0 <= s)%Z -> (s <= m)%Z -> (s <= n)%Z -> l <> (m + n - 2 * s)%Z) ->
    cmn_table mf nf (lnm_idx mf nf l n m) = 0.
Proof. exact cmn_other. Qed.
Print Assumptions C82_other_coefficients_zero.

(** ... and the averaged table is the half sum over the existing neighbours. *)
Theorem C82_averaged_coefficients :
  forall mf nf c0 l n m, (0 <= m <= mf)%Z -> (0 <= n <= nf)%Z -> (0 <= l <= mf + nf)%Z ->
    let c := fun n m => cmn_table mf nf (lnm_idx mf nf l n m) in
    cmns_table mf nf (cmn_table mf nf) c0 (lnm_idx mf nf l n m) =
      if Z.eq_dec m 0 then if Z.eq_dec n 0 then c 0%Z 0%Z else (c n 0%Z + c (n - 1)%Z 0%Z) / 2
      else if Z.eq_dec n 0 then (c 0%Z m + c 0%Z (m - 1)%Z) / 2
      else (c n m + c (n - 1)%Z m + c n (m - 1)%Z + c (n - 1)%Z (m - 1)%Z) / 2.
Proof. exact cmns_closed. Qed.
Print Assumptions C82_averaged_coefficients.

(** Mode (m, n) = (2, 1): 2 t - 3 t^3. *)
Example C82_case : cmn_table 4 3 (lnm_idx 4 3 1 1 2) = 2 /\ cmn_table 4 3 (lnm_idx 4 3 3 1 2) = -3.
Proof. exact cmn_case. Qed.
