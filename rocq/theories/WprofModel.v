(** Radial profiles and the energy trace of the wout file:
    vmec/output_quantities/output_quantities.cc:4463-4470 and 4472-4517. Exact arithmetic. *)
From Coq Require Import ZArith List Bool Reals.
From Verif Require Import Base SizesModel JxbModel TableModel.
Import ListNotations.
Open Scope R_scope.

Section Wprof.
  Variables (ns : Z) (signgs DBL_MAX : R).
  (** 4474, 4485-4487 *)
  Definition q_factor (iotaf : Z -> R) : Z -> R :=
    for_up 0 ns (fun jF a => if Req_EM_T (iotaf jF) 0 then a else upd a jF (1 / iotaf jF)) (fun _ => DBL_MAX).
  (** 4484-4495 for presf, phipf, chipf, jcuru, jcurv: scaled copies *)
  Definition scaled (c : R -> R) (a : Z -> R) : Z -> R := for_up 0 ns (fun jF w => upd w jF (c (a jF))) (fun _ => 0).
  Definition w_per_mu0 : (Z -> R) -> Z -> R := scaled (fun x => x / MU_0).
  Definition w_flux_deriv : (Z -> R) -> Z -> R := scaled (fun x => signgs * 2 * PI * x).
  (** 4502-4505: mass and pres *)
  Definition w_shifted_per_mu0 (H : Z -> R) : Z -> R := for_up 0 (ns - 1) (fun jH w => upd w (jH + 1)%Z (H jH / MU_0)) (fun _ => 0).
  (** 4506-4519: zero vector, then tail(ns - 1) = H *)
  Definition w_shifted (H : Z -> R) : Z -> R := for_up 0 (ns - 1) (fun i w => upd w (ns - (ns - 1) + i)%Z (H i)) (fun _ => 0).
End Wprof.

(** 4463-4470: wdot.tail(n-1) = (wdot.tail(n-1) - wdot.head(n-1)).cwiseQuotient(wdot.tail(n-1)), in place.
    Eigen evaluates a coefficient-wise assignment without a temporary, coefficient by coefficient or in
    packets of several coefficients, in increasing order. [lens] lists the lengths of the consecutive
    pieces; all reads of a piece precede its writes. *)
Definition wdot_piece (start len : Z) (w : Z -> R) : Z -> R :=
  fun i => if ((start + 1 <=? i) && (i <? start + 1 + len))%Z then (w i - w (i - 1)%Z) / w i else w i.
Fixpoint wdot_assign (start : Z) (lens : list Z) (w : Z -> R) : Z -> R :=
  match lens with
  | [] => w
  | len :: rest => wdot_assign (start + len) rest (wdot_piece start len w)
  end.
Definition wdot (lens : list Z) (mhd_energy : Z -> R) : Z -> R := wdot_assign 0 lens mhd_energy.
