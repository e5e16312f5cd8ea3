(** The geometry of a full-grid surface, and reversal of the magnetic field. *)
From Coq Require Import ZArith Reals.
From Verif Require Import SizesModel SurfSpec JxbModel JxbSpec MercModel.
Open Scope R_scope.

(** Value at a point of the full grid from the even and odd parts, odd parts
    carrying a factor sqrt(s). *)
Definition full_value (s : sizes) (deltaS : R) (e o : Z -> R) (j kl : Z) : R :=
  e (j * sz_nZnT s + kl)%Z + sqrt (IZR j * deltaS) * o (j * sz_nZnT s + kl)%Z.
(** Tangent vectors in the cylindrical basis (R, phi, Z); [es0] arbitrary. *)
Definition surf_frame (s : sizes) (deltaS : R) (y : merc_in) (es0 : vec) (j kl : Z) : frame :=
  let v := fun e o => full_value s deltaS e o j kl in
  mkFrame es0 (mkVec (v (y_ru_e y) (y_ru_o y)) 0 (v (y_zu_e y) (y_zu_o y)))
    (mkVec (v (y_rv_e y) (y_rv_o y)) (v (y_r_e y) (y_r_o y)) (v (y_zv_e y) (y_zv_o y))).
