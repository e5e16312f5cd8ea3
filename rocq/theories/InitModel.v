(** The initial guess of a run and the magnetic axis of the output:
    vmec/fourier_geometry/fourier_geometry.cc:98-168 and
    vmec/output_quantities/output_quantities.cc:4119-4160.
    Exact arithmetic; arrays are functions of their flat index. *)
From Coq Require Import ZArith List Bool Reals.
From Verif Require Import Base PartModel SizesModel FourierModel BoundaryModel DftModel WoutModel.
Open Scope R_scope.

Section Init.
  Context (s : sizes) (p : rpart).
  Local Notation mpol := (sz_mpol s).
  Local Notation ntor := (sz_ntor s).
  Context (sqrtSF : Z -> R) (b : bdy) (raxis_c raxis_s zaxis_s zaxis_c : Z -> R).
  (** The assignments for m = 0, lines 113-142; [w]: interpolationWeight. *)
  Definition init_m0 (bn w : R) (idx_bdy n : Z) (c : comp) (k : bk) : R :=
    match c, k with
    | cR, b_cc => bn * (w * rbcc b idx_bdy + (1 - w) * raxis_c n)
    | cZ, b_sc => bn * w * zbsc b idx_bdy
    | cR, b_ss => bn * w * rbss b idx_bdy
    | cZ, b_cs => bn * (w * zbcs b idx_bdy - (1 - w) * zaxis_s n)
    | cR, b_sc => bn * w * rbsc b idx_bdy
    | cZ, b_cc => bn * (w * zbcc b idx_bdy + (1 - w) * zaxis_c n)
    | cR, b_cs => bn * (w * rbcs b idx_bdy - (1 - w) * raxis_s n)
    | cZ, b_ss => bn * w * zbss b idx_bdy
    | cL, _ => 0
    end.
  (** The assignments for m > 0, lines 143-163. *)
  Definition init_m (bn w : R) (idx_bdy : Z) (c : comp) (k : bk) : R :=
    match c, k with
    | cR, b_cc => bn * w * rbcc b idx_bdy
    | cZ, b_sc => bn * w * zbsc b idx_bdy
    | cR, b_ss => bn * w * rbss b idx_bdy
    | cZ, b_cs => bn * w * zbcs b idx_bdy
    | cR, b_sc => bn * w * rbsc b idx_bdy
    | cZ, b_cc => bn * w * zbcc b idx_bdy
    | cR, b_cs => bn * w * rbcs b idx_bdy
    | cZ, b_ss => bn * w * zbss b idx_bdy
    | cL, _ => 0
    end.
  (** One (jF, m, n), lines 104-165: the arrays of R and Z that exist are assigned,
      lambda is left alone. *)
  Definition init_cell (jF m n : Z) (x : coefs) : coefs :=
    let idx_bdy := (m * (ntor + 1) + n)%Z in
    let idx_fc := (((jF - nsMinF1 p) * mpol + m) * (ntor + 1) + n)%Z in
    let bn := 1 / (mscale m * nscale n) in
    let sq := sqrtSF (jF - nsMinF1 p)%Z in
    fun c k => match c with
      | cL => x c k
      | _ => if has s c k then
               upd (x c k) idx_fc (if (m =? 0)%Z then init_m0 bn (sq * sq) idx_bdy n c k
                                   else init_m bn (sq ^ Z.to_nat m) idx_bdy c k)
             else x c k
      end.
  Definition interpFromBoundaryAndAxis (x : coefs) : coefs :=
    for_up (nsMinF1 p) (nsMaxF1 p) (fun jF x => for_up 0 mpol (fun m x => for_up 0 (ntor + 1) (fun n x =>
      init_cell jF m n x) x) x) x.
End Init.

(** output_quantities.cc:4119-4160: the axis arrays of the output, which are copied
    to wout.raxis_cc, zaxis_cs (4547-4548) and raxis_cs, zaxis_cc (5187-5188).
    The record holds raxis_symm, zaxis_symm, raxis_asym, zaxis_asym. *)
Record axis_out := mkAxis { raxis_symm : Z -> R; zaxis_symm : Z -> R; raxis_asym : Z -> R; zaxis_asym : Z -> R }.
Definition ComputeThreed1AxisGeometry (s : sizes) (X : coefs) : axis_out :=
  for_up 0 (sz_ntor s + 1) (fun n r =>
    let basis_scaling := mscale 0 * nscale n in
    let tz := if sz_lthreed s then basis_scaling else 0 in
    let index := gidx s 0 0 n in
    let rs := upd (raxis_symm r) n (basis_scaling * X cR b_cc index) in
    let zs := if sz_lthreed s then upd (zaxis_symm r) n (- tz * X cZ b_cs index) else zaxis_symm r in
    let za := if sz_lasym s then upd (zaxis_asym r) n (basis_scaling * X cZ b_cc index) else zaxis_asym r in
    let ra := if sz_lasym s && sz_lthreed s then upd (raxis_asym r) n (- tz * X cR b_cs index) else raxis_asym r in
    mkAxis rs zs ra za) (mkAxis (fun _ => 0) (fun _ => 0) (fun _ => 0) (fun _ => 0)).
