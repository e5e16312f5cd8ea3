(** Vocabulary for "the same physics, distributed differently": global fields,
    what it means that a thread's local arrays hold its part of them, and when
    two values agree on everything a run with the given dimensionality uses. *)
From Coq Require Import ZArith Bool.
From Verif Require Import Base Num PartModel KernelModel.
Open Scope Z_scope.

Section Spec.
Context {K : num}.

(** Fields on the whole radial grid, by surface and grid point. *)
Record fields := mkFields {
  f_geo : Z -> Z -> @geo K; f_lam : Z -> Z -> @lamp K;
  f_sqrtSF : Z -> K; f_sqrtSH : Z -> K; f_blend : Z -> K;
  f_phipF : Z -> K; f_phipH : Z -> K; f_currH : Z -> K; f_massH : Z -> K;
  f_chipH : Z -> K; f_iotaH : Z -> K }.

(** The thread with range [p] holds the surfaces [nsMinF1 <= j < nsMaxF1] and
    the half-grid points [nsMinH <= h < nsMaxH] of the fields. *)
Definition holds_part (nZnT : Z) (p : rpart) (f : fields) (x : @kin K) : Prop :=
  (forall j, nsMinF1 p <= j < nsMaxF1 p ->
     (forall kl, 0 <= kl < nZnT ->
        i_geo x ((j - nsMinF1 p) * nZnT + kl) = f_geo f j kl /\
        i_lam x ((j - nsMinF1 p) * nZnT + kl) = f_lam f j kl) /\
     i_sqrtSF x (j - nsMinF1 p) = f_sqrtSF f j /\
     i_blend x (j - nsMinF1 p) = f_blend f j /\
     i_phipF x (j - nsMinF1 p) = f_phipF f j) /\
  (forall h, nsMinH p <= h < nsMaxH p ->
     i_sqrtSH x (h - nsMinH p) = f_sqrtSH f h /\
     i_phipH x (h - nsMinH p) = f_phipH f h /\
     i_currH x (h - nsMinH p) = f_currH f h /\
     i_massH x (h - nsMinH p) = f_massH f h /\
     i_chipH x (h - nsMinH p) = f_chipH f h /\
     i_iotaH x (h - nsMinH p) = f_iotaH f h).

(** Equality of results; the toroidal components exist in 3D runs only. *)
Definition same_metric (d3 : bool) (a b : @metp K) : Prop :=
  gsqrt a = gsqrt b /\ guu a = guu b /\ gvv a = gvv b /\ (d3 = true -> guv a = guv b).
Definition same_lambda_force (d3 : bool) (a b : @lfrc K) : Prop :=
  blmn_e a = blmn_e b /\ blmn_o a = blmn_o b /\
  (d3 = true -> clmn_e a = clmn_e b /\ clmn_o a = clmn_o b).
Definition same_mhd_force (d3 : bool) (a b : @mfrc K) : Prop :=
  ar_e a = ar_e b /\ ar_o a = ar_o b /\ az_e a = az_e b /\ az_o a = az_o b /\
  br_e a = br_e b /\ br_o a = br_o b /\ bz_e a = bz_e b /\ bz_o a = bz_o b /\
  (d3 = true -> cr_e a = cr_e b /\ cr_o a = cr_o b /\ cz_e a = cz_e b /\ cz_o a = cz_o b).

(** Two ranges of surfaces, each with its local results, agree wherever both
    own the surface (forces) or both hold the half-grid point (fields). *)
Definition same_results (c : @kcfg K) (p q : rpart) (a b : @kout K) : Prop :=
  let n := knZnT c in
  let d3 := klthreed c in
  (* fields on half-grid points held by both *)
  (forall h kl, nsMinH p <= h < nsMaxH p -> nsMinH q <= h < nsMaxH q -> 0 <= kl < n ->
     let i := (h - nsMinH p) * n + kl in let k := (h - nsMinH q) * n + kl in
     t_jac a i = t_jac b k /\ same_metric d3 (t_met a i) (t_met b k) /\
     t_bsup a i = t_bsup b k /\ t_bsub a i = t_bsub b k /\ t_tp a i = t_tp b k) /\
  (forall h, nsMinH p <= h < nsMaxH p -> nsMinH q <= h < nsMaxH q ->
     t_dVds a (h - nsMinH p) = t_dVds b (h - nsMinH q) /\
     t_chipH a (h - nsMinH p) = t_chipH b (h - nsMinH q) /\
     t_iotaH a (h - nsMinH p) = t_iotaH b (h - nsMinH q)) /\
  (* averaged radial force balance on interior surfaces owned by both *)
  (forall j, nsMinFi p <= j < nsMaxFi p -> nsMinFi q <= j < nsMaxFi q ->
     t_rfb a (j - nsMinFi p) = t_rfb b (j - nsMinFi q)) /\
  (* lambda force on surfaces owned by both *)
  (forall j kl, nsMinF p <= j < nsMaxFIncludingLcfs p ->
     nsMinF q <= j < nsMaxFIncludingLcfs q -> 0 <= kl < n ->
     same_lambda_force d3 (t_lfrc a ((j - nsMinF p) * n + kl)) (t_lfrc b ((j - nsMinF q) * n + kl))) /\
  (* MHD force on evolved surfaces owned by both *)
  (forall j kl, nsMinF p <= j < nsMaxF p -> nsMinF q <= j < nsMaxF q -> 0 <= kl < n ->
     same_mhd_force d3 (t_mfrc a ((j - nsMinF p) * n + kl)) (t_mfrc b ((j - nsMinF q) * n + kl))).

(** Sum over the grid points of one surface, in grid order, starting from 0. *)
Definition surface_sum (nZnT : Z) (F : Z -> K) : K :=
  List.fold_left nadd (List.map F (zrange 0 nZnT)) (nZ 0).

(** Half-grid values [I] carried to full-grid surface [j]: the axis takes the
    first half-grid value, the boundary the average of the last one and zero,
    every other surface the average of its two neighbours. *)
Definition full_grid_value (ns : Z) (I : Z -> K) (j : Z) : K :=
  if j =? 0 then I 0
  else nmul (nfrac 1 2) (nadd (if j =? ns - 1 then nZ 0 else I j) (I (j - 1))).

(** A thread's metric array holds its part of the global metric [M]. *)
Definition holds_metric (c : @kcfg K) (p : rpart) (M : Z -> Z -> @metp K) (met : Z -> @metp K) : Prop :=
  forall h kl, nsMinH p <= h < nsMaxH p -> 0 <= kl < knZnT c ->
    same_metric (klthreed c) (met ((h - nsMinH p) * knZnT c + kl)) (M h kl).

End Spec.
