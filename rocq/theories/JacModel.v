(** The Jacobian sign test. *)
From Coq Require Import ZArith Bool List.
From Verif Require Import Base Num PartModel KernelModel.
Open Scope Z_scope.

Section J.
Context {K : num}.

(** Running minimum and maximum over tau, IdealMhdModel::computeJacobian,
    ideal_mhd_model.cc:1651-1663 ([t > maxTau] is [maxTau < t]). *)
Definition tau_scan (n : Z) (tau : Z -> K) : K * K :=
  for_up 0 n (fun i mm =>
    let t := tau i in
    ((if nlt t (fst mm) || neq (fst mm) (nZ 0) then t else fst mm),
     (if nlt (snd mm) t || neq (snd mm) (nZ 0) then t else snd mm))) (nZ 0, nZ 0).

(** localBadJacobian, ideal_mhd_model.cc:1665-1666. *)
Definition local_bad (n : Z) (tau : Z -> K) : bool :=
  let (mn, mx) := tau_scan n tau in
  nlt (nmul mn mx) (nZ 0) || negb (nfinite (nmul mn mx)).

(** The verdict after the barrier: restart_reason is set by any thread whose own
    half-grid points look bad, ideal_mhd_model.cc:1668-1679.  Every thread runs
    on its own local arrays [x t]. *)
Definition jacobian_verdict (c : @kcfg K) (T : Z) (parts : Z -> rpart)
    (x : Z -> @kin K) (old : Z -> Z -> @jacp K) : bool :=
  existsb (fun t =>
    let p := parts t in
    let jac := compute_jacobian c p (i_sqrtSH (x t)) (i_geo (x t)) (old t) in
    local_bad ((nsMaxH p - nsMinH p) * knZnT c) (fun i => tau (jac i))) (zrange 0 T).
End J.
