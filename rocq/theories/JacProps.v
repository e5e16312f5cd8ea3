(** Property theorems C27, C28: the Jacobian sign test. *)
From Coq Require Import ZArith Bool List Lia Reals Lra SpecFloat.
From Flocq Require Import Core IEEE754.BinarySingleNaN.
From Verif Require Import Base BaseLemmas Num NumB64 PartModel PartSpec PartProofs.
From Verif Require Import KernelModel KernelSpec KernelProofs JacModel JacSpec JacProofs.
Import ListNotations.
Open Scope Z_scope.

(** C27, exact arithmetic: whatever the distribution, a bad Jacobian is reported
    exactly when the half-grid Jacobian changes sign within the points of one
    thread (all points, for a single thread: next theorem). *)
Theorem C27_reported_iff_sign_change_in_a_thread :
  forall (c : @kcfg num_R) (f : @fields num_R) (T : Z) (parts : Z -> rpart)
         (x : Z -> @kin num_R) (old : Z -> Z -> @jacp num_R),
    0 <= knZnT c -> 1 <= T -> 2 * T <= kns c ->
    (forall t, 0 <= t < T -> adjustRadialPartitioning T t (kns c) (klfreeb c) = Some (parts t)) ->
    (forall t, 0 <= t < T -> holds_part (knZnT c) (parts t) f (x t)) ->
    jacobian_verdict c T parts x old = true <->
    exists t, 0 <= t < T /\
      changes_sign (nsMinH (parts t)) (nsMaxH (parts t)) (knZnT c) (half_jacobian c f).
Proof. exact exact_per_thread. Qed.
Print Assumptions C27_reported_iff_sign_change_in_a_thread.

(** C27/C28, exact arithmetic, any number of threads: the verdict is "the
    half-grid Jacobian changes sign anywhere", provided that it does not vanish
    identically on a half-grid surface shared by two threads.  For one thread
    the proviso is empty.  Missing for the full C28: the proviso (see the
    refutation below); missing for the full C27: rounding (see below). *)
Theorem C28_verdict_thread_independent_partial :
  forall (c : @kcfg num_R) (f : @fields num_R) (T : Z) (parts : Z -> rpart)
         (x : Z -> @kin num_R) (old : Z -> Z -> @jacp num_R),
    0 <= knZnT c -> 1 <= T -> 2 * T <= kns c ->
    (forall t, 0 <= t < T -> adjustRadialPartitioning T t (kns c) (klfreeb c) = Some (parts t)) ->
    (forall t, 0 <= t < T -> holds_part (knZnT c) (parts t) f (x t)) ->
    (forall t, 0 <= t -> t + 1 < T ->
       exists kl, 0 <= kl < knZnT c /\ half_jacobian c f (nsMaxF (parts t) - 1) kl <> 0%R) ->
    jacobian_verdict c T parts x old = true <->
    changes_sign 0 (kns c - 1) (knZnT c) (half_jacobian c f).
Proof. exact exact_global. Qed.
Print Assumptions C28_verdict_thread_independent_partial.

Theorem C27_single_thread_exact_partial :
  forall (c : @kcfg num_R) (f : @fields num_R) (p : rpart) (x : @kin num_R) (old : Z -> @jacp num_R),
    0 <= knZnT c -> 2 <= kns c ->
    adjustRadialPartitioning 1 0 (kns c) (klfreeb c) = Some p ->
    holds_part (knZnT c) p f x ->
    jacobian_verdict c 1 (fun _ => p) (fun _ => x) (fun _ => old) = true <->
    changes_sign 0 (kns c - 1) (knZnT c) (half_jacobian c f).
Proof.
  intros c f p x old Hn Hs HP HX. apply exact_global; [exact Hn|lia|lia| | |].
  - intros t Ht. replace t with 0 by lia. exact HP.
  - intros _ _. exact HX.
  - lia.
Qed.
Print Assumptions C27_single_thread_exact_partial.

(** C27, IEEE binary64: the computed test is right when every computed Jacobian
    value is zero or of magnitude between 2^-511 and 2^511. *)
Theorem C27_binary64_moderate_partial :
  forall (lg : b64 -> b64) (c : @kcfg (num_b64 lg)) (f : fields) (T : Z) (parts : Z -> rpart)
         (x : Z -> kin) (old : Z -> Z -> jacp),
    0 <= knZnT c -> 1 <= T -> 2 * T <= kns c ->
    (forall t, 0 <= t < T -> adjustRadialPartitioning T t (kns c) (klfreeb c) = Some (parts t)) ->
    (forall t, 0 <= t < T -> holds_part (knZnT c) (parts t) f (x t)) ->
    let J h kl : b64 := tau (jac_point c (f_sqrtSH f h) (f_geo f h kl) (f_geo f (h + 1) kl)) in
    (forall h kl, 0 <= h < kns c - 1 -> 0 <= kl < knZnT c ->
       is_finite (J h kl) = true /\
       (B2R (J h kl) = 0 \/ bpow radix2 (-511) <= Rabs (B2R (J h kl)) <= bpow radix2 511)%R) ->
    (forall t, 0 <= t -> t + 1 < T ->
       exists kl, 0 <= kl < knZnT c /\ B2R (J (nsMaxF (parts t) - 1) kl) <> 0%R) ->
    jacobian_verdict c T parts x old = true <->
    changes_sign 0 (kns c - 1) (knZnT c) (fun h kl => B2R (J h kl)).
Proof. exact b64_global. Qed.
Print Assumptions C27_binary64_moderate_partial.

(** ** Concrete geometries (binary64): one grid point per surface, unit poloidal
    derivative of R, heights z over the surfaces, no odd parts. *)
Definition ex_cfg (ns : Z) : @kcfg num_f64 :=
  mkKcfg ns false false false 1 1 2 0 1 (fun _ => nZ 1) (nZ 1) (nfrac 1 4) (nZ 1) (nZ (-1)) (nZ 0)
         (nZ 1) (nZ 1) (nZ 1) (nZ 1).
Definition ex_fields (z : Z -> f64) : @fields num_f64 :=
  mkFields (fun j _ => let o := f64_ofZ 0 in
              mkGeo (K := num_f64) (nZ 1) o (z j) o (nZ 1) o o o o o o o)
    (fun _ _ => mkLam (nZ 0) (nZ 0) (nZ 0) (nZ 0))
    (fun _ => nZ 1) (fun _ => nZ 1) (fun _ => nZ 1) (fun _ => nZ 1) (fun _ => nZ 1) (fun _ => nZ 1)
    (fun _ => nZ 1) (fun _ => nZ 1) (fun _ => nZ 1).
Definition dummy_part : rpart :=
  match adjustRadialPartitioning 1 0 3 false with Some p => p | None => mk_rpart 0 0 0 0 0 0 0 0 0 end.
Definition ex_parts (T ns t : Z) : rpart :=
  match adjustRadialPartitioning T t ns false with Some p => p | None => dummy_part end.
Definition ex_jac (z : Z -> f64) (h : Z) : f64 :=
  tau (jac_point (ex_cfg 3) (f_sqrtSH (ex_fields z) h) (f_geo (ex_fields z) h 0) (f_geo (ex_fields z) (h + 1) 0)).
Definition ex_verdict (T ns : Z) (z : Z -> f64) : bool :=
  jacobian_verdict (ex_cfg ns) T (ex_parts T ns)
    (fun t => localise 1 (ex_parts T ns t) (ex_fields z))
    (fun _ _ => mkJac (nZ 0) (nZ 0) (nZ 0) (nZ 0) (nZ 0) (nZ 0)).
Definition heights (l : list f64) (j : Z) : f64 := nth (Z.to_nat j) l (f64_ofZ 0).
Definition tiny : f64 := S754_finite false 1 (-600).
Definition large : f64 := S754_finite false 1 600.

(** C27 is false of IEEE arithmetic: opposite signs of size 2^-600 go unnoticed
    (their product underflows to -0), and a Jacobian of one sign and size 2^600
    is reported (the product overflows). *)
Theorem C27_underflow_refuted : exists z : Z -> f64,
  f64_lt (ex_jac z 0) (f64_ofZ 0) = false /\ f64_eq (ex_jac z 0) (f64_ofZ 0) = false /\
  f64_lt (ex_jac z 1) (f64_ofZ 0) = true /\
  f64_finite (ex_jac z 0) = true /\ f64_finite (ex_jac z 1) = true /\
  ex_verdict 1 3 z = false.
Proof. exists (heights [f64_ofZ 0; tiny; f64_ofZ 0]). vm_compute. repeat split. Qed.
Print Assumptions C27_underflow_refuted.

Theorem C27_overflow_refuted : exists z : Z -> f64,
  (forall h, 0 <= h < 2 -> f64_lt (f64_ofZ 0) (ex_jac z h) = true /\ f64_finite (ex_jac z h) = true) /\
  ex_verdict 1 3 z = true.
Proof.
  exists (heights [f64_ofZ 0; large; f64_add large large]). split.
  - intros h Hh. assert (h = 0 \/ h = 1) as [-> | ->] by lia; vm_compute; auto.
  - vm_compute. reflexivity.
Qed.
Print Assumptions C27_overflow_refuted.

(** A Jacobian that is NaN on the last half-grid surface is not reported. *)
Theorem C27_nan_not_reported : exists z : Z -> f64,
  ex_jac z 1 = S754_nan /\ ex_verdict 1 3 z = false.
Proof. exists (heights [f64_ofZ 0; f64_ofZ 1; S754_nan]). vm_compute. auto. Qed.
Print Assumptions C27_nan_not_reported.

(** C28 is false: the Jacobian is 1, 0, -1 on the three half-grid surfaces; one
    thread reports it, two threads (sharing the middle surface) do not.  All
    values are small integers, so rounding plays no part. *)
Theorem C28_thread_boundary_refuted : exists z : Z -> f64,
  map (ex_jac z) [0; 1; 2] = map f64_ofZ [1; 0; -1] /\
  (forall T t, (T = 1 \/ T = 2) -> 0 <= t < T ->
     adjustRadialPartitioning T t 4 false = Some (ex_parts T 4 t) /\
     holds_part 1 (ex_parts T 4 t) (ex_fields z) (localise 1 (ex_parts T 4 t) (ex_fields z))) /\
  ex_verdict 1 4 z = true /\ ex_verdict 2 4 z = false.
Proof.
  exists (heights (map f64_ofZ [0; 1; 1; 0])). split; [|split; [|split]].
  - vm_compute. reflexivity.
  - intros T t HT Ht. split; [|apply localise_holds; lia].
    assert (T = 1 /\ t = 0 \/ T = 2 /\ t = 0 \/ T = 2 /\ t = 1) as [(-> & ->)|[(-> & ->)|(-> & ->)]] by lia;
      vm_compute; reflexivity.
  - vm_compute. reflexivity.
  - vm_compute. reflexivity.
Qed.
Print Assumptions C28_thread_boundary_refuted.

(** The same machinery on ordinary geometries: a sign change away from the
    shared surface is seen by one and by two threads, and no change by neither. *)
Example C28_instance :
  let up := heights (map f64_ofZ [0; 1; 2; 3]) in
  let fold := heights (map f64_ofZ [0; 1; 2; 1]) in
  map (ex_jac up) [0; 1; 2] = map f64_ofZ [1; 1; 1] /\
  (ex_verdict 1 4 up, ex_verdict 2 4 up, ex_verdict 1 4 fold, ex_verdict 2 4 fold) = (false, false, true, true).
Proof. vm_compute. auto. Qed.

(** The hypotheses of the exact theorems hold for such a geometry over the reals,
    two threads. *)
Example C28_hypotheses_hold :
  let c : @kcfg num_R := mkKcfg (K := num_R) 4 false false false 1 1 2 0 1 (fun _ => 1%R) 1%R (/ 4)%R 1%R (-1)%R 0%R
         1%R 1%R 1%R 1%R in
  let f : @fields num_R := mkFields (K := num_R) (fun j _ => mkGeo (K := num_R) 1%R 0%R (IZR (j * j)) 0%R 1%R 0%R 0%R 0%R 0%R 0%R 0%R 0%R)
    (fun _ _ => mkLam (K := num_R) 0%R 0%R 0%R 0%R)
    (fun _ => 1%R) (fun _ => 1%R) (fun _ => 1%R) (fun _ => 1%R) (fun _ => 1%R) (fun _ => 1%R)
    (fun _ => 1%R) (fun _ => 1%R) (fun _ => 1%R) in
  (forall t, 0 <= t < 2 -> adjustRadialPartitioning 2 t (kns c) (klfreeb c) = Some (ex_parts 2 4 t)) /\
  (forall t, 0 <= t < 2 -> holds_part (knZnT c) (ex_parts 2 4 t) f (localise (knZnT c) (ex_parts 2 4 t) f)) /\
  (forall t, 0 <= t -> t + 1 < 2 ->
       exists kl, 0 <= kl < knZnT c /\ half_jacobian c f (nsMaxF (ex_parts 2 4 t) - 1) kl <> 0%R).
Proof.
  intros c f. split; [|split].
  - intros t Ht. assert (t = 0 \/ t = 1) as [-> | ->] by lia; vm_compute; reflexivity.
  - intros t Ht. apply localise_holds. cbn. lia.
  - intros t H0 H1. assert (t = 0) by lia. subst t. exists 0. split; [cbn; lia|].
    change (nsMaxF (ex_parts 2 4 0) - 1) with 1. unfold half_jacobian. cbn. lra.
Qed.
