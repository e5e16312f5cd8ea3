(** Property theorems C06, C07: forces and the lambda preconditioner do not
    depend on the distribution of surfaces over threads. *)
From Coq Require Import ZArith List Lia Bool.
From Verif Require Import Base BaseLemmas Num PartModel PartSpec PartProofs PartProps.
From Verif Require Import KernelModel KernelSpec KernelProofs LamPreProofs KernelFinal.
Import ListNotations.
Open Scope Z_scope.

(** C06.  Any two threads of any two distributions (in particular of the
    single-threaded one, T' = 1) that hold the same fields compute the same
    bits on every surface both own; and every evolved surface is owned by some
    thread. Arithmetic, grid size, previous contents of all work arrays are
    arbitrary. *)
Theorem C06_forces_thread_independent :
  forall (K : num) (npow : K -> K -> K) (nneg : K -> K) (ncopysign : K -> K -> K)
         (c : kcfg) (f : fields) (T T' t t' : Z) (p q : rpart) (x y : kin) (old old' : kold),
    0 <= knZnT c ->
    1 <= T -> 2 * T <= kns c -> 0 <= t < T ->
    1 <= T' -> 2 * T' <= kns c -> 0 <= t' < T' ->
    adjustRadialPartitioning T t (kns c) (klfreeb c) = Some p ->
    adjustRadialPartitioning T' t' (kns c) (klfreeb c) = Some q ->
    holds_part (knZnT c) p f x -> holds_part (knZnT c) q f y ->
    same_results c p q (eval_thread npow nneg ncopysign c p x old)
                       (eval_thread npow nneg ncopysign c q y old').
Proof. exact forces_thread_independent. Qed.
Print Assumptions C06_forces_thread_independent.

(** The single-threaded run owns every surface, so C06 compares each surface of
    every distribution with the single-threaded value. *)
Theorem C06_single_thread_owns_all :
  forall (ns T : Z) (lfreeb : bool), 1 <= T -> 2 * T <= ns ->
    exists q, adjustRadialPartitioning 1 0 ns lfreeb = Some q /\
      nsMinF q = 0 /\ nsMaxF q = (if lfreeb then ns else ns - 1) /\ nsMaxFIncludingLcfs q = ns /\
      nsMinH q = 0 /\ nsMaxH q = ns - 1 /\ nsMinFi q = 1 /\ nsMaxFi q = ns - 1 /\
      (forall j, 0 <= j < (if lfreeb then ns else ns - 1) ->
         exists t p, 0 <= t < T /\ adjustRadialPartitioning T t ns lfreeb = Some p /\
                     nsMinF p <= j < nsMaxF p).
Proof. exact single_thread_owns_all. Qed.
Print Assumptions C06_single_thread_owns_all.

(** C07.  After any number of earlier updates (with whatever metric), the
    averages on every surface the thread owns are those of the original
    half-grid integrals. *)
Theorem C07_lambda_averages :
  forall (K : num) (c : kcfg) (M : Z -> Z -> metp) (T t : Z) (p : rpart)
         (history : list (Z -> metp)) (met : Z -> @metp K),
    0 <= knZnT c -> 1 <= T -> 2 * T <= kns c -> 0 <= t < T ->
    adjustRadialPartitioning T t (kns c) (klfreeb c) = Some p ->
    holds_metric c p M met ->
    let zeroed := fun _ : Z => mkLpc (nZ 0) (nZ 0) (nZ 0) in
    let before := fold_left (fun a m => lambda_averages c p m a) history zeroed in
    let after := lambda_averages c p met before in
    let w kl := kwInt c (Z.rem kl (knThetaEff c)) in
    forall j, nsMinF p <= j < nsMaxFIncludingLcfs p ->
      lb (after (j - nsMinF p)) =
        full_grid_value (kns c) (fun h => surface_sum (knZnT c) (fun kl =>
          nmul (ndiv (guu (M h kl)) (gsqrt (M h kl))) (w kl))) j /\
      lc (after (j - nsMinF p)) =
        full_grid_value (kns c) (fun h => surface_sum (knZnT c) (fun kl =>
          nmul (ndiv (gvv (M h kl)) (gsqrt (M h kl))) (w kl))) j /\
      (klthreed c = true ->
       ld (after (j - nsMinF p)) =
        full_grid_value (kns c) (fun h => surface_sum (knZnT c) (fun kl =>
          nmul (ndiv (guv (M h kl)) (gsqrt (M h kl))) (w kl))) j).
Proof. exact lambda_averages_spec. Qed.
Print Assumptions C07_lambda_averages.

(** The assembled preconditioner entries agree between any two distributions,
    whatever was in the arrays before. *)
Theorem C07_preconditioner_thread_independent :
  forall (K : num) (npow ncopysign : K -> K -> K) (c : kcfg) (M : Z -> Z -> metp) (sF : Z -> K)
         (T T' t t' : Z) (p q : rpart) (hist hist' : list (Z -> metp)) (met met' : Z -> @metp K)
         (sp sq old old' : Z -> K),
    0 <= knZnT c -> 0 <= kmpol c -> 0 <= kntor c ->
    1 <= T -> 2 * T <= kns c -> 0 <= t < T ->
    1 <= T' -> 2 * T' <= kns c -> 0 <= t' < T' ->
    adjustRadialPartitioning T t (kns c) (klfreeb c) = Some p ->
    adjustRadialPartitioning T' t' (kns c) (klfreeb c) = Some q ->
    holds_metric c p M met -> holds_metric c q M met' ->
    (forall j, nsMinF1 p <= j < nsMaxF1 p -> sp (j - nsMinF1 p) = sF j) ->
    (forall j, nsMinF1 q <= j < nsMaxF1 q -> sq (j - nsMinF1 q) = sF j) ->
    let zeroed := fun _ : Z => mkLpc (nZ 0) (nZ 0) (nZ 0) in
    let a := fold_left (fun a m => lambda_averages c p m a) hist zeroed in
    let b := fold_left (fun a m => lambda_averages c q m a) hist' zeroed in
    forall j m n, nsMinF p <= j < nsMaxFIncludingLcfs p -> nsMinF q <= j < nsMaxFIncludingLcfs q ->
      0 <= m < kmpol c -> 0 <= n <= kntor c ->
      update_lambda_preconditioner npow ncopysign c p met sp a old
        (((j - nsMinF p) * kmpol c + m) * (kntor c + 1) + n) =
      update_lambda_preconditioner npow ncopysign c q met' sq b old'
        (((j - nsMinF q) * kmpol c + m) * (kntor c + 1) + n).
Proof. exact preconditioner_thread_independent. Qed.
Print Assumptions C07_preconditioner_thread_independent.

(** A concrete case: five surfaces, two threads, one grid point per surface,
    doubles.  The two threads of the run with two threads produce, surface by
    surface, the non-trivial forces of the single-threaded run. *)
Section Instance.
Local Notation F := num_f64.
Definition ex_cfg : @kcfg F :=
  mkKcfg 5 false true false 1 1 2 1 1 (fun _ => nZ 1) (nfrac 1 4) (nfrac 1 4) (nZ 1) (nZ (-1)) (nZ 0)
         (nZ 2) (nZ 16) (nZ 8) (nZ (-1)).
Definition ex_geo (j : Z) : @geo F :=
  mkGeo (nZ (10 + j)) (nZ 1) (nZ (2 * j)) (nZ 1) (nZ j) (nZ 2) (nZ (1 + j)) (nZ 3)
        (nZ 1) (nZ j) (nZ 2) (nZ 1).
Definition ex_lam (j : Z) : @lamp F := mkLam (nZ j) (nZ 1) (nZ 2) (nZ (3 - j)).
(** Local arrays of a thread whose first held surface is [o] (one grid point
    per surface, so flat index = local surface). *)
Definition ex_in (o : Z) : @kin F :=
  mkKin (fun i => ex_geo (o + i)) (fun i => ex_lam (o + i))
        (fun i => nZ (o + i)) (fun i => nZ (1 + o + i)) (fun i => nfrac (o + i) 8)
        (fun i => nZ (1 + o + i)) (fun _ => nZ 1) (fun _ => nZ 0) (fun i => nZ (5 - o - i))
        (fun _ => nZ 0) (fun i => nfrac (1 + o + i) 2).
Definition ex_old : @kold F :=
  mkOld (fun _ => mkJac (nZ 7) (nZ 7) (nZ 7) (nZ 7) (nZ 7) (nZ 7)) (fun _ => mkMet (nZ 7) (nZ 7) (nZ 7) (nZ 7)) (fun _ => nZ 7)
    (fun _ => mkVec (nZ 7) (nZ 7)) (fun _ => mkVec (nZ 7) (nZ 7)) (fun _ => nZ 7) (fun _ => nZ 7)
    (fun _ => nZ 7) (fun _ => nZ 7, fun _ => nZ 7) (fun _ => mkRfb (nZ 7) (nZ 7) (nZ 7) (nZ 7) (nZ 7))
    (fun _ => lscr_zero) (fun _ => mkLfrc (nZ 7) (nZ 7) (nZ 7) (nZ 7)) (fun _ => mscr_zero) (fun _ => mscr_zero)
    (fun _ => mkMfrc (nZ 7) (nZ 7) (nZ 7) (nZ 7) (nZ 7) (nZ 7) (nZ 7) (nZ 7) (nZ 7) (nZ 7) (nZ 7) (nZ 7))
    (fun _ => mkLpc (nZ 0) (nZ 0) (nZ 0)) (fun _ => nZ 7).
Definition ex_run (T t : Z) : option (rpart * @kout F) :=
  match adjustRadialPartitioning T t 5 false with
  | Some p => Some (p, eval_thread (fun a _ => a) (fun a : F => nsub (nZ 0) a) (fun a _ => a) ex_cfg p
                         (ex_in (nsMinF1 p)) ex_old)
  | None => None
  end.
Definition force_at (T t j : Z) : option (f64 * f64 * f64) :=
  match ex_run T t with
  | Some (p, r) => let m := t_mfrc r ((j - nsMinF p) * 1 + 0) in
                   Some (ar_e m, bz_o m, blmn_e (t_lfrc r ((j - nsMinF p) * 1 + 0)))
  | None => None
  end.
Example C06_instance :
  map (fun p => (nsMinF p, nsMaxF p)) (flat_map (fun t => match adjustRadialPartitioning 2 t 5 false with Some p => [p] | None => [] end) [0; 1])
    = [(0, 2); (2, 4)] /\
  [force_at 2 0 0; force_at 2 0 1; force_at 2 1 2; force_at 2 1 3] =
  map (force_at 1 0) [0; 1; 2; 3] /\
  force_at 1 0 2 <> force_at 1 0 3 /\
  (forall p x, adjustRadialPartitioning 2 1 5 false = Some p -> x = ex_in (nsMinF1 p) ->
     holds_part 1 p (mkFields (fun j _ => ex_geo j) (fun j _ => ex_lam j) (fun j => nZ j) (fun j => nZ (1 + j))
        (fun j => nfrac j 8) (fun j => nZ (1 + j)) (fun _ => nZ 1) (fun _ => nZ 0) (fun j => nZ (5 - j))
        (fun _ => nZ 0) (fun j => nfrac (1 + j) 2)) x).
Proof.
  split; [vm_compute; reflexivity|]. split; [vm_compute; reflexivity|].
  split; [vm_compute; congruence|].
  intros p x Hp ->. apply (f_equal (option_map nsMinF1)) in Hp as E1.
  apply (f_equal (option_map nsMinH)) in Hp as E2. cbn in E1, E2.
  injection E1 as E1. injection E2 as E2. unfold holds_part. rewrite <- E1, <- E2. clear.
  split.
  - intros j Hj. split.
    + intros kl Hk. assert (kl = 0) by lia. subst kl. cbn [i_geo i_lam ex_in f_geo f_lam].
      replace (1 + ((j - 1) * 1 + 0)) with j by lia. auto.
    + cbn [i_sqrtSF i_blend i_phipF ex_in f_sqrtSF f_blend f_phipF].
      replace (1 + (j - 1)) with j by lia. replace (1 + 1 + (j - 1)) with (1 + j) by lia. auto.
  - intros h Hh. cbn [i_sqrtSH i_phipH i_currH i_massH i_chipH i_iotaH ex_in f_sqrtSH f_phipH f_currH f_massH f_chipH f_iotaH].
    replace (1 + 1 + (h - 1)) with (1 + h) by lia. replace (5 - 1 - (h - 1)) with (5 - h) by lia. repeat split.
Qed.

(** The averages of the second thread after three updates. *)
Example C07_instance :
  match adjustRadialPartitioning 2 1 5 false with
  | Some p =>
      let met i := mkMet (nZ 1) (nZ (3 + i)) (nZ 1) (nZ (10 * (1 + i))) in
      let upd3 := lambda_averages ex_cfg p met (lambda_averages ex_cfg p met
                    (lambda_averages ex_cfg p met (fun _ => mkLpc (nZ 0) (nZ 0) (nZ 0)))) in
      map (fun i => lb (upd3 i)) [0; 1; 2] = [nfrac 7 2; nfrac 9 2; nfrac 5 2] /\
      map (fun i => lc (upd3 i)) [0; 1; 2] = [nZ 15; nZ 25; nZ 15]
  | None => False
  end.
Proof. vm_compute. split; reflexivity. Qed.
End Instance.
