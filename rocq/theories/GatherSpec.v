(** The radial profiles and fields of a run, and what it means that a thread
    holds its share of them. *)
From Coq Require Import ZArith Bool.
From Verif Require Import Num PartModel GatherModel.
Open Scope Z_scope.

(** The data of the whole plasma, by surface. *)
Record plasma (K : num) := mkPlasma {
  p_hp : hprof -> Z -> K; p_hf : hfield -> Z -> Z -> K; p_fp : fprof -> Z -> K;
  p_co : coeff -> Z -> Z -> Z -> K;        (* surface, m, n *)
  p_ff : ffield -> Z -> Z -> K; p_of : ofield -> Z -> Z -> K;
  p_blmn : Z -> Z -> K; p_blmn_asym : Z -> Z -> K; p_currv : K }.
Arguments p_hp {K} _ _ _. Arguments p_hf {K} _ _ _ _. Arguments p_fp {K} _ _ _. Arguments p_co {K} _ _ _ _ _.
Arguments p_ff {K} _ _ _ _. Arguments p_of {K} _ _ _ _. Arguments p_blmn {K} _ _ _. Arguments p_blmn_asym {K} _ _ _.
Arguments p_currv {K} _.

(** Array [a] has [n] rows of [w] entries from row [lo] on, and its rows from
    [b] to [hi] hold [f]. *)
Definition rows {K : num} (a : arr K) (lo n w b hi : Z) (f : Z -> Z -> K) : Prop :=
  len a = n * w /\ forall j i, b <= j < hi -> 0 <= i < w -> at_ a ((j - lo) * w + i) = f j i.

(** Sizes as allocated (ideal_mhd_model.cc:306-384, 457, radial_profiles.cc:238-274,
    fourier_coefficients.cc:18-56); contents on the surfaces the thread advances. *)
Definition holds {K : num} (lthreed lasym : bool) (mpol ntor nZnT : Z) (P : plasma K) (r : rpart) (x : share K) : Prop :=
  let H := nsMaxH r - nsMinH r in let F1 := nsMaxF1 r - nsMinF1 r in let F := nsMaxFIncludingLcfs r - nsMinF r in
  (forall n, rows (s_hp x n) (nsMinH r) H 1 (nsMinH r) (nsMaxH r) (fun j _ => p_hp P n j)) /\
  (forall n, (n <> Guv \/ lthreed = true) -> rows (s_hf x n) (nsMinH r) H nZnT (nsMinH r) (nsMaxH r) (p_hf P n)) /\
  (forall n, rows (s_fp x n) (nsMinF1 r) F1 1 (nsMinF r) (nsMaxFIncludingLcfs r) (fun j _ => p_fp P n j)) /\
  (forall c, used lthreed lasym c = true ->
     len (s_co x c) = F1 * (mpol * (ntor + 1)) /\
     forall j m n, nsMinF r <= j < nsMaxFIncludingLcfs r -> 0 <= m < mpol -> 0 <= n <= ntor ->
       at_ (s_co x c) (((j - nsMinF1 r) * mpol + m) * (ntor + 1) + n) = p_co P c j m n) /\
  (forall n, (is_v n = false \/ lthreed = true) -> rows (s_ff x n) (nsMinF1 r) F1 nZnT (nsMinF r) (nsMaxFIncludingLcfs r) (p_ff P n)) /\
  (forall n, rows (s_of x n) (nsMinF r) F nZnT (nsMinF r) (nsMaxFIncludingLcfs r) (p_of P n)) /\
  rows (s_blmn x) (nsMinF r) F nZnT (nsMinF r) (nsMaxFIncludingLcfs r) (p_blmn P) /\
  (lasym = true -> rows (s_blmn_asym x) (nsMinF r) F nZnT (nsMinF r) (nsMaxFIncludingLcfs r) (p_blmn_asym P)) /\
  s_currv x = p_currv P.

(** The collected data are those of the plasma. *)
Definition collected {K : num} (lthreed lasym : bool) (ns mpol ntor nZnT nThetaEff nThetaReduced : Z) (lamscale : K)
    (P : plasma K) (g : results K) : Prop :=
  (forall j, 0 <= j < ns - 1 ->
     (forall n, g_hp g n j = Some (p_hp P n j)) /\
     (forall n i, (n <> Guv \/ lthreed = true) -> 0 <= i < nZnT -> g_hf g n (j * nZnT + i) = Some (p_hf P n j i))) /\
  (forall j, 0 <= j < ns ->
     (forall n, g_fp g n j = Some (p_fp P n j)) /\
     (forall c m n, used lthreed lasym c = true -> 0 <= m < mpol -> 0 <= n <= ntor ->
        g_co g c ((j * (ntor + 1) + n) * mpol + m) = Some (p_co P c j m n)) /\
     (forall i, 0 <= i < nZnT ->
        (forall n, g_ff g n (j * nZnT + i) = Some (if is_v n && negb lthreed then nZ 0 else p_ff P n j i)) /\
        (forall n, g_of g n (j * nZnT + i) = Some (p_of P n j i)) /\
        g_bsubvF g (j * nZnT + i) = Some (nmul
          (if (lasym && (i mod nThetaEff <? nThetaReduced))%bool then nadd (p_blmn P j i) (p_blmn_asym P j i) else p_blmn P j i)
          (if j =? 0 then nZ 1 else ndiv (nZ (-1)) lamscale)))) /\
  g_currv g = Some (p_currv P).
