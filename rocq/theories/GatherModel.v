(** Collecting the data of the threads for the output, GatherDataFromThreads,
    vmec/output_quantities/output_quantities.cc:1559-1828. Any arithmetic.
    An array of a thread has a size; a read outside gives [None], which is then
    what the output entry holds. Names enumerate the arrays that are copied. *)
From Coq Require Import ZArith List Bool.
From Verif Require Import Base Num PartModel.
Open Scope Z_scope.

Section Gather.
  Context {K : num}.

  Record arr := mkArr { len : Z; at_ : Z -> K }.
  Definition rd (a : arr) (i : Z) : option K := if (0 <=? i) && (i <? len a) then Some (at_ a i) else None.

  (** 1675-1687 *)
  Inductive hprof := SqrtSH | Sm | Sp | PhipH | ChipH | BvcoH | DVdsH | MassH | PresH | IotaH | CurrH.
  (** 1694-1715 *)
  Inductive hfield := R12 | Ru12 | Zu12 | Rs | Zs | Gsqrt | Guu | Guv | Gvv
    | Bsupu | Bsupv | Bsubu | Bsubv | TotalPressure.
  (** 1721-1728 *)
  Inductive fprof := SqrtSF | PhipF | ChipF | IotaF | SpectralWidth.
  (** 1739-1769 *)
  Inductive coeff := Rcc | Zsc | Lsc | Rss | Zcs | Lcs | Rsc | Zcc | Lcc | Rcs | Zss | Lss.
  (** 1796-1818: stored from nsMinF1 on *)
  Inductive ffield := Re | Ro | Ze | Zo | Rue | Ruo | Zue | Zuo | Rve | Rvo | Zve | Zvo.
  (** 1821-1822: stored from nsMinF on *)
  Inductive ofield := RuFull | ZuFull.

  (** What one thread holds. *)
  Record share := mkShare {
    s_hp : hprof -> arr; s_hf : hfield -> arr; s_fp : fprof -> arr; s_co : coeff -> arr;
    s_ff : ffield -> arr; s_of : ofield -> arr; s_blmn : arr; s_blmn_asym : arr; s_currv : K }.
  (** What is collected. *)
  Record results := mkRes {
    g_hp : hprof -> Z -> option K; g_hf : hfield -> Z -> option K; g_fp : fprof -> Z -> option K;
    g_co : coeff -> Z -> option K; g_ff : ffield -> Z -> option K; g_of : ofield -> Z -> option K;
    g_bsubvF : Z -> option K; g_currv : option K }.

  Context (lthreed lasym : bool) (ns mpol ntor nZnT nThetaEff nThetaReduced : Z) (lamscale : K).

  Definition three (c : coeff) : bool :=
    match c with Rss | Zcs | Lcs | Rcs | Zss | Lss => true | _ => false end.
  Definition asym (c : coeff) : bool :=
    match c with Rsc | Zcc | Lcc | Rcs | Zss | Lss => true | _ => false end.
  Definition used (c : coeff) : bool := (negb (three c) || lthreed) && (negb (asym c) || lasym).
  Definition is_v (f : ffield) : bool := match f with Rve | Rvo | Zve | Zvo => true | _ => false end.
  Definition is_guv (f : hfield) : bool := match f with Guv => true | _ => false end.

  Definition bind2 (f : K -> K -> K) (a b : option K) : option K :=
    match a, b with Some x, Some y => Some (f x y) | _, _ => None end.

  (** 1670-1717 *)
  Definition gather_half (r : rpart) (x : share) (g : results) : results :=
    for_up (nsMinH r) (nsMaxH r) (fun jH g =>
      if counts_half r ns jH then
        let g := mkRes (fun n => upd (g_hp g n) jH (rd (s_hp x n) (jH - nsMinH r)))
                   (g_hf g) (g_fp g) (g_co g) (g_ff g) (g_of g) (g_bsubvF g) (g_currv g) in
        for_up 0 nZnT (fun kl g =>
          let idx_global := jH * nZnT + kl in
          let idx_local := (jH - nsMinH r) * nZnT + kl in
          mkRes (g_hp g)
            (fun n => if is_guv n && negb lthreed then g_hf g n
                      else upd (g_hf g n) idx_global (rd (s_hf x n) idx_local))
            (g_fp g) (g_co g) (g_ff g) (g_of g) (g_bsubvF g) (g_currv g)) g
      else g) g.

  (** 1719-1823 *)
  Definition gather_full (r : rpart) (x : share) (g : results) : results :=
    for_up (nsMinF r) (nsMaxFIncludingLcfs r) (fun jF g =>
      let g := mkRes (g_hp g) (g_hf g) (fun n => upd (g_fp g n) jF (rd (s_fp x n) (jF - nsMinF1 r)))
                 (g_co g) (g_ff g) (g_of g) (g_bsubvF g) (g_currv g) in
      let g := for_up 0 (ntor + 1) (fun n g => for_up 0 mpol (fun m g =>
          let source_index := ((jF - nsMinF1 r) * mpol + m) * (ntor + 1) + n in
          let target_index := (jF * (ntor + 1) + n) * mpol + m in
          mkRes (g_hp g) (g_hf g) (g_fp g)
            (fun c => if used c then upd (g_co g c) target_index (rd (s_co x c) source_index) else g_co g c)
            (g_ff g) (g_of g) (g_bsubvF g) (g_currv g)) g) g in
      let unlamscale : K := if jF >? 0 then ndiv (nZ (-1)) lamscale else nZ 1 in
      for_up 0 nZnT (fun kl g =>
        let idx_global := jF * nZnT + kl in
        let idx_local := (jF - nsMinF r) * nZnT + kl in
        let idx_local1 := (jF - nsMinF1 r) * nZnT + kl in
        let blmn_e_full :=
          let b := rd (s_blmn x) idx_local in
          if lasym then
            let l := kl mod nThetaEff in
            if l <? nThetaReduced then bind2 nadd b (rd (s_blmn_asym x) idx_local) else b
          else b in
        mkRes (g_hp g) (g_hf g) (g_fp g) (g_co g)
          (fun n => upd (g_ff g n) idx_global
             (if is_v n && negb lthreed then Some (nZ 0) else rd (s_ff x n) idx_local1))
          (fun n => upd (g_of g n) idx_global (rd (s_of x n) idx_local))
          (upd (g_bsubvF g) idx_global (bind2 nmul blmn_e_full (Some unlamscale)))
          (g_currv g)) g) g.

  (** The zero matrices of 1568-1655; currv is not set there. *)
  Definition empty : results :=
    mkRes (fun _ _ => Some (nZ 0)) (fun _ _ => Some (nZ 0)) (fun _ _ => Some (nZ 0)) (fun _ _ => Some (nZ 0))
      (fun _ _ => Some (nZ 0)) (fun _ _ => Some (nZ 0)) (fun _ => Some (nZ 0)) None.

  (** 1657-1827 *)
  Definition gather (T : Z) (r : Z -> rpart) (x : Z -> share) : results :=
    for_up 0 T (fun t g =>
      let g := gather_half (r t) (x t) g in
      let g := gather_full (r t) (x t) g in
      if t =? 0 then mkRes (g_hp g) (g_hf g) (g_fp g) (g_co g) (g_ff g) (g_of g) (g_bsubvF g) (Some (s_currv (x t)))
      else g) empty.
End Gather.
Arguments arr : clear implicits. Arguments share : clear implicits. Arguments results : clear implicits.
