(** One thread's share of a force evaluation in real space: half-grid Jacobian,
    metric, differential volume, contravariant and covariant field, pressure,
    radial force balance, lambda force and MHD force, lambda preconditioner.

    Arithmetic is an arbitrary [num]; [npow], [nneg] and [ncopysign] (std::pow,
    unary minus, copysign) are further uninterpreted functions.

    Simplifications that hold for the whole file: (1) arrays are functions
    [Z -> A]; the index expressions are those of the code.  (2) parallel arrays
    that are written together at the same index (r12, ru12, ... tau) are one
    array of records.  (3) the checkpoints used by the unit tests are left out. *)
From Coq Require Import ZArith Bool.
From Verif Require Import Base Num PartModel.
Open Scope Z_scope.

Declare Scope num_scope.
Delimit Scope num_scope with n.
Notation "a + b" := (nadd a b) : num_scope.
Notation "a - b" := (nsub a b) : num_scope.
Notation "a * b" := (nmul a b) : num_scope.
Notation "a / b" := (ndiv a b) : num_scope.

Section Kernels.
Context {K : num}.
Variables (npow : K -> K -> K) (nneg : K -> K) (ncopysign : K -> K -> K).

Definition half : K := nfrac 1 2.
Definition c0 : K := nZ 0.
Definition c1 : K := nZ 1.
Definition c1_5 : K := nfrac 3 2.
Definition c2 : K := nZ 2.

(** Full-grid geometry at one point: r1_e, r1_o, z1_e, z1_o, ru_e, ... zv_o of
    IdealMhdModel (ideal_mhd_model.h). *)
Record geo := mkGeo {
  r1e : K; r1o : K; z1e : K; z1o : K;
  rue : K; ruo : K; zue : K; zuo : K;
  rve : K; rvo : K; zve : K; zvo : K }.

(** lu_e, lu_o, lv_e, lv_o. *)
Record lamp := mkLam { lue : K; luo : K; lve : K; lvo : K }.

(** Half-grid point, outputs of jacobian_kernel.h, metric_kernel.h,
    bcontra_kernel.h, bco_kernel.h. *)
Record jacp := mkJac { r12 : K; ru12 : K; zu12 : K; rs : K; zs : K; tau : K }.
Record metp := mkMet { gsqrt : K; guu : K; guv : K; gvv : K }.
Record vecp := mkVec { vu : K; vv : K }.

(** Run constants: FlowControl, Sizes, VmecConstants and IdealMhdModel members
    read by the functions below. *)
Record kcfg := mkKcfg {
  kns : Z; klfreeb : bool; klthreed : bool; kncurr1 : bool;
  knZnT : Z; knThetaEff : Z; kmpol : Z; kntor : Z; knfp : Z;
  kwInt : Z -> K;
  kdeltaS : K; kdSHalfDsInterp : K; klamscale : K; ksignJac : K; kgamma : K;
  kdampFactor : K; kdampRefM : K; kdampMaxPower : K; kzeroGuard : K }.

Variable c : kcfg.
Notation nZnT := (knZnT c).

(** ** Jacobian *)

(** Body of ComputeHalfGridJacobian, jacobian_kernel.h:45-72 ([i]: inside
    surface jH, [o]: outside surface jH + 1). *)
Definition jac_point (sH : K) (i o : geo) : jacp :=
  let r12 := (half * ((r1e i + r1e o) + sH * (r1o i + r1o o)))%n in
  let ru12 := (half * ((rue i + rue o) + sH * (ruo i + ruo o)))%n in
  let zu12 := (half * ((zue i + zue o) + sH * (zuo i + zuo o)))%n in
  let rs := (((r1e o - r1e i) + sH * (r1o o - r1o i)) / kdeltaS c)%n in
  let zs := (((z1e o - z1e i) + sH * (z1o o - z1o i)) / kdeltaS c)%n in
  let tau1 := (ru12 * zs - rs * zu12)%n in
  let tau2 := (ruo o * z1o o + ruo i * z1o i - zuo o * r1o o - zuo i * r1o i +
     (rue o * z1o o + rue i * z1o i - zue o * r1o o - zue i * r1o i) / sH)%n in
  mkJac r12 ru12 zu12 rs zs (tau1 + kdSHalfDsInterp c * tau2)%n.

(** ComputeHalfGridJacobian, jacobian_kernel.h:28-74, called from
    computeJacobian, ideal_mhd_model.cc:1639-1648. *)
Definition compute_jacobian (p : rpart) (sqrtSH : Z -> K) (g : Z -> geo)
    (out : Z -> jacp) : Z -> jacp :=
  for_up (nsMinH p) (nsMaxH p) (fun jH out =>
    let sH := sqrtSH (jH - nsMinH p) in
    for_up 0 nZnT (fun kl out =>
      upd out ((jH - nsMinH p) * nZnT + kl)
        (jac_point sH (g ((jH - nsMinF1 p) * nZnT + kl))
                      (g ((jH + 1 - nsMinF1 p) * nZnT + kl)))) out) out.

(** ** Metric *)

(** Body of ComputeMetricElements, metric_kernel.h:36-84; [old] is the previous
    content, of which guv survives in axisymmetric runs. *)
Definition met_point (sFi sFo sH : K) (i o : geo) (j : jacp) (old : metp) : metp :=
  let guu := (half * ((rue i * rue i + zue i * zue i) +
                      (rue o * rue o + zue o * zue o) +
                      sFi * (ruo i * ruo i + zuo i * zuo i) +
                      sFo * (ruo o * ruo o + zuo o * zuo o)) +
              sH * ((rue i * ruo i + zue i * zuo i) +
                    (rue o * ruo o + zue o * zuo o)))%n in
  let gvv2 := (half * (r1e i * r1e i + r1e o * r1e o + sFi * r1o i * r1o i +
                       sFo * r1o o * r1o o) +
               sH * (r1e i * r1o i + r1e o * r1o o))%n in
  if klthreed c then
    let guv := (half * ((rue i * rve i + zue i * zve i) +
                        (rue o * rve o + zue o * zve o) +
                        sFi * (ruo i * rvo i + zuo i * zvo i) +
                        sFo * (ruo o * rvo o + zuo o * zvo o) +
                        sH * ((rue i * rvo i + zue i * zvo i) +
                              (rue o * rvo o + zue o * zvo o) +
                              (rve i * ruo i + zve i * zuo i) +
                              (rve o * ruo o + zve o * zuo o))))%n in
    let gvv3 := (half * ((rve i * rve i + zve i * zve i) +
                         (rve o * rve o + zve o * zve o) +
                         sFi * (rvo i * rvo i + zvo i * zvo i) +
                         sFo * (rvo o * rvo o + zvo o * zvo o)) +
                 sH * ((rve i * rvo i + zve i * zvo i) +
                       (rve o * rvo o + zve o * zvo o)))%n in
    mkMet (tau j * r12 j)%n guu guv (gvv2 + gvv3)%n
  else mkMet (tau j * r12 j)%n guu (guv old) gvv2.

(** ComputeMetricElements, metric_kernel.h:18-87, called from
    computeMetricElements, ideal_mhd_model.cc:1680-1688. *)
Definition compute_metric (p : rpart) (sqrtSF sqrtSH : Z -> K) (g : Z -> geo)
    (jac : Z -> jacp) (out : Z -> metp) : Z -> metp :=
  for_up (nsMinH p) (nsMaxH p) (fun jH out =>
    let sFi := (sqrtSF (jH - nsMinF1 p)%Z * sqrtSF (jH - nsMinF1 p)%Z)%n in
    let sFo := (sqrtSF (jH + 1 - nsMinF1 p)%Z * sqrtSF (jH + 1 - nsMinF1 p)%Z)%n in
    let sH := sqrtSH (jH - nsMinH p) in
    for_up 0 nZnT (fun kl out =>
      let ih := (jH - nsMinH p) * nZnT + kl in
      upd out ih
        (met_point sFi sFo sH (g ((jH - nsMinF1 p) * nZnT + kl))
           (g ((jH + 1 - nsMinF1 p) * nZnT + kl)) (jac ih) (out ih))) out) out.

(** updateDifferentialVolume, ideal_mhd_model.cc:1697-1711. *)
Definition update_dVds (p : rpart) (met : Z -> metp) (dVdsH : Z -> K) : Z -> K :=
  for_up (nsMinH p) (nsMaxH p) (fun jH d =>
    let d0 := upd d (jH - nsMinH p) c0 in
    let d1 := for_up 0 nZnT (fun kl d =>
        upd d (jH - nsMinH p)
          (d (jH - nsMinH p)%Z +
           gsqrt (met ((jH - nsMinH p) * nZnT + kl)%Z) * kwInt c (Z.rem kl (knThetaEff c)))%n) d0 in
    upd d1 (jH - nsMinH p) (d1 (jH - nsMinH p)%Z * ksignJac c)%n) dVdsH.

(** ** Contravariant field *)

(** One point of the in-place rescaling of the lambda derivatives,
    ideal_mhd_model.cc:1789-1796 and 1799-1808. *)
Definition lam_point (phip : K) (x : lamp) : lamp :=
  mkLam (lue x * klamscale c + phip)%n (luo x * klamscale c)%n
        (if klthreed c then lve x * klamscale c else lve x)%n
        (if klthreed c then lvo x * klamscale c else lvo x)%n.

(** ideal_mhd_model.cc:1787-1810.  The second loop indexes phipF with nsMinH,
    the first with nsMinF1, as in the code. *)
Definition normalise_lambda (p : rpart) (phipF : Z -> K) (lam : Z -> lamp) : Z -> lamp :=
  let j0 := nsMinH p in
  let lam := for_up 0 nZnT (fun kl lam =>
      let i := (j0 - nsMinF1 p) * nZnT + kl in
      upd lam i (lam_point (phipF (j0 - nsMinF1 p)) (lam i))) lam in
  for_up (nsMinH p) (nsMaxH p) (fun jH lam =>
    for_up 0 nZnT (fun kl lam =>
      let i := (jH + 1 - nsMinF1 p) * nZnT + kl in
      upd lam i (lam_point (phipF (jH + 1 - nsMinH p)) (lam i))) lam) lam.

(** Body of ComputeBsupContra, bcontra_kernel.h:28-41. *)
Definition bsup_point (sH : K) (i o : lamp) (m : metp) : vecp :=
  mkVec (if klthreed c
         then half * ((lve i + lve o) + sH * (lvo i + lvo o)) / gsqrt m
         else c0)%n
        (half * ((lue i + lue o) + sH * (luo i + luo o)) / gsqrt m)%n.

(** ComputeBsupContra, bcontra_kernel.h:21-44. *)
Definition compute_bsup (p : rpart) (sqrtSH : Z -> K) (lam : Z -> lamp)
    (met : Z -> metp) (out : Z -> vecp) : Z -> vecp :=
  for_up (nsMinH p) (nsMaxH p) (fun jH out =>
    let sH := sqrtSH (jH - nsMinH p) in
    for_up 0 nZnT (fun kl out =>
      let ih := (jH - nsMinH p) * nZnT + kl in
      upd out ih (bsup_point sH (lam ((jH - nsMinF1 p) * nZnT + kl))
                     (lam ((jH + 1 - nsMinF1 p) * nZnT + kl)) (met ih))) out) out.

(** The two surface integrals of one half-grid surface,
    ideal_mhd_model.cc:1823-1836; [base] = (jH - nsMinH) * nZnT. *)
Definition current_integrals (met : Z -> metp) (bsup : Z -> vecp) (base : Z) : K * K :=
  for_up 0 nZnT (fun kl acc =>
    let m := met (base + kl) in
    let b := bsup (base + kl) in
    let w := kwInt c (Z.rem kl (knThetaEff c)) in
    ((if klthreed c
      then fst acc + (guu m * vu b + guv m * vv b) * w
      else fst acc + guu m * vu b * w)%n,
     (snd acc + guu m / gsqrt m * w)%n)) (c0, c0).

(** chipH and iotaH, ideal_mhd_model.cc:1817-1858. *)
Definition update_chip (p : rpart) (met : Z -> metp) (bsup : Z -> vecp)
    (currH phipH : Z -> K) (ci : (Z -> K) * (Z -> K)) : (Z -> K) * (Z -> K) :=
  for_up (nsMinH p) (nsMaxH p) (fun jH ci =>
    let i := jH - nsMinH p in
    if kncurr1 c then
      let (jv, avg) := current_integrals met bsup ((jH - nsMinH p) * nZnT) in
      let chip := if neq avg c0 then fst ci else upd (fst ci) i ((currH i - jv) / avg)%n in
      let iota := if neq (phipH i) c0 then snd ci
                  else upd (snd ci) i (chip i / phipH i)%n in
      (chip, iota)
    else (upd (fst ci) i (snd ci i * phipH i)%n, snd ci)) ci.

(** Full-grid chi' on interior surfaces, ideal_mhd_model.cc:1861-1864.
    The extrapolated end values (1865-1892) are not read by the force and are
    left out. *)
Definition update_chipF (p : rpart) (chipH chipF : Z -> K) : Z -> K :=
  for_up (nsMinFi p) (nsMaxFi p) (fun jFi f =>
    upd f (jFi - nsMinF1 p)
      (half * (chipH (jFi - nsMinH p)%Z + chipH (jFi - 1 - nsMinH p)%Z))%n) chipF.

(** ideal_mhd_model.cc:1884-1891: add chi'/sqrt(g). *)
Definition add_chip (p : rpart) (met : Z -> metp) (chipH : Z -> K)
    (bsup : Z -> vecp) : Z -> vecp :=
  for_up (nsMinH p) (nsMaxH p) (fun jH b =>
    for_up 0 nZnT (fun kl b =>
      let ih := (jH - nsMinH p) * nZnT + kl in
      upd b ih (mkVec (vu (b ih) + chipH (jH - nsMinH p)%Z / gsqrt (met ih))%n (vv (b ih)))) b) bsup.

(** ** Covariant field and pressure *)

(** Body of ComputeBCo, bco_kernel.h:20-32. *)
Definition bco_point (m : metp) (b : vecp) : vecp :=
  if klthreed c then mkVec (guu m * vu b + guv m * vv b)%n (guv m * vu b + gvv m * vv b)%n
  else mkVec (guu m * vu b)%n (gvv m * vv b)%n.

(** ComputeBCo over the flat arrays of the thread, ideal_mhd_model.cc:1895-1901.
    [bsupu.size()] is (nsMaxH - nsMinH) * nZnT (constructor). *)
Definition compute_bco (p : rpart) (met : Z -> metp) (bsup out : Z -> vecp) : Z -> vecp :=
  for_up 0 ((nsMaxH p - nsMinH p) * nZnT) (fun i out =>
    upd out i (bco_point (met i) (bsup i))) out.

(** presH, ideal_mhd_model.cc:1908-1912. *)
Definition update_pres (p : rpart) (massH dVdsH presH : Z -> K) : Z -> K :=
  for_up (nsMinH p) (nsMaxH p) (fun jH q =>
    upd q (jH - nsMinH p)
      (massH (jH - nsMinH p)%Z / npow (dVdsH (jH - nsMinH p)%Z) (kgamma c))%n) presH.

(** totalPressure: ComputeMagneticPressure (pressure_kernel.h:18-24) over the
    flat arrays, then the kinetic pressure is added per surface,
    ideal_mhd_model.cc:1930-1957.  The energy integrals of the same loops are
    in ReduceModel.v. *)
Definition compute_total_pressure (p : rpart) (presH : Z -> K)
    (bsup bsub : Z -> vecp) (out : Z -> K) : Z -> K :=
  let out := for_up 0 ((nsMaxH p - nsMinH p) * nZnT) (fun i out =>
    upd out i (half * (vu (bsup i) * vu (bsub i) + vv (bsup i) * vv (bsub i)))%n) out in
  for_up (nsMinH p) (nsMaxH p) (fun jH out =>
    for_up 0 nZnT (fun kl out =>
      let ih := (jH - nsMinH p) * nZnT + kl in
      upd out ih (out ih + presH (jH - nsMinH p)%Z)%n) out) out.

(** ** Radial force balance *)

(** bucoH, bvcoH: ideal_mhd_model.cc:1998-2008. *)
Definition update_bco_avg (p : rpart) (bsub : Z -> vecp)
    (buv : (Z -> K) * (Z -> K)) : (Z -> K) * (Z -> K) :=
  for_up (nsMinH p) (nsMaxH p) (fun jH buv =>
    let i := jH - nsMinH p in
    for_up 0 nZnT (fun kl buv =>
      let b := bsub ((jH - nsMinH p) * nZnT + kl) in
      let w := kwInt c (Z.rem kl (knThetaEff c)) in
      (upd (fst buv) i (fst buv i + vu b * w)%n,
       upd (snd buv) i (snd buv i + vv b * w)%n))
      (upd (fst buv) i c0, upd (snd buv) i c0)) buv.

(** jcurvF, jcuruF, presgradF, dVdsF, equiF of one surface. *)
Record rfb := mkRfb { jcurv : K; jcuru : K; presgrad : K; dVdsF : K; equif : K }.

(** Body of ideal_mhd_model.cc:2014-2038; arguments are the values at the half
    point outside ([_o] = jFi) and inside ([_i] = jFi - 1). *)
Definition rfb_point (bu_o bu_i bv_o bv_i pr_o pr_i dv_o dv_i chip phip : K) : rfb :=
  let s := (ksignJac c / kdeltaS c)%n in
  let jcurv := (s * (bu_o - bu_i))%n in
  let jcuru := (nneg s * (bv_o - bv_i))%n in
  let pg := ((pr_o - pr_i) / kdeltaS c)%n in
  let dv := (half * (dv_o + dv_i))%n in
  mkRfb jcurv jcuru pg dv ((chip * jcurv - phip * jcuru) / dv + pg)%n.

(** radialForceBalance, ideal_mhd_model.cc:2010-2039. *)
Definition radial_force_balance (p : rpart) (buco bvco presH dVdsH chipF phipF : Z -> K)
    (out : Z -> rfb) : Z -> rfb :=
  for_up (nsMinFi p) (nsMaxFi p) (fun jFi out =>
    upd out (jFi - nsMinFi p)
      (rfb_point (buco (jFi - nsMinH p)) (buco (jFi - 1 - nsMinH p))
         (bvco (jFi - nsMinH p)) (bvco (jFi - 1 - nsMinH p))
         (presH (jFi - nsMinH p)) (presH (jFi - 1 - nsMinH p))
         (dVdsH (jFi - nsMinH p)) (dVdsH (jFi - 1 - nsMinH p))
         (chipF (jFi - nsMinF1 p)) (phipF (jFi - nsMinF1 p)))) out.

(** ** Lambda force *)

(** Sliding scratch of lambda_force_kernel.h: bsubu_i, bsubv_i, gvv_gsqrt_i,
    guv_bsupu_i. *)
Record lscr := mkLscr { sbu : K; sbv : K; sgg : K; sgb : K }.
(** blmn_e, blmn_o, clmn_e, clmn_o. *)
Record lfrc := mkLfrc { blmn_e : K; blmn_o : K; clmn_e : K; clmn_o : K }.

(** Values taken from a half-grid point; [old] supplies the entry that is not
    written in axisymmetric runs, lambda_force_kernel.h:48-55. *)
Definition lscr_point (m : metp) (bsup bsub : vecp) (old : lscr) : lscr :=
  mkLscr (vu bsub) (vv bsub) (gvv m / gsqrt m)%n
         (if klthreed c then guv m * vu bsup else sgb old)%n.
Definition lscr_zero : lscr := mkLscr c0 c0 c0 c0.

(** Point update of the force, lambda_force_kernel.h:77-123; [i] scratch of the
    inside half point, [o] values of the outside half point. *)
Definition lam_force_point (first : bool) (i o : lscr) (sHi sHo : K) (l : lamp)
    (blend sF : K) (old : lfrc) : lfrc :=
  let lu_e := (half * (sgg i + sgg o) * lue l)%n in
  let lu_o := (half * (sgg i * sHi + sgg o * sHo) * luo l)%n in
  let lu := (lu_e + lu_o)%n in
  let alt := if klthreed c then (lu + half * (sgb i + sgb o))%n else lu in
  let avg := (half * (sbv o + sbv i))%n in
  let b := (avg * (c1 - blend) + alt * blend)%n in
  let b := if first then b else (b * nneg (klamscale c))%n in
  let cl := (half * (sbu o + sbu i))%n in
  let cl := if first then cl else (cl * nneg (klamscale c))%n in
  if klthreed c then mkLfrc b (b * sF)%n cl (cl * sF)%n
  else mkLfrc b (b * sF)%n (clmn_e old) (clmn_o old).

(** What the scratch becomes, lambda_force_kernel.h:111-120. *)
Definition lscr_shift (o i : lscr) : lscr :=
  mkLscr (if klthreed c then sbu o else sbu i) (sbv o) (sgg o)
         (if klthreed c then sgb o else sgb i).

(** ComputeHybridLambdaForce, lambda_force_kernel.h:22-126, called from
    hybridLambdaForce, ideal_mhd_model.cc:2041-2062. *)
Definition hybrid_lambda_force (p : rpart) (met : Z -> metp) (bsup bsub : Z -> vecp)
    (lam : Z -> lamp) (sqrtSH sqrtSF blend : Z -> K)
    (scr : Z -> lscr) (out : Z -> lfrc) : Z -> lfrc :=
  let j0 := nsMinF p in
  let sHi := if j0 >? 0 then sqrtSH (j0 - 1 - nsMinH p) else c0 in
  let scr := for_up 0 nZnT (fun kl scr =>
      if j0 =? 0 then upd scr kl lscr_zero
      else let iHalf := (j0 - 1 - nsMinH p) * nZnT + kl in
           upd scr kl (lscr_point (met iHalf) (bsup iHalf) (bsub iHalf) (scr kl))) scr in
  let '(_, _, out) :=
    for_up (nsMinF p) (nsMaxFIncludingLcfs p) (fun jF st =>
      let '(scr, sHi, out) := st in
      let sHo := if jF <? nsMaxH p then sqrtSH (jF - nsMinH p) else c0 in
      let '(scr, out) := for_up 0 nZnT (fun kl so =>
          let '(scr, out) := so in
          let iHalf := (jF - nsMinH p) * nZnT + kl in
          let o := if jF <? nsMaxH p
                   then lscr_point (met iHalf) (bsup iHalf) (bsub iHalf) lscr_zero
                   else lscr_zero in
          let io := (jF - nsMinF p) * nZnT + kl in
          (upd scr kl (lscr_shift o (scr kl)),
           upd out io (lam_force_point (negb (jF >? 0)) (scr kl) o sHi sHo
              (lam ((jF - nsMinF1 p) * nZnT + kl)) (blend (jF - nsMinF1 p))
              (sqrtSF (jF - nsMinF1 p)) (out io)))) (scr, out) in
      (scr, sHo, out)) (scr, sHi, out) in
  out.

(** ** MHD force *)

(** Scratch of mhdforce_kernel.h: P, rup, zup, rsp, zsp, taup, gbubu, gbubv,
    gbvbv. *)
Record mscr := mkMscr { sP : K; srup : K; szup : K; srsp : K; szsp : K; staup : K;
                        suu : K; suv : K; svv : K }.
Record mfrc := mkMfrc { ar_e : K; ar_o : K; az_e : K; az_o : K; br_e : K; br_o : K;
                        bz_e : K; bz_o : K; cr_e : K; cr_o : K; cz_e : K; cz_o : K }.

(** mhdforce_kernel.h:71-83 and 114-129. *)
Definition mscr_point (j : jacp) (m : metp) (b : vecp) (tp : K) : mscr :=
  let P := (r12 j * tp)%n in
  mkMscr P (ru12 j * P)%n (zu12 j * P)%n (rs j * P)%n (zs j * P)%n (tau j * tp)%n
         (gsqrt m * vu b * vu b)%n (gsqrt m * vu b * vv b)%n (gsqrt m * vv b * vv b)%n.
Definition mscr_zero : mscr := mkMscr c0 c0 c0 c0 c0 c0 c0 c0 c0.

(** mhdforce_kernel.h:142-224; [old] supplies crmn/czmn, not written in
    axisymmetric runs. *)
Definition mhd_point (sF sHi sHo : K) (i o : mscr) (g : geo) (old : mfrc) : mfrc :=
  let sFull := (sF * sF)%n in
  let invDS := (c1 / kdeltaS c)%n in
  let invSHo := (c1 / sHo)%n in
  let invSHi := (c1 / sHi)%n in
  let P_avg := (half * (sP o + sP i))%n in
  let P_wavg := (half * (sP o * invSHo + sP i * invSHi))%n in
  let uu_avg := (half * (suu o + suu i))%n in
  let uu_wavg := (half * (suu o * sHo + suu i * sHi))%n in
  let vv_avg := (half * (svv o + svv i))%n in
  let vv_wavg := (half * (svv o * sHo + svv i * sHi))%n in
  let ar_e' := ((szup o - szup i) * invDS + half * (staup o + staup i) -
                vv_avg * r1e g - vv_wavg * r1o g)%n in
  let ar_o' := ((szup o * sHo - szup i * sHi) * invDS -
                half * (P_wavg * zue g) - half * (P_avg * zuo g) +
                half * (staup o * sHo + staup i * sHi) -
                vv_wavg * r1e g - vv_avg * r1o g * sFull)%n in
  let az_e' := (nneg (srup o - srup i) * invDS)%n in
  let az_o' := (nneg (srup o * sHo - srup i * sHi) * invDS +
                half * (P_wavg * rue g) + half * (P_avg * ruo g))%n in
  let br_e' := (half * (szsp o + szsp i) + half * (P_wavg * z1o g) -
                uu_avg * rue g - uu_wavg * ruo g)%n in
  let br_o' := (half * (szsp o * sHo + szsp i * sHi) + half * (P_avg * z1o g) -
                uu_wavg * rue g - uu_avg * ruo g * sFull)%n in
  let bz_e' := (nneg half * (srsp o + srsp i) - half * (P_wavg * r1o g) -
                uu_avg * zue g - uu_wavg * zuo g)%n in
  let bz_o' := (nneg half * (srsp o * sHo + srsp i * sHi) - half * (P_avg * r1o g) -
                uu_wavg * zue g - uu_avg * zuo g * sFull)%n in
  if klthreed c then
    let uv_avg := (half * (suv o + suv i))%n in
    let uv_wavg := (half * (suv o * sHo + suv i * sHi))%n in
    mkMfrc ar_e' ar_o' az_e' az_o'
      (br_e' - (uv_avg * rve g + uv_wavg * rvo g))%n
      (br_o' - (uv_wavg * rve g + uv_avg * rvo g * sFull))%n
      (bz_e' - (uv_avg * zve g + uv_wavg * zvo g))%n
      (bz_o' - (uv_wavg * zve g + uv_avg * zvo g * sFull))%n
      (uv_avg * rue g + uv_wavg * ruo g + vv_avg * rve g + vv_wavg * rvo g)%n
      (uv_wavg * rue g + uv_avg * ruo g * sFull + vv_wavg * rve g + vv_avg * rvo g * sFull)%n
      (uv_avg * zue g + uv_wavg * zuo g + vv_avg * zve g + vv_wavg * zvo g)%n
      (uv_wavg * zue g + uv_avg * zuo g * sFull + vv_wavg * zve g + vv_avg * zvo g * sFull)%n
  else mkMfrc ar_e' ar_o' az_e' az_o' br_e' br_o' bz_e' bz_o'
         (cr_e old) (cr_o old) (cz_e old) (cz_o old).

(** computeMHDForces, ideal_mhd_model.cc:2137-2141. *)
Definition jMaxRZ (p : rpart) : Z :=
  if klfreeb c then Z.min (nsMaxF p) (kns c) else Z.min (nsMaxF p) (kns c - 1).

(** ComputeMHDForceDensity, mhdforce_kernel.h:26-237. *)
Definition mhd_force (p : rpart) (jac : Z -> jacp) (met : Z -> metp) (bsup : Z -> vecp)
    (tp : Z -> K) (g : Z -> geo) (sqrtSH sqrtSF : Z -> K)
    (scr_i scr_o : Z -> mscr) (out : Z -> mfrc) : Z -> mfrc :=
  let take iHalf := mscr_point (jac iHalf) (met iHalf) (bsup iHalf) (tp iHalf) in
  let '(scr_i, sHi) :=
    if nsMinF p >? 0 then
      let j0 := nsMinH p in
      (for_up 0 nZnT (fun kl s => upd s kl (take ((j0 - nsMinH p) * nZnT + kl))) scr_i,
       sqrtSH (j0 - nsMinH p))
    else (for_up 0 nZnT (fun kl s => upd s kl mscr_zero) scr_i, c1) in
  let scr_o := for_up 0 nZnT (fun kl s => upd s kl mscr_zero) scr_o in
  let '(_, _, _, out) :=
    for_up (nsMinF p) (jMaxRZ p) (fun jF st =>
      let '(scr_i, scr_o, sHi, out) := st in
      let sHo := if jF <? nsMaxH p then sqrtSH (jF - nsMinH p) else c1 in
      let scr_o :=
        if jF <? nsMaxH p then
          for_up 0 nZnT (fun kl s => upd s kl (take ((jF - nsMinH p) * nZnT + kl))) scr_o
        else for_up 0 nZnT (fun kl s => upd s kl mscr_zero) scr_o in
      let out := for_up 0 nZnT (fun kl out =>
          let io := (jF - nsMinF p) * nZnT + kl in
          upd out io (mhd_point (sqrtSF (jF - nsMinF1 p)) sHi sHo (scr_i kl) (scr_o kl)
                        (g ((jF - nsMinF1 p) * nZnT + kl)) (out io))) out in
      let scr_i := for_up 0 nZnT (fun kl s => upd s kl (scr_o kl)) scr_i in
      (scr_i, scr_o, sHo, out)) (scr_i, scr_o, sHi, out) in
  out.

(** ** Lambda preconditioner *)

(** bLambda, dLambda, cLambda at one index. *)
Record lpc := mkLpc { lb : K; ld : K; lc : K }.
Definition lpc_zero : lpc := mkLpc c0 c0 c0.

(** Surface integrals of one half-grid point, ideal_mhd_model.cc:2202-2222
    (dLambda is accumulated in a second loop in the code; the two loops touch
    different arrays, so one loop over the record is used here). *)
Definition lpc_add (m : metp) (w : K) (x : lpc) : lpc :=
  mkLpc (lb x + guu m / gsqrt m * w)%n
        (if klthreed c then ld x + guv m / gsqrt m * w else ld x)%n
        (lc x + gvv m / gsqrt m * w)%n.
Definition lpc_avg (a b : lpc) : lpc :=
  mkLpc (half * (lb a + lb b))%n (half * (ld a + ld b))%n (half * (lc a + lc b))%n.

(** First half of updateLambdaPreconditioner, ideal_mhd_model.cc:2199-2248:
    half-grid integrals stored shifted by one, constant extrapolation to the
    axis, in-place average onto the full grid. *)
Definition lambda_averages (p : rpart) (met : Z -> metp) (a : Z -> lpc) : Z -> lpc :=
  let a := for_up (nsMinH p) (nsMaxH p) (fun jH a =>
      let i := jH + 1 - nsMinH p in
      for_up 0 nZnT (fun kl a =>
        upd a i (lpc_add (met ((jH - nsMinH p) * nZnT + kl))
                   (kwInt c (Z.rem kl (knThetaEff c))) (a i))) (upd a i lpc_zero)) a in
  let a := if nsMinF p =? 0 then upd a 0 (a 1) else a in
  let jMin := if nsMinF p =? 0 then 1 else 0 in
  for_up (Z.max jMin (nsMinF p)) (nsMaxFIncludingLcfs p) (fun jF a =>
    upd a (jF - nsMinF p)
      (lpc_avg (a (jF + 1 - nsMinH p)) (a (jF - nsMinH p)))) a.

(** Entry of the preconditioner for mode (m, n), ideal_mhd_model.cc:2258-2294. *)
Definition lambda_precond_point (a : lpc) (sF : K) (m n : Z) : K :=
  let pFactor := (kdampFactor c / (nZ 4 * klamscale c * klamscale c))%n in
  let tnn := nZ (n * knfp c * n * knfp c) in
  let tmm := nZ (m * m) in
  let pwr := nmin (tmm / (kdampRefM c * kdampRefM c))%n (kdampMaxPower c) in
  let tmn := (c2 * nZ m * nZ n * nZ (knfp c))%n in
  let faclam := (tnn * lb a + tmn * ncopysign (ld a) (lb a) + tmm * lc a)%n in
  let faclam := if neq faclam c0 then kzeroGuard c else faclam in
  (pFactor / faclam * npow sF pwr)%n.

(** Second half, ideal_mhd_model.cc:2250-2296. *)
Definition update_lambda_preconditioner (p : rpart) (met : Z -> metp) (sqrtSF : Z -> K)
    (a : Z -> lpc) (pre : Z -> K) : Z -> K :=
  let a := lambda_averages p met a in
  let jMin := if nsMinF p =? 0 then 1 else 0 in
  let pre := for_up 0 ((nsMaxFIncludingLcfs p - nsMinF p) * (kntor c + 1) * kmpol c)
               (fun i pre => upd pre i c0) pre in
  for_up (Z.max jMin (nsMinF p)) (nsMaxFIncludingLcfs p) (fun jF pre =>
    for_up 0 (kntor c + 1) (fun n pre =>
      for_up 0 (kmpol c) (fun m pre =>
        if (m =? 0) && (n =? 0) then pre
        else upd pre (((jF - nsMinF p) * kmpol c + m) * (kntor c + 1) + n)
               (lambda_precond_point (a (jF - nsMinF p)) (sqrtSF (jF - nsMinF1 p)) m n))
        pre) pre) pre.

(** ** One thread *)

(** Inputs of one thread, local arrays. *)
Record kin := mkKin {
  i_geo : Z -> geo; i_lam : Z -> lamp;
  i_sqrtSF : Z -> K; i_sqrtSH : Z -> K; i_blend : Z -> K;
  i_phipF : Z -> K; i_phipH : Z -> K; i_currH : Z -> K; i_massH : Z -> K;
  i_chipH : Z -> K; i_iotaH : Z -> K }.

(** Whatever the output and scratch arrays of the thread contain before. *)
Record kold := mkOld {
  o_jac : Z -> jacp; o_met : Z -> metp; o_dVds : Z -> K; o_bsup : Z -> vecp;
  o_bsub : Z -> vecp; o_pres : Z -> K; o_tp : Z -> K; o_chipF : Z -> K;
  o_buv : (Z -> K) * (Z -> K); o_rfb : Z -> rfb;
  o_lscr : Z -> lscr; o_lfrc : Z -> lfrc;
  o_mscr_i : Z -> mscr; o_mscr_o : Z -> mscr; o_mfrc : Z -> mfrc;
  o_lpc : Z -> lpc; o_pre : Z -> K }.

Record kout := mkOut {
  t_jac : Z -> jacp; t_met : Z -> metp; t_dVds : Z -> K; t_lam : Z -> lamp;
  t_chipH : Z -> K; t_iotaH : Z -> K;
  t_bsup : Z -> vecp; t_bsub : Z -> vecp; t_tp : Z -> K; t_rfb : Z -> rfb;
  t_lfrc : Z -> lfrc; t_mfrc : Z -> mfrc; t_avg : Z -> lpc; t_pre : Z -> K }.

(** The calls in IdealMhdModel::update (ideal_mhd_model.cc:599-740) that compute
    real-space forces, in order, for one thread. *)
Definition eval_thread (p : rpart) (x : kin) (old : kold) : kout :=
  let jac := compute_jacobian p (i_sqrtSH x) (i_geo x) (o_jac old) in
  let met := compute_metric p (i_sqrtSF x) (i_sqrtSH x) (i_geo x) jac (o_met old) in
  let dVds := update_dVds p met (o_dVds old) in
  let lam := normalise_lambda p (i_phipF x) (i_lam x) in
  let bsup0 := compute_bsup p (i_sqrtSH x) lam met (o_bsup old) in
  let ci := update_chip p met bsup0 (i_currH x) (i_phipH x) (i_chipH x, i_iotaH x) in
  let chipF := update_chipF p (fst ci) (o_chipF old) in
  let bsup := add_chip p met (fst ci) bsup0 in
  let bsub := compute_bco p met bsup (o_bsub old) in
  let pres := update_pres p (i_massH x) dVds (o_pres old) in
  let tp := compute_total_pressure p pres bsup bsub (o_tp old) in
  let buv := update_bco_avg p bsub (o_buv old) in
  let rf := radial_force_balance p (fst buv) (snd buv) pres dVds chipF (i_phipF x) (o_rfb old) in
  let lf := hybrid_lambda_force p met bsup bsub lam (i_sqrtSH x) (i_sqrtSF x) (i_blend x)
              (o_lscr old) (o_lfrc old) in
  let mf := mhd_force p jac met bsup tp (i_geo x) (i_sqrtSH x) (i_sqrtSF x)
              (o_mscr_i old) (o_mscr_o old) (o_mfrc old) in
  let av := lambda_averages p met (o_lpc old) in
  let pre := update_lambda_preconditioner p met (i_sqrtSF x) (o_lpc old) (o_pre old) in
  mkOut jac met dVds lam (fst ci) (snd ci) bsup bsub tp rf lf mf av pre.

End Kernels.
