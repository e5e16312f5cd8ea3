(** Work sharing: radial partition of flux surfaces, tangential partition of
    boundary grid points, split of Fourier modes, choice of thread counts.
    [int] is modelled by [Z]; C++ integer division by [Z.quot]/[Z.rem]
    (truncation towards zero). *)
From Coq Require Import ZArith Bool.
From Verif Require Import Base.
Open Scope Z_scope.

(** Members of RadialPartitioning,
    vmec/radial_partitioning/radial_partitioning.h:30-75. *)
Record rpart := mk_rpart {
  nsMinF1 : Z; nsMaxF1 : Z;
  nsMinH : Z;  nsMaxH : Z;
  nsMinF : Z;  nsMaxF : Z;
  nsMinFi : Z; nsMaxFi : Z;
  nsMaxFIncludingLcfs : Z
}.

(** radial_partitioning.cc:23-26 and vmec/vmec/vmec.cc:552-555. *)
Definition num_surfaces_to_distribute (ns : Z) (lfreeb : bool) : Z :=
  if lfreeb then ns else ns - 1.

(** RadialPartitioning::adjustRadialPartitioning,
    vmec/radial_partitioning/radial_partitioning.cc:19-127.
    [None] is the process abort by LOG(FATAL) (lines 28-31).
    Simplification: the [printout] branch (lines 113-125) has no effect on the
    state and is left out. *)
Definition adjustRadialPartitioning
    (num_threads thread_id ns : Z) (lfreeb : bool) : option rpart :=
  let n := num_surfaces_to_distribute ns lfreeb in
  if num_threads >? Z.quot ns 2 then None
  else if num_threads >? 1 then
    let work_per_cpu := Z.quot n num_threads in
    let work_remainder := Z.rem n num_threads in
    let lo0 := thread_id * work_per_cpu in
    let hi0 := (thread_id + 1) * work_per_cpu in
    let lo := if thread_id <? work_remainder then lo0 + thread_id
              else lo0 + work_remainder in
    let hi := if thread_id <? work_remainder then hi0 + (thread_id + 1)
              else hi0 + work_remainder in
    let loF1 := Z.max 0 (lo - 1) in
    let hiF1 := Z.min ns (hi + 1) in
    Some {| nsMinF1 := loF1; nsMaxF1 := hiF1;
            nsMinH := loF1; nsMaxH := hiF1 - 1;
            nsMinF := lo; nsMaxF := hi;
            nsMinFi := Z.max 1 lo; nsMaxFi := Z.min (ns - 1) hi;
            nsMaxFIncludingLcfs := if hiF1 =? ns then ns else hi |}
  else
    let hiF := if lfreeb then ns else ns - 1 in
    Some {| nsMinF1 := 0; nsMaxF1 := ns;
            nsMinH := 0; nsMaxH := ns - 1;
            nsMinF := 0; nsMaxF := hiF;
            nsMinFi := 1; nsMaxFi := ns - 1;
            nsMaxFIncludingLcfs := if ns =? ns then ns else hiF |}.

(** The guard [jH < r_.nsMaxH - 1 || jH == m_fc_.ns - 2] that selects which
    thread accounts for a half-grid point; ideal_mhd_model.cc:1722, 1752,
    1918, 1943, 2079 and radial_profiles.cc:1261. *)
Definition counts_half (r : rpart) (ns jH : Z) : bool :=
  (jH <? nsMaxH r - 1) || (jH =? ns - 2).

(** vmec_adjust_num_threads, common/util/util.cc:318-336.
    Simplification: the OpenMP runtime calls are left out. *)
Definition vmec_adjust_num_threads (max_threads n : Z) : Z :=
  Z.min max_threads (Z.quot n 2).

(** vmec_adjust_vacuum_num_threads, common/util/util.cc:338-347. *)
Definition vmec_adjust_vacuum_num_threads (max_threads n_znt : Z) : Z :=
  Z.min max_threads n_znt.

(** The thread count used for a multigrid step and the partition of every
    thread: Vmec::InitializeRadial, vmec/vmec/vmec.cc:552-555, 591-592,
    624-627. *)
Definition radial_threads (max_threads ns : Z) (lfreeb : bool) : Z :=
  vmec_adjust_num_threads max_threads (num_surfaces_to_distribute ns lfreeb).

(** TangentialPartitioning::adjustPartitioning,
    free_boundary/tangential_partitioning/tangential_partitioning.cc:15-32. *)
Definition tangential_range (nZnT num_threads thread_id : Z) : Z * Z :=
  let work_per_CPU := Z.quot nZnT num_threads in
  let work_remainder := Z.rem nZnT num_threads in
  let ztMin := thread_id * work_per_CPU in
  let ztMax := (thread_id + 1) * work_per_CPU in
  if thread_id <? work_remainder
  then (ztMin + thread_id, ztMax + (thread_id + 1))
  else (ztMin + work_remainder, ztMax + work_remainder).

(** Mode range of one thread in IdealMhdModel::applyRZPreconditioner,
    vmec/ideal_mhd_model/ideal_mhd_model.cc:3108-3122. *)
Definition mode_range (mnsize num_threads thread_id : Z) : Z * Z :=
  let mnstep := Z.quot mnsize num_threads in
  let remainder := Z.rem mnsize num_threads in
  let mnmin := thread_id * mnstep in
  let mnmax := mnmin + mnstep in
  if thread_id <? remainder
  then (mnmin + thread_id, mnmax + (thread_id + 1))
  else (mnmin + remainder, mnmax + remainder).
