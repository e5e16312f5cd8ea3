(** Coil sets, their magnetic field, and the response table computed from them.
    common/makegrid_lib/makegrid_lib.{h,cc},
    common/magnetic_configuration_lib/magnetic_configuration_lib.cc,
    common/magnetic_field_provider/magnetic_field_provider_lib.cc.

    [cos_ sin_ pi_ hypot3 mu0]: libm and constants.  [carrier_field]: the field of
    a circular or polygon filament, computed by the external library ABSCAB. *)
From Coq Require Import ZArith List Bool.
From Verif Require Import Base Num MgridModel.
Import ListNotations.
Open Scope Z_scope.

Record libm (K : num) := mkLibm { cos_ : K -> K; sin_ : K -> K; pi_ : K; hypot3 : K -> K -> K -> K; mu0 : K }.
Arguments cos_ {K}. Arguments sin_ {K}. Arguments pi_ {K}. Arguments hypot3 {K}. Arguments mu0 {K}.

Section Makegrid.
  Context {K : num} (M : libm K).

  Definition vec : Type := K * K * K.
  Definition vx (v : vec) : K := fst (fst v).
  Definition vy (v : vec) : K := snd (fst v).
  Definition vz (v : vec) : K := snd v.

  (** MakegridParameters, makegrid_lib.h:22-52. *)
  Record params := mkParams {
    normalize_by_currents : bool; assume_symmetry : bool; nfp : Z;
    p_minr : K; p_maxr : K; num_r : Z; p_minz : K; p_maxz : K; num_z : Z; num_phi : Z }.

  (** IsValidMakegridParameters, makegrid_lib.cc:41-91. *)
  Definition valid_params (p : params) : bool :=
    negb (nfp p <=? 0) && negb (nle (p_maxr p) (p_minr p)) && negb (num_r p <? 2)
    && negb (nle (p_maxz p) (p_minz p)) && negb (num_z p <? 2) && negb (num_phi p <? 1).

  (** Number of planes evaluated, 307-316; [None]: error status. *)
  Definition num_phi_effective (p : params) : option Z :=
    if assume_symmetry p then
      if negb (Z.rem (num_phi p) 2 =? 0) then None else Some (Z.quot (num_phi p) 2 + 1)
    else Some (num_phi p).

  Definition delta_phi (p : params) : K := ndiv (nmul (nZ 2) (pi_ M)) (nZ (nfp p * num_phi p)).

  (** MakeCylindricalGrid, makegrid_lib.cc:282-346: number of columns, columns. *)
  Definition MakeCylindricalGrid (p : params) : option (Z * (Z -> vec)) :=
    if negb (valid_params p) then None else
    let delta_r := delta (p_minr p) (p_maxr p) (num_r p) in
    let delta_z := delta (p_minz p) (p_maxz p) (num_z p) in
    match num_phi_effective p with
    | None => None
    | Some npe =>
        Some (npe * num_z p * num_r p,
          for_up 0 npe (fun phi_index g =>
            let phi := nmul (nZ phi_index) (delta_phi p) in
            let cos_phi := cos_ M phi in
            let sin_phi := sin_ M phi in
            for_up 0 (num_z p) (fun z_index g =>
              let z := nadd (p_minz p) (nmul (nZ z_index) delta_z) in
              for_up 0 (num_r p) (fun r_index g =>
                let r := nadd (p_minr p) (nmul (nZ r_index) delta_r) in
                upd g ((phi_index * num_z p + z_index) * num_r p + r_index) (nmul r cos_phi, nmul r sin_phi, z)) g) g)
            (fun _ => (nZ 0, nZ 0, nZ 0)))
    end.

  (** An OpenMP [parallel for]: the iterations in some order. *)
  Definition par_for {S} (order : list Z) (body : Z -> S -> S) (s : S) : S := fold_left (fun s j => body j s) order s.

  Definition row3 : Type := (Z -> K) * (Z -> K) * (Z -> K).

  (** CartesianToCylindricalField, makegrid_lib.cc:350-413.  [order1], [order2]:
      the orders in which the two parallel loops happen to run.  [-b] is
      [0 - b] here (they differ in the sign of a zero only). *)
  Definition CartesianToCylindricalField (cos_phi sin_phi : Z -> K) (num_phi num_z num_r n_eval : Z)
      (B : Z -> vec) (order1 order2 : list Z) (o : row3) : row3 :=
    let total := num_phi * num_r * num_z in
    let o := par_for order1 (fun l o => match o with (br, bp, bz) =>
        let b_x := vx (B l) in
        let b_y := vy (B l) in
        let index_phi := Z.quot l (num_z * num_r) in
        (upd br l (nadd (nmul b_x (cos_phi index_phi)) (nmul b_y (sin_phi index_phi))),
         upd bp l (nsub (nmul b_y (cos_phi index_phi)) (nmul b_x (sin_phi index_phi))), bz) end) o in
    let o := match o with (br, bp, bz) => (br, bp, for_up 0 n_eval (fun l bz => upd bz l (vz (B l))) bz) end in
    if n_eval <? total then
      par_for order2 (fun l o => match o with (br, bp, bz) =>
        let idx_phi := Z.quot l (num_z * num_r) in
        let idx_z_r := Z.rem l (num_z * num_r) in
        let idx_z := Z.quot idx_z_r num_r in
        let idx_r := Z.rem idx_z_r num_r in
        let idx_phi_reversed := num_phi - idx_phi in
        let idx_z_reversed := num_z - 1 - idx_z in
        let l' := (idx_phi_reversed * num_z + idx_z_reversed) * num_r + idx_r in
        (upd br l (nsub (nZ 0) (br l')), upd bp l (bp l'), upd bz l (bz l')) end) o
    else o.

  (** *** Coil sets; magnetic_configuration.proto equivalents. *)
  Inductive carrier :=
  | Line (origin direction : vec)             (* InfiniteStraightFilament *)
  | Other (id : Z)                            (* circular or polygon filament *)
  | NotSet.
  Record coil := mkCoil { num_windings : option K; carriers : list carrier }.
  Record circuit := mkCircuit { current : option K; coils : list coil }.
  Definition config := list circuit.

  Definition vadd (a b : vec) : vec := (nadd (vx a) (vx b), nadd (vy a) (vy b), nadd (vz a) (vz b)).

  (** MagneticField for InfiniteStraightFilament at one position,
      magnetic_field_provider_lib.cc:26-148; [None]: CHECK failure. *)
  Definition line_field (origin direction : vec) (I : K) (x : vec) : option vec :=
    if neq I (nZ 0) then Some (nZ 0, nZ 0, nZ 0) else
    let scale := ndiv (nmul (mu0 M) I) (nmul (nZ 2) (pi_ M)) in
    let len := hypot3 M (vx direction) (vy direction) (vz direction) in
    if negb (nlt (nZ 0) len) then None else
    let dx := ndiv (vx direction) len in
    let dy := ndiv (vy direction) len in
    let dz := ndiv (vz direction) len in
    let ex := nsub (vx origin) (vx x) in
    let ey := nsub (vy origin) (vy x) in
    let ez := nsub (vz origin) (vz x) in
    let par := nadd (nadd (nmul ex dx) (nmul ey dy)) (nmul ez dz) in
    let px := nsub ex (nmul dx par) in
    let py := nsub ey (nmul dy par) in
    let pz := nsub ez (nmul dz par) in
    let rad := hypot3 M px py pz in
    if negb (nlt (nZ 0) rad) then None else
    let strength := ndiv scale rad in
    let rx := ndiv px rad in
    let ry := ndiv py rad in
    let rz := ndiv pz rad in
    Some (nmul (nsub (nmul ry dz) (nmul rz dy)) strength,
          nmul (nsub (nmul rz dx) (nmul rx dz)) strength,
          nmul (nsub (nmul rx dy) (nmul ry dx)) strength).

  Context (carrier_field : Z -> K -> vec -> vec).

  Definition one_carrier (c : carrier) (I : K) (x : vec) (b : vec) : option vec :=
    match c with
    | Line o d => if neq I (nZ 0) then Some b else bind (line_field o d I x) (fun v => Some (vadd b v))
    | Other id => Some (vadd b (carrier_field id I x))
    | NotSet => Some b
    end.

  (** MagneticField for MagneticConfiguration at one position,
      magnetic_field_provider_lib.cc:268-334, without the check that the
      configuration is fully populated; the evaluation points do not interact. *)
  Definition coil_field (I : K) (cl : coil) (x : vec) (b : option vec) : option vec :=
    let cur := match num_windings cl with Some w => nmul I w | None => I end in
    fold_left (fun b c => bind b (one_carrier c cur x)) (carriers cl) b.

  Definition circuit_field (ct : circuit) (x : vec) (b : option vec) : option vec :=
    match current ct with
    | None => b
    | Some cu => if neq cu (nZ 0) then b else fold_left (fun b cl => coil_field cu cl x b) (coils ct) b
    end.

  Definition config_field (cf : config) (x : vec) : option vec :=
    fold_left (fun b ct => circuit_field ct x b) cf (Some (nZ 0, nZ 0, nZ 0)).

  (** GetCircuitCurrents, magnetic_configuration_lib.cc:213-229 (unset reads 0). *)
  Definition GetCircuitCurrents (cf : config) : list K :=
    map (fun ct => match current ct with Some cu => cu | None => nZ 0 end) cf.

  (** SetCircuitCurrents, 231-254. *)
  Definition SetCircuitCurrents (I : list K) (cf : config) : option config :=
    if negb (length cf =? length I)%nat then None
    else Some (map (fun p => mkCircuit (Some (snd p)) (coils (fst p))) (combine cf I)).

  (** NumWindingsToCircuitCurrents, 256-290; [None]: reading the first coil of a
      circuit without coils. *)
  Definition windings (cl : coil) : K := match num_windings cl with Some w => w | None => nZ 0 end.
  Definition migrate_circuit (ct : circuit) : option circuit :=
    match coils ct with
    | [] => None
    | c0 :: _ =>
        let ref := windings c0 in
        Some (mkCircuit (Some (nmul (match current ct with Some cu => cu | None => nZ 0 end) ref))
                        (map (fun cl => mkCoil (Some (ndiv (windings cl) ref)) (carriers cl)) (coils ct)))
    end.
  Fixpoint NumWindingsToCircuitCurrents (cf : config) : option config :=
    match cf with
    | [] => Some []
    | ct :: r => bind (migrate_circuit ct) (fun ct' => bind (NumWindingsToCircuitCurrents r) (fun r' => Some (ct' :: r')))
    end.

  (** [currents_for_circuit], makegrid_lib.cc:503-509. *)
  Definition currents_for_circuit (p : params) (orig : list K) (i : nat) : list K :=
    map (fun j => if (j =? i)%nat then (if normalize_by_currents p then nZ 1 else nth i orig (nZ 0)) else nZ 0) (seq 0 (length orig)).

  Definition trig (p : params) (f : K -> K) : Z -> K := fun k => f (nmul (nZ k) (delta_phi p)).

  (** ComputeMagneticFieldResponseTable, makegrid_lib.cc:415-573.  [None]: error
      status or CHECK failure.  [order1], [order2]: see above, per circuit. *)
  Definition effective_configuration (p : params) (cf : config) : option config :=
    if normalize_by_currents p then NumWindingsToCircuitCurrents cf else Some cf.

  Definition opt_vec (o : option vec) : vec := match o with Some v => v | None => (nZ 0, nZ 0, nZ 0) end.
  Definition all_some (n : Z) (f : Z -> option vec) : bool :=
    forallb (fun l => match f l with Some _ => true | None => false end) (zrange 0 n).

  Definition response_row (p : params) (n_eval : Z) (grid : Z -> vec) (eff : config) (i : nat)
      (order1 order2 : list Z) : option row3 :=
    bind (SetCircuitCurrents (currents_for_circuit p (GetCircuitCurrents eff) i) eff) (fun cf =>
      let B l := config_field cf (grid l) in
      if all_some n_eval B then
        Some (CartesianToCylindricalField (trig p (cos_ M)) (trig p (sin_ M)) (num_phi p) (num_z p) (num_r p) n_eval
                (fun l => opt_vec (B l)) order1 order2 (fun _ => nZ 0, fun _ => nZ 0, fun _ => nZ 0))
      else None).

  Fixpoint all_rows (l : list (option row3)) : option (list row3) :=
    match l with
    | [] => Some []
    | r :: t => bind r (fun r => bind (all_rows t) (fun t => Some (r :: t)))
    end.

  Definition ComputeMagneticFieldResponseTable (p : params) (cf : config) (order1 order2 : nat -> list Z) : option (table K) :=
    match MakeCylindricalGrid p with
    | None => None
    | Some (n_eval, grid) =>
        bind (effective_configuration p cf) (fun eff =>
        bind (all_rows (map (fun i => response_row p n_eval grid eff i (order1 i) (order2 i)) (seq 0 (length eff)))) (fun rows =>
          let z : row3 := (fun _ => nZ 0, fun _ => nZ 0, fun _ => nZ 0) in
          let row i := nth (Z.to_nat i) rows z in
          Some (mkTable (num_r p) (p_minr p) (p_maxr p) (num_z p) (p_minz p) (p_maxz p) (num_phi p) (Z.of_nat (length rows))
                  (fun i l => fst (fst (row i)) l) (fun i l => snd (fst (row i)) l) (fun i l => snd (row i) l))))
    end.
End Makegrid.

Arguments params : clear implicits.
Arguments circuit : clear implicits.
Arguments coil : clear implicits.
Arguments carrier : clear implicits.
Arguments config : clear implicits.
Arguments vec : clear implicits.
Arguments row3 : clear implicits.
