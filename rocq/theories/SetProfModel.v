(** set_profile, src/vmecpp/__init__.py:2574-2634, and the evaluation of the
    resulting line segment profile by the solver, over any arithmetic. *)
From Coq Require Import String ZArith List Bool.
From Verif Require Import Base Num IndataModel ContModel.
Import ListNotations.
Open Scope Z_scope.

Section SetProf.
  Context {K : num}.

  (** half_grid = full_grid - 0.5 * (full_grid[1] - full_grid[0]), 2602;
      [full_grid[1]] raises IndexError on fewer than two points. *)
  Definition half_grid (full : list K) : outcome (list K) :=
    match full with
    | a :: b :: _ => Ok (map (fun x => nsub x (nmul (nfrac 1 2) (nsub b a))) full)
    | _ => Throws
    end.

  (** The knots are a Python set of floats, then np.sort (2599-2605). Built here by
      sorted insertion without duplicates; floats are the same element of a set if
      they compare equal. *)
  Fixpoint insert (x : K) (l : list K) : list K :=
    match l with
    | [] => [x]
    | a :: r => if nlt x a then x :: l else if neq x a then l else a :: insert x r
    end.
  Definition insert_all (xs l : list K) : list K := fold_left (fun acc x => insert x acc) xs l.

  (** The loop 2600-2604. *)
  Fixpoint collect (ns_array : list Z) (acc : list K) : outcome (list K) :=
    match ns_array with
    | [] => Ok acc
    | ns :: rest =>
        if ns <? 0 then Throws      (* np.linspace: ValueError for a negative number of points *)
        else
          let full := linspace ns in
          obind (half_grid full) (fun half => collect rest (insert_all half (insert_all full acc)))
    end.

  (** The profile part of the modified input, 2607-2634. [f] acts elementwise. *)
  Record py_profile := mkPy { py_type : string; py_coeffs : list K; py_knots : list K; py_values : list K }.
  Definition set_profile (field : string) (ns_array : list Z) (f : K -> K) : outcome py_profile :=
    obind (collect ns_array []) (fun knots =>
    let values := map f knots in
    if String.eqb field "pressure" then Ok (mkPy "line_segment" [] knots values)
    else if String.eqb field "iota" then Ok (mkPy "line_segment" [] knots values)
    else if String.eqb field "current" then Ok (mkPy "line_segment_i" [] knots values)
    else Throws).

  (** ** The solver's side *)
  (** std::lower_bound on the knots. *)
  Fixpoint lower_bound (l : list K) (x : K) : Z :=
    match l with [] => 0 | a :: r => if nlt a x then 1 + lower_bound r x else 0 end.

  (** evalLineSegment, radial_profiles.cc:1051-1074. *)
  Definition line_segment (knots values : list K) (x : K) : K :=
    let n := zlen knots in
    if (n <? 2) || negb (n =? zlen values) then nZ 0 else
    let it := lower_bound knots x in
    if it >=? n - 1 then znth values (n - 1) (nZ 0)
    else if it =? 0 then znth values 0 (nZ 0)
    else
      let x0 := znth knots it (nZ 0) in
      let x1 := znth knots (it + 1) (nZ 0) in
      let y0 := znth values it (nZ 0) in
      let y1 := znth values (it + 1) (nZ 0) in
      let t := ndiv (nsub x x0) (nsub x1 x0) in
      nadd (nmul (nsub (nZ 1) t) y0) (nmul t y1).

  (** torflux with aphi = {1.0} (the default), radial_profiles.cc:476-484. *)
  Definition torflux_default (x : K) : K := nmul (nadd (nmul x (nZ 0)) (nZ 1)) x.

  (** Positions of the surfaces, radial_profiles.cc:1153 and 1205. *)
  Definition half_position (ns jH : Z) : K := ndiv (nadd (nZ jH) (nfrac 1 2)) (nsub (nZ ns) (nZ 1)).
  Definition full_position (ns jF : Z) : K := ndiv (nZ jF) (nsub (nZ ns) (nZ 1)).

  (** iotaH and iotaF without flip of the poloidal angle, 1161-1162 and 1213-1214. *)
  Definition iota_half (p : py_profile) (ns jH : Z) : K :=
    line_segment (py_knots p) (py_values p) (nmin (torflux_default (half_position ns jH)) (nZ 1)).
  Definition iota_full (p : py_profile) (ns jF : Z) : K :=
    line_segment (py_knots p) (py_values p) (nmin (torflux_default (full_position ns jF)) (nZ 1)).
End SetProf.
Arguments py_profile : clear implicits.
