(** What is meant by interpolation on the vacuum grid, and by superposition of
    coil fields.  Independent of the code's indexing helpers. *)
From Coq Require Import ZArith Reals List.
From Verif Require Import Base Num MgridModel.
Open Scope Z_scope.

(** Positions of the grid planes: [n] equidistant points from [lo] to [hi]. *)
Definition grid_node (lo hi : R) (n i : Z) : R := (lo + (hi - lo) * (IZR i / IZR (n - 1)))%R.

(** A grid of at least 2 x 2 points with finite extent, sizes that fit an [int],
    and arrays of the size the loaders give them; exact arithmetic. *)
Definition grid_ok (g : mgrid num_R) : Prop :=
  2 <= numR g < 2 ^ 31 /\ 2 <= numZ g < 2 ^ 31 /\ 1 <= numPhi g /\
  (minR g < maxR g)%R /\ (minZ g < maxZ g)%R /\
  deltaR g = ((maxR g - minR g) / IZR (numR g - 1))%R /\
  deltaZ g = ((maxZ g - minZ g) / IZR (numZ g - 1))%R /\
  len g = numPhi g * numZ g * numR g.

(** Storage position of a grid point: phi slowest, R fastest. *)
Definition at_ (nz nr p j i : Z) : Z := p * (nz * nr) + j * nr + i.

(** Nearest point of the interval. *)
Definition nearest (lo hi x : R) : R := Rmax lo (Rmin x hi).

(** Sum over the circuits of response times current, in the order of the circuits,
    in the arithmetic of the machine. *)
Definition superposed {K : num} (ncur : Z) (response : Z -> K) (I : Z -> K) : K :=
  fold_left (fun s i => nadd s (nmul (response i) (I i))) (zrange 0 ncur) (nZ 0).
