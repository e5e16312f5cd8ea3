(** What the SIMSOPT wrapper has to run: the input file with the current degrees of
    freedom, resolution and boundary, and no guess for the axis. *)
From Coq Require Import ZArith List Bool String.
From Verif Require Import SimsModel.
Import ListNotations.
Open Scope Z_scope.

Section S.
Context {K O Q W : Type}.
Variable k0 : K.
Local Notation indata := (@indata K O).
Local Notation surface := (@surface K).
Local Notation op := (@op K O Q).

(** the current situation as the user sees it; boundary coefficients by mode (m, n) *)
Record situation := mkSit { u_mpol : Z; u_ntor : Z; u_dofs : @dofs K;
  u_rc : Z -> Z -> K; u_zs : Z -> Z -> K; u_rs : Z -> Z -> K; u_zc : Z -> Z -> K }.
Definition has_mode (mpol ntor m n : Z) : bool := (0 <=? m) && (m <=? mpol) && (Z.abs n <=? ntor).
Definition mode_of (s : surface) (c : Z -> Z -> K) (m n : Z) : K :=
  if has_mode (s_mpol s) (s_ntor s) m n then c m (n + s_ntor s) else k0.
Definition cut (mpol ntor : Z) (c : Z -> Z -> K) (m n : Z) : K := if has_mode (mpol - 1) ntor m n then c m n else k0.
Definition with_surface (u : situation) (b : surface) : situation :=
  mkSit (u_mpol u) (u_ntor u) (u_dofs u) (mode_of b (s_rc b)) (mode_of b (s_zs b)) (mode_of b (s_rs b)) (mode_of b (s_zc b)).
Definition react (o : op) (u : situation) : situation :=
  match o with
  | OpDofs x => mkSit (u_mpol u) (u_ntor u) x (u_rc u) (u_zs u) (u_rs u) (u_zc u)
  | OpSurface b | OpReplace b => with_surface u b
  | OpMpolNtor m n => mkSit m n (u_dofs u) (cut m n (u_rc u)) (cut m n (u_zs u)) (cut m n (u_rs u)) (cut m n (u_zc u))
  | _ => u
  end.
Definition at_start (vi : indata) : situation :=
  let c l := fun m n => if has_mode (i_mpol vi - 1) (i_ntor vi) m n then nth (Z.to_nat (n + i_ntor vi)) (nth (Z.to_nat m) l []) k0 else k0 in
  let z := fun _ _ : Z => k0 in
  mkSit (i_mpol vi) (i_ntor vi) (i_dofs vi) (c (i_rbc vi)) (c (i_zbs vi))
    (if i_lasym vi then c (i_rbs vi) else z) (if i_lasym vi then c (i_zbc vi) else z).
Definition situation_after (vi : indata) (l : list op) : situation := fold_left (fun u o => react o u) l (at_start vi).
(** all modes of the resolution, rows m, columns n + ntor *)
Definition grid (mpol ntor : Z) (c : Z -> Z -> K) : list (list K) :=
  map (fun m => map (fun i => c (Z.of_nat m) (Z.of_nat i - ntor)) (seq 0 (Z.to_nat (2 * ntor + 1)))) (seq 0 (Z.to_nat mpol)).
Definition want (vi : indata) (u : situation) : indata :=
  let g := grid (u_mpol u) (u_ntor u) in
  let z := repeat k0 (Z.to_nat (u_ntor u + 1)) in
  mkIn (u_mpol u) (u_ntor u) (i_lasym vi) (u_dofs u) (i_ns vi) (i_ftol vi) (i_niter vi)
    (g (u_rc u)) (g (u_zs u)) (if i_lasym vi then g (u_rs u) else i_rbs vi) (if i_lasym vi then g (u_zc u) else i_zbc vi)
    z z (if i_lasym vi then z else i_raxis_s vi) (if i_lasym vi then z else i_zaxis_c vi) (i_other vi).
(** only the last step of the multi-grid sequence *)
Definition last_only {X} (l l' : list X) : Prop := forall l0 x, l = l0 ++ [x] -> l' = [x].
(** the input file: axis arrays of the declared length *)
Definition axis_ok (vi : indata) : Prop :=
  let n := Z.to_nat (i_ntor vi + 1) in
  List.length (i_raxis_c vi) = n /\ List.length (i_zaxis_s vi) = n /\
  (i_lasym vi = true -> List.length (i_raxis_s vi) = n /\ List.length (i_zaxis_c vi) = n).
(** the conversion with another resolution: axis arrays of the new length, absent
    arrays stay absent *)
Definition resize_ok (resize : indata -> Z -> Z -> list (list K) * list (list K) * list (list K) * list (list K) * (list K * list K * list K * list K)) : Prop :=
  forall vi mpol ntor, let '(rbc, zbs, rbs, zbc, (rac, zas, ras, zac)) := resize vi mpol ntor in
    List.length rac = Z.to_nat (ntor + 1) /\ List.length zas = Z.to_nat (ntor + 1) /\
    (if i_lasym vi then List.length ras = Z.to_nat (ntor + 1) /\ List.length zac = Z.to_nat (ntor + 1)
     else rbs = i_rbs vi /\ zbc = i_zbc vi /\ ras = i_raxis_s vi /\ zac = i_zaxis_c vi).
(** operations other than a hot restart and an assignment to a field of indata *)
Definition plain (o : op) : Prop := match o with OpRun (Some _) | OpEdit _ => False | _ => True end.
(** operations that read *)
Definition reading (o : op) : Prop := match o with OpRun _ | OpAccess | OpGetInput => True | _ => False end.
End S.
