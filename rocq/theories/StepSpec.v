(** What the state vector of the iteration should do, stated surface by
    surface and without threads. *)
From Coq Require Import ZArith List Bool.
From Verif Require Import Base Num.
Import ListNotations.
Open Scope Z_scope.

Section StepSpec.
  Context {K : num}.

  (** Position, velocity and last saved position of the coefficient of set [q],
      surface [j], mode [mn]. *)
  Record gstate := mk_gstate {
    gx : Z -> Z -> Z -> K;
    gv : Z -> Z -> Z -> K;
    gb : Z -> Z -> Z -> K
  }.

  Inductive gevent :=
  | GStep (fac b1 dt : K) (F : Z -> Z -> Z -> K)
  | GSave
  | GRestore.

  Definition new_v (fac b1 dt v f : K) : K := nmul fac (nadd (nmul b1 v) (nmul dt f)).

  Definition gdo (e : gevent) (g : gstate) : gstate :=
    match e with
    | GStep fac b1 dt F =>
        mk_gstate (fun q j mn => nadd (gx g q j mn) (nmul dt (new_v fac b1 dt (gv g q j mn) (F q j mn))))
                  (fun q j mn => new_v fac b1 dt (gv g q j mn) (F q j mn))
                  (gb g)
    | GSave => mk_gstate (gx g) (gv g) (gx g)
    | GRestore => mk_gstate (gb g) (fun _ _ _ => nZ 0) (gb g)
    end.

  Definition grun (l : list gevent) (g : gstate) : gstate := fold_left (fun g e => gdo e g) l g.
End StepSpec.
