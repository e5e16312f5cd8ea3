(** Checking the FFT routines by symbolic execution, and what a passed check means. *)
From Coq Require Import ZArith List Bool Reals Lia Lra.
From Verif Require Import Base BaseLemmas SumLemmas FluxProofs FftSpec FftLang FftBall FftSim FftCodSpec.
Import ListNotations.
Open Scope Z_scope.

Definition mem_Z (a : Z) (l : list Z) : bool := existsb (Z.eqb a) l.
Definition empty_a : ast := {| a_iv := fun _ => None; a_dv := fun _ => None; a_mem := fun _ _ => None |}.
Definition init_a (cd : codelet) : option ast :=
  aexec (fun _ => 0) (lens cd 0 0) (fun a => 2 <=? a) (cd_n cd) (trig_table (cd_n cd)) (cd_init cd) empty_a.
Definition b_str (inv : bool) (N a : Z) : Z := if a =? 0 then read_len inv N else if a =? 1 then write_len inv N else 0.
Definition b_wr (cd : codelet) (a : Z) : bool := (a =? 1) || ((2 <=? a) && mem_Z a (cd_local cd)).
Definition body_start (inv : bool) (cd : codelet) (s0 : ast) : ast :=
  {| a_iv := upd (fun _ => None) 0 (Some (1, 0)); a_dv := fun _ => None;
     a_mem := fun a k => if a =? 0 then (if inside (read_len inv (cd_n cd)) k then Some ((0, 0), funit (Z.to_nat k)) else None)
       else if (2 <=? a) && negb (mem_Z a (cd_local cd)) then a_mem s0 a k else None |}.
Definition body_a (inv : bool) (cd : codelet) (s0 : ast) : option ast :=
  let N := cd_n cd in
  aexec (b_str inv N) (lens cd (read_len inv N) (write_len inv N)) (b_wr cd) N (trig_table N) (cd_body cd) (body_start inv cd s0).

(** The exact coefficients of output number [w] ... *)
Definition rcoef (inv : bool) (N w b : Z) : R :=
  if inv then
    let j := b / 2 in
    if b mod 2 =? 0 then (if alone N j then cos (turn N j w) else 2 * cos (turn N j w))%R
    else (if alone N j then 0 else -2 * sin (turn N j w))%R
  else
    let j := w / 2 in
    let sc := if (j =? 0)%Z then 1%R else sqrt 2 in
    if (w mod 2 =? 0)%Z then (sc * cos (turn N j b))%R else (- (sc * sin (turn N j b)))%R.
Fixpoint near (tol : Z) (l ex : list ball) : bool :=
  match l, ex with
  | [], [] => true
  | [], e :: ex' => (Z.abs (fst e) + snd e <=? tol) && near tol [] ex'
  | _, [] => false
  | b :: l', e :: ex' => (Z.abs (fst b - fst e) + snd b + snd e <=? tol) && near tol l' ex'
  end.
(** ... and their enclosures. *)
Definition bturn (N : Z) (tt : list (ball * ball)) (j k : Z) (sel : ball * ball -> ball) : ball := sel (nth (Z.to_nat ((j * k) mod N)) tt ((0, 0), (0, 0))).
Definition bcoef (inv : bool) (N : Z) (tt : list (ball * ball)) (w b : Z) : ball :=
  if inv then
    let j := b / 2 in
    if b mod 2 =? 0 then (if alone N j then bturn N tt j w fst else bmul (blit 2 1) (bturn N tt j w fst))
    else (if alone N j then (0, 0) else bmul (blit (-2) 1) (bturn N tt j w snd))
  else
    let j := w / 2 in
    let sc := if j =? 0 then blit 1 1 else bsqrt2 in
    if w mod 2 =? 0 then bmul sc (bturn N tt j b fst) else bneg (bmul sc (bturn N tt j b snd)).
Definition good_out (tol : Z) (inv : bool) (N : Z) (tt : list (ball * ball)) (s1 : ast) (w : Z) : bool :=
  match a_mem s1 1 w with
  | Some f => bzero (fst f) && near tol (snd f) (map (bcoef inv N tt w) (zrange 0 (read_len inv N)))
  | None => false
  end.
Definition check (tol : Z) (inv : bool) (cd : codelet) : bool :=
  (8 <=? cd_n cd) && (cd_n cd mod 2 =? 0) &&
  match init_a cd with
  | Some s0 => match body_a inv cd s0 with
    | Some s1 => let tt := trig_table (cd_n cd) in forallb (good_out tol inv (cd_n cd) tt s1) (zrange 0 (write_len inv (cd_n cd)))
    | None => false end
  | None => false
  end.
