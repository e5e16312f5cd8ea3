(** Symbolic execution of the FFT routines, and its soundness: integers are affine
    in the number of the transform, doubles are affine in the inputs of that
    transform with enclosed coefficients. *)
From Coq Require Import ZArith List Bool Reals Lia Lra.
From Verif Require Import Base BaseLemmas FftLang FftBall.
Import ListNotations.
Open Scope Z_scope.

(** omega64.h agrees with cos (PI a) up to 1e-20. *)
Lemma cos_lip x y : (Rabs (cos x - cos y) <= Rabs (x - y))%R.
Proof.
  assert (W : forall a b, (a < b)%R -> (Rabs (cos b - cos a) <= b - a)%R).
  { intros a b H. destruct (MVT_cor2 cos (fun t => - sin t)%R a b H) as (c & E & _); [intros; apply derivable_pt_lim_cos|].
    rewrite E, Rabs_mult, Rabs_Ropp, (Rabs_pos_eq (b - a)) by lra. rewrite <- (Rmult_1_l (b - a)) at 2.
    apply Rmult_le_compat_r; [lra|]. apply Rabs_le. pose proof (SIN_bound c). lra. }
  destruct (Rtotal_order x y) as [H|[->|H]].
  - rewrite (Rabs_minus_sym (cos x)), (Rabs_minus_sym x), (Rabs_pos_eq (y - x)) by lra. apply W. exact H.
  - rewrite !Rminus_diag_eq by reflexivity. rewrite Rabs_R0. lra.
  - rewrite (Rabs_pos_eq (x - y)) by lra. apply W. lra.
Qed.
Definition slack : R := (1 / 100000000000000000000)%R.
Lemma unit_val : IZR unit_ = 1208925819614629174706176%R.
Proof. apply f_equal. vm_compute. reflexivity. Qed.
Lemma cPI_close : (Rabs (cPI - PI) <= slack)%R.
Proof.
  assert (H : inb (3797952473636338580788000, 598) PI).
  { replace (3797952473636338580788000, 598) with bPI by (vm_compute; reflexivity). exact inb_PI. }
  unfold inb in H. cbn [fst snd] in H. rewrite unit_val in H. unfold cPI, slack.
  apply Rabs_le. unfold Rabs in H. destruct (Rcase_abs _) in H; split; lra.
Qed.
Lemma q_close : (Rabs (IZR 70710678118654752440 / IZR 100000000000000000000 - cos (PI / 4)) <= slack)%R.
Proof.
  assert (H : inb bsqrt2 (sqrt 2)) by exact inb_sqrt2.
  replace bsqrt2 with (1709679290002018430137083, 1) in H by (vm_compute; reflexivity).
  unfold inb in H. cbn [fst snd] in H. rewrite unit_val in H. unfold slack. rewrite cos_PI4.
  assert (E : (1 / sqrt 2 = sqrt 2 / 2)%R).
  { pose proof (sqrt_sqrt 2 ltac:(lra)). pose proof (sqrt_lt_R0 2 ltac:(lra)). field_simplify_eq; lra. }
  rewrite E. apply Rabs_le. unfold Rabs in H. destruct (Rcase_abs _) in H; split; lra.
Qed.
Lemma cos_turns x k : cos (x + 2 * PI * IZR k) = cos x.
Proof.
  destruct k as [|p|p].
  - f_equal. ring.
  - replace (x + 2 * PI * IZR (Z.pos p))%R with (x + 2 * INR (Pos.to_nat p) * PI)%R by (rewrite INR_IZR_INZ, positive_nat_Z; ring). apply cos_period.
  - rewrite <- (cos_period (x + 2 * PI * IZR (Z.neg p)) (Pos.to_nat p)). f_equal.
    rewrite INR_IZR_INZ, positive_nat_Z. change (Z.neg p) with (- Z.pos p)%Z. rewrite opp_IZR. ring.
Qed.
Lemma spiral_ok a : (Rabs (spiral_cospi a - cos (PI * a)) <= slack)%R.
Proof.
  assert (E0 : cos (PI * a) = cos (PI * reduce2 a)).
  { unfold reduce2. rewrite <- (cos_turns (PI * (a - 2 * IZR (Int_part (a / 2)))) (Int_part (a / 2))). f_equal. ring. }
  assert (R0 : (0 <= reduce2 a < 2)%R).
  { unfold reduce2. pose proof (base_Int_part (a / 2)). lra. }
  rewrite E0. unfold spiral_cospi. cbv zeta. generalize dependent (reduce2 a). intros b _ Hb. clear a.
  pose proof cPI_close as CP. pose proof q_close as QC.
  assert (S0 : (0 <= slack)%R) by (unfold slack; lra).
  assert (K : forall c, (0 <= c < 1)%R -> forall sg : R, (sg = 1 \/ sg = -1)%R ->
    (Rabs ((if Req_EM_T c 0 then sg else if Req_EM_T c (1 / 4) then sg * (IZR 70710678118654752440 / IZR 100000000000000000000)
      else if Req_EM_T c (1 / 2) then 0 else if Rlt_dec (1 / 2) c then - sg * sin (cPI * (c - 1 / 2)) else sg * cos (cPI * c)) - sg * cos (PI * c)) <= slack)%R).
  { intros c Hc sg Hs.
    assert (SG : forall u v, (Rabs (u - v) <= slack -> Rabs (sg * u - sg * v) <= slack)%R).
    { intros u v H. replace (sg * u - sg * v)%R with (sg * (u - v))%R by ring. rewrite Rabs_mult.
      replace (Rabs sg) with 1%R by (destruct Hs as [->| ->]; rewrite ?Rabs_Ropp; [symmetry; apply Rabs_R1|unfold Rabs; destruct (Rcase_abs _); lra]). lra. }
    assert (LP : forall u, (0 <= u <= 1 -> Rabs (cPI * u - PI * u) <= slack)%R).
    { intros u Hu. replace (cPI * u - PI * u)%R with ((cPI - PI) * u)%R by ring. rewrite Rabs_mult, (Rabs_pos_eq u) by lra.
      pose proof (Rabs_pos (cPI - PI)). nra. }
    destruct (Req_EM_T c 0) as [->|N0].
    { rewrite Rmult_0_r, cos_0. rewrite <- (Rmult_1_r sg) at 1. apply SG. rewrite Rminus_diag_eq by reflexivity. rewrite Rabs_R0. exact S0. }
    destruct (Req_EM_T c (1 / 4)) as [->|N1].
    { apply SG. replace (PI * (1 / 4))%R with (PI / 4)%R by field. exact QC. }
    destruct (Req_EM_T c (1 / 2)) as [->|N2].
    { replace (PI * (1 / 2))%R with (PI / 2)%R by field. rewrite cos_PI2, Rmult_0_r, Rminus_0_r, Rabs_R0. exact S0. }
    destruct (Rlt_dec (1 / 2) c) as [L|L].
    - replace (- sg * sin (cPI * (c - 1 / 2)))%R with (sg * cos (PI / 2 + cPI * (c - 1 / 2)))%R by (rewrite sin_cos; ring).
      apply SG. eapply Rle_trans; [apply cos_lip|].
      replace (PI / 2 + cPI * (c - 1 / 2) - PI * c)%R with (cPI * (c - 1 / 2) - PI * (c - 1 / 2))%R by field. apply LP. lra.
    - apply SG. eapply Rle_trans; [apply cos_lip|]. apply LP. lra. }
  destruct (Rle_dec 1 b) as [L|L].
  - replace (cos (PI * b)) with (-1 * cos (PI * (b - 1)))%R; [apply K; [lra|right; reflexivity]|].
    replace (PI * b)%R with (PI * (b - 1) + PI)%R by ring. rewrite neg_cos. ring.
  - replace (cos (PI * b)) with (1 * cos (PI * b))%R by ring. apply K; [lra|left; reflexivity].
Qed.
Lemma spiral_sin_ok a : (Rabs (spiral_sinpi a - sin (PI * a)) <= slack)%R.
Proof.
  unfold spiral_sinpi. replace (sin (PI * a)) with (cos (PI * (1 / 2 - a))); [apply spiral_ok|].
  rewrite <- cos_shift. f_equal. field.
Qed.

(** Affine forms over the inputs of one transform. *)
Definition form := (ball * list ball)%type.
Fixpoint dot (l x : list R) : R := match l, x with a :: l', b :: x' => (a * b + dot l' x')%R | _, _ => 0%R end.
Definition holds (x : list R) (f : form) (r : R) : Prop :=
  exists c l, inb (fst f) c /\ Forall2 inb (snd f) l /\ r = (c + dot l x)%R.
Fixpoint ladd (a b : list ball) : list ball :=
  match a, b with [], _ => b | _, [] => a | x :: a', y :: b' => badd x y :: ladd a' b' end.
Definition fadd (f g : form) : form := (badd (fst f) (fst g), ladd (snd f) (snd g)).
Definition fneg (f : form) : form := (bneg (fst f), map bneg (snd f)).
Definition fscale (b : ball) (f : form) : form := (bmul b (fst f), map (bmul b) (snd f)).
Definition fconst (b : ball) : form := (b, []).
Definition fmul (f g : form) : option form :=
  match snd f, snd g with
  | [], _ => Some (fscale (fst f) g)
  | _, [] => Some (fscale (fst g) f)
  | _, _ => None
  end.
Fixpoint funit (n : nat) : list ball := match n with O => [(unit_, 0)] | S m => (0, 0) :: funit m end.

Lemma holds_add x f g r q : holds x f r -> holds x g q -> holds x (fadd f g) (r + q).
Proof.
  intros (c & l & C & L & ->) (d & m & D & M & ->). unfold fadd.
  assert (K : exists n, Forall2 inb (ladd (snd f) (snd g)) n /\ dot n x = (dot l x + dot m x)%R).
  { clear - L M. revert x m M. generalize (snd g). induction L as [|a u ll l' A HL IH]; intros g' x m M.
    - exists m. split; [exact M|]. cbn. ring.
    - destruct M as [|b v mm m' B HM].
      + cbn [ladd]. exists (u :: l'). split; [constructor; assumption|]. cbn. destruct x; ring.
      + cbn [ladd]. destruct (IH mm (tl x) m' HM) as (n & F & E). exists ((u + v)%R :: n). split; [constructor; [apply inb_add; assumption|exact F]|].
        destruct x as [|x0 x]; cbn in *; [ring|]. rewrite E. ring. }
  destruct K as (n & F & E). exists (c + d)%R, n. split; [apply inb_add; assumption|]. split; [exact F|]. rewrite E. ring.
Qed.
Lemma holds_neg x f r : holds x f r -> holds x (fneg f) (- r).
Proof.
  intros (c & l & C & L & ->). exists (- c)%R, (map Ropp l). split; [apply inb_neg; exact C|]. split.
  - cbn. clear - L. induction L; constructor; [apply inb_neg; assumption|assumption].
  - assert (E : forall m y, dot (map Ropp m) y = (- dot m y)%R) by (induction m as [|a m IH]; intros [|y0 y]; cbn; rewrite ?IH; ring).
    rewrite E. ring.
Qed.
Lemma holds_scale x b v f r : inb b v -> holds x f r -> holds x (fscale b f) (v * r).
Proof.
  intros B (c & l & C & L & ->). exists (v * c)%R, (map (Rmult v) l). split; [apply inb_mul; assumption|]. split.
  - cbn. clear - L B. induction L; constructor; [apply inb_mul; assumption|assumption].
  - assert (E : forall m y, dot (map (Rmult v) m) y = (v * dot m y)%R) by (induction m as [|a m IH]; intros [|y0 y]; cbn; rewrite ?IH; ring).
    rewrite E. ring.
Qed.
Lemma holds_mul x f g h r q : holds x f r -> holds x g q -> fmul f g = Some h -> holds x h (r * q).
Proof.
  intros F G E. unfold fmul in E.
  destruct f as [fc fl], g as [gc gl]. cbn [fst snd] in E. destruct fl as [|f0 fl].
  - inversion E. apply holds_scale; [|exact G]. destruct F as (c & l & C & L & ->). cbn in C, L. inversion L. cbn. rewrite Rplus_0_r. exact C.
  - destruct gl as [|g0 gl]; [|discriminate]. inversion E. rewrite Rmult_comm. apply holds_scale; [|exact F].
    destruct G as (c & l & C & L & ->). cbn in C, L. inversion L. cbn. rewrite Rplus_0_r. exact C.
Qed.
Lemma holds_const x b r : inb b r -> holds x (fconst b) r.
Proof. intros H. exists r, []. split; [exact H|]. split; [constructor|]. cbn. ring. Qed.
Lemma inb_exact z r : (r * IZR unit_ = IZR z)%R -> inb (z, 0) r.
Proof. intros H. unfold inb. cbn [fst snd]. rewrite H, Rminus_diag_eq by reflexivity. rewrite Rabs_R0. lra. Qed.
Lemma holds_unit x n : (n < length x)%nat -> holds x ((0, 0), funit n) (nth n x 0%R).
Proof.
  intros H.
  assert (K : exists l, Forall2 inb (funit n) l /\ dot l x = nth n x 0%R).
  { revert x H. induction n as [|n IH]; intros [|x0 x] H; cbn in H; try lia.
    - exists [1%R]. split; [constructor; [apply inb_exact; ring|constructor]|]. cbn. ring.
    - destruct (IH x ltac:(lia)) as (l & F & E). exists (0%R :: l). split; [constructor; [apply inb_exact; ring|exact F]|]. cbn. rewrite E. ring. }
  destruct K as (l & F & E). exists 0%R, l. split; [apply inb_exact; ring|]. split; [exact F|]. rewrite E. ring.
Qed.

(** Symbolic states and execution. *)
Record ast := { a_iv : Z -> option (Z * Z); a_dv : Z -> option form; a_mem : Z -> Z -> option form }.
Definition aset_iv (st : ast) v x := {| a_iv := upd (a_iv st) v x; a_dv := a_dv st; a_mem := a_mem st |}.
Definition aset_dv (st : ast) v x := {| a_iv := a_iv st; a_dv := upd (a_dv st) v x; a_mem := a_mem st |}.
Definition aset_mem (st : ast) a k x := {| a_iv := a_iv st; a_dv := a_dv st; a_mem := upd (a_mem st) a (upd (a_mem st a) k x) |}.

Section Sym.
(** Strides and slot lengths of the arrays, arrays that may be written, transform
    length and its table of cosines and sines. *)
Variable str : Z -> Z.
Variable alen : Z -> Z.
Variable wr : Z -> bool.
Variable N : Z.
Variable tt : list (ball * ball).

Definition amul (p q : Z * Z) : option (Z * Z) :=
  if fst p =? 0 then Some (snd p * fst q, snd p * snd q)
  else if fst q =? 0 then Some (fst p * snd q, snd p * snd q) else None.
Fixpoint aiev (st : ast) (e : iexp) : option (Z * Z) :=
  match e with
  | IC z => Some (0, z) | IV v => a_iv st v
  | IAdd a b => lift2 (fun p q => (fst p + fst q, snd p + snd q)) (aiev st a) (aiev st b)
  | ISub a b => lift2 (fun p q => (fst p - fst q, snd p - snd q)) (aiev st a) (aiev st b)
  | IMul a b => bind (aiev st a) (fun p => bind (aiev st b) (fun q => amul p q))
  end.
Definition addr (a : Z) (p : Z * Z) : bool := (fst p =? str a) && inside (alen a) (snd p).
Definition atrig (p : Z * Z) (d : Z) (sel : ball * ball -> ball) : option form :=
  if (fst p =? 0) && (d =? N) && (0 <=? snd p) && (snd p mod 2 =? 0)
  then Some (fconst (bwiden (sel (nth (Z.to_nat ((snd p / 2) mod N)) tt ((0, 0), (0, 0)))) 100000)) else None.
Fixpoint adev (st : ast) (e : dexp) : option form :=
  match e with
  | DC n d => if 0 <? d then Some (fconst (blit n d)) else None
  | DV v => a_dv st v
  | DLd a i => bind (aiev st i) (fun p => if addr a p then a_mem st a (snd p) else None)
  | DTab l i => bind (aiev st i) (fun p => if (fst p =? 0) && inside (Z.of_nat (length l)) (snd p)
      then let '(n, d) := nth (Z.to_nat (snd p)) l (0, 1) in if 0 <? d then Some (fconst (blit n d)) else None else None)
  | DAdd x y => lift2 fadd (adev st x) (adev st y)
  | DSub x y => lift2 (fun f g => fadd f (fneg g)) (adev st x) (adev st y)
  | DMul x y => bind (adev st x) (fun f => bind (adev st y) (fun g => fmul f g))
  | DNeg x => bind (adev st x) (fun f => Some (fneg f))
  | DCospi i d => bind (aiev st i) (fun p => atrig p d fst)
  | DSinpi i d => bind (aiev st i) (fun p => atrig p d snd)
  end.
Fixpoint aexec (s : stmt) (st : ast) : option ast :=
  match s with
  | SSkip => Some st
  | SSeq s1 s2 => bind (aexec s1 st) (aexec s2)
  | SUndefI l => Some (fold_left (fun st v => aset_iv st v None) l st)
  | SUndefD l => Some (fold_left (fun st v => aset_dv st v None) l st)
  | SI v e => bind (aiev st e) (fun k => Some (aset_iv st v (Some k)))
  | SD v e => bind (adev st e) (fun r => Some (aset_dv st v (Some r)))
  | ST a i e => bind (aiev st i) (fun p => bind (adev st e) (fun r =>
      if wr a && addr a p then Some (aset_mem st a (snd p) (Some r)) else None))
  | SFor v h b => repeat_opt (Z.to_nat (h + 1)) 0 (fun k st => aexec b (aset_iv st v (Some (0, k)))) st
  end.

(** Soundness for transform number [t] with inputs [x]. *)
Variable len : Z -> Z.
Variable t : Z.
Variable x : list R.
Hypothesis HL : forall a k, 0 <= k < alen a -> 0 <= str a * t + k < len a.
Hypothesis HN : 8 <= N.
Hypothesis HT : forall k d, 0 <= k < N ->
  inb (fst (nth (Z.to_nat k) tt d)) (cos (angle N k)) /\ inb (snd (nth (Z.to_nat k) tt d)) (sin (angle N k)).

Record sim (st : cst) (s : ast) : Prop := {
  sim_i : forall v p, a_iv s v = Some p -> c_iv st v = Some (fst p * t + snd p);
  sim_d : forall v f, a_dv s v = Some f -> exists r, c_dv st v = Some r /\ holds x f r;
  sim_m : forall a k f, a_mem s a k = Some f -> exists r, c_mem st a (str a * t + k) = Some r /\ holds x f r }.
(** Cells the transform may change. *)
Definition own (a k : Z) : Prop := wr a = true /\ 0 <= k - str a * t < alen a.
Definition frame (st st' : cst) : Prop := forall a k, ~ own a k -> c_mem st' a k = c_mem st a k.

Lemma aiev_ok st s e p : sim st s -> aiev s e = Some p -> iev st e = Some (fst p * t + snd p).
Proof.
  intros S. revert p. induction e as [z|v|a IHa b IHb|a IHa b IHb|a IHa b IHb]; intros p E; cbn [aiev iev] in *.
  - inversion E. cbn. f_equal. 
  - apply (sim_i _ _ S). exact E.
  - destruct (aiev s a) as [u|]; [|discriminate]. destruct (aiev s b) as [w|]; [|discriminate]. inversion E.
    rewrite (IHa u eq_refl), (IHb w eq_refl). cbn. f_equal. ring.
  - destruct (aiev s a) as [u|]; [|discriminate]. destruct (aiev s b) as [w|]; [|discriminate]. inversion E.
    rewrite (IHa u eq_refl), (IHb w eq_refl). cbn. f_equal. ring.
  - destruct (aiev s a) as [u|]; [|discriminate]. destruct (aiev s b) as [w|]; [|discriminate]. cbn in E. unfold amul in E.
    rewrite (IHa u eq_refl), (IHb w eq_refl). cbn. f_equal.
    destruct (Z.eqb_spec (fst u) 0) as [E0|_]; [inversion E; cbn; rewrite E0; ring|].
    destruct (Z.eqb_spec (fst w) 0) as [E0|_]; [inversion E; cbn; rewrite E0; ring|discriminate].
Qed.
Lemma inside_spec n k : inside n k = true <-> 0 <= k < n.
Proof. unfold inside. rewrite andb_true_iff, Z.leb_le, Z.ltb_lt. reflexivity. Qed.
Lemma addr_ok a p : addr a p = true -> fst p * t + snd p = str a * t + snd p /\ 0 <= snd p < alen a /\ inside (len a) (str a * t + snd p) = true.
Proof.
  unfold addr. rewrite andb_true_iff, Z.eqb_eq, inside_spec. intros [-> H]. split; [reflexivity|]. split; [exact H|].
  apply inside_spec. apply HL. exact H.
Qed.
Lemma unit_slack : (slack * IZR unit_ <= IZR 100000)%R.
Proof. rewrite unit_val. unfold slack. lra. Qed.
Lemma angle_mod n : 0 <= n -> n mod 2 = 0 ->
  cos (PI * (IZR n / IZR N)) = cos (angle N ((n / 2) mod N)) /\ sin (PI * (IZR n / IZR N)) = sin (angle N ((n / 2) mod N)).
Proof.
  intros H0 H2. assert (E : n = 2 * (n / 2)) by (pose proof (Z.div_mod n 2 ltac:(lia)); lia).
  set (h := n / 2) in *. pose proof (Z.div_mod h N ltac:(lia)) as D. assert (Q : 0 <= h / N) by (apply Z.div_pos; lia).
  assert (NZ : IZR N <> 0%R) by (apply not_0_IZR; lia).
  assert (A : (PI * (IZR n / IZR N) = angle N (h mod N) + 2 * INR (Z.to_nat (h / N)) * PI)%R).
  { unfold angle. rewrite INR_IZR_INZ, Z2Nat.id by exact Q.
    assert (HR : IZR n = (2 * (IZR N * IZR (h / N) + IZR (h mod N)))%R) by (rewrite E, D at 1; rewrite !mult_IZR, plus_IZR, mult_IZR; reflexivity).
    rewrite HR. field. exact NZ. }
  rewrite A, cos_period, sin_period. split; reflexivity.
Qed.
Lemma atrig_ok p d sel f (u : R -> R) (sp : R -> R) :
  atrig p d sel = Some f ->
  (forall k e, 0 <= k < N -> inb (sel (nth (Z.to_nat k) tt e)) (u (angle N k))) ->
  (forall n, 0 <= n -> n mod 2 = 0 -> u (PI * (IZR n / IZR N))%R = u (angle N ((n / 2) mod N))) ->
  (forall a, Rabs (sp a - u (PI * a)) <= slack)%R ->
  holds x f (sp (IZR (fst p * t + snd p) / IZR d)%R).
Proof.
  unfold atrig. intros E T M C. destruct (_ && _) eqn:B in E; [|discriminate]. inversion E. clear E.
  rewrite !andb_true_iff, !Z.eqb_eq, Z.leb_le in B. destruct B as [[[B1 B2] B3] B4].
  rewrite B1, B2. rewrite Z.mul_0_l, Z.add_0_l. apply holds_const.
  eapply inb_widen; [apply (T ((snd p / 2) mod N)); apply Z.mod_pos_bound; lia|].
  rewrite <- M by assumption. eapply Rle_trans; [apply Rmult_le_compat_r; [pose proof unit_pos; lra|apply C]|]. exact unit_slack.
Qed.
Lemma adev_ok st s e f : sim st s -> adev s e = Some f -> exists r, dev len st e = Some r /\ holds x f r.
Proof.
  intros S. revert f.
  induction e as [n d|v|a i|l i|e1 IH1 e2 IH2|e1 IH1 e2 IH2|e1 IH1 e2 IH2|e1 IH1|i d|i d]; intros f E; cbn [adev dev] in *.
  - destruct (Z.ltb_spec 0 d) as [D|]; [|discriminate]. inversion E. eexists. split; [reflexivity|]. apply holds_const, inb_lit. exact D.
  - apply (sim_d _ _ S). exact E.
  - destruct (aiev s i) as [p|] eqn:P; [|discriminate]. cbn in E. destruct (addr a p) eqn:A; [|discriminate].
    rewrite (aiev_ok _ _ _ _ S P). cbn. destruct (addr_ok _ _ A) as (-> & _ & ->). apply (sim_m _ _ S). exact E.
  - destruct (aiev s i) as [p|] eqn:P; [|discriminate]. cbn [bind] in E. rewrite (aiev_ok _ _ _ _ S P). cbn [bind].
    destruct (_ && _) eqn:B in E; [|discriminate]. rewrite andb_true_iff, Z.eqb_eq in B. destruct B as [B1 B2].
    rewrite B1, Z.mul_0_l, Z.add_0_l, B2. destruct (nth (Z.to_nat (snd p)) l (0, 1)) as [n d].
    destruct (Z.ltb_spec 0 d) as [D|]; [|discriminate]. inversion E. eexists. split; [reflexivity|]. apply holds_const, inb_lit. exact D.
  - destruct (adev s e1) as [g|]; [|discriminate]. destruct (adev s e2) as [h|]; [|discriminate]. inversion E.
    destruct (IH1 g eq_refl) as (r & -> & R1). destruct (IH2 h eq_refl) as (q & -> & R2). eexists. split; [reflexivity|]. apply holds_add; assumption.
  - destruct (adev s e1) as [g|]; [|discriminate]. destruct (adev s e2) as [h|]; [|discriminate]. inversion E.
    destruct (IH1 g eq_refl) as (r & -> & R1). destruct (IH2 h eq_refl) as (q & -> & R2). eexists. split; [reflexivity|].
    apply holds_add; [exact R1|apply holds_neg; exact R2].
  - destruct (adev s e1) as [g|]; [|discriminate]. destruct (adev s e2) as [h|]; [|discriminate].
    destruct (IH1 g eq_refl) as (r & -> & R1). destruct (IH2 h eq_refl) as (q & -> & R2). eexists. split; [reflexivity|].
    eapply holds_mul; eassumption.
  - destruct (adev s e1) as [g|]; [|discriminate]. inversion E. destruct (IH1 g eq_refl) as (r & -> & R1).
    eexists. split; [reflexivity|]. apply holds_neg. exact R1.
  - destruct (aiev s i) as [p|] eqn:P; [|discriminate]. cbn [bind] in E. rewrite (aiev_ok _ _ _ _ S P). cbn [bind].
    eexists. split; [reflexivity|]. apply (atrig_ok p d fst f cos spiral_cospi E).
    + intros k e Hk. apply HT. exact Hk.
    + intros n H0 H2. apply angle_mod; assumption.
    + apply spiral_ok.
  - destruct (aiev s i) as [p|] eqn:P; [|discriminate]. cbn [bind] in E. rewrite (aiev_ok _ _ _ _ S P). cbn [bind].
    eexists. split; [reflexivity|]. apply (atrig_ok p d snd f sin spiral_sinpi E).
    + intros k e Hk. apply HT. exact Hk.
    + intros n H0 H2. apply angle_mod; assumption.
    + apply spiral_sin_ok.
Qed.
Lemma upd_cases {A} (f : Z -> A) k v j : upd f k v j = if j =? k then v else f j.
Proof. destruct (Z.eqb_spec j k) as [->|H]; [apply upd_eq|apply upd_neq; exact H]. Qed.
Lemma sim_set_i st s v k c : sim st s -> (forall p, k = Some p -> c = Some (fst p * t + snd p)) -> sim (set_iv st v c) (aset_iv s v k).
Proof.
  intros S H. constructor; cbn [set_iv aset_iv c_iv a_iv c_dv a_dv c_mem a_mem].
  - intros w p. rewrite !upd_cases. destruct (w =? v); [apply H|apply (sim_i _ _ S)].
  - apply (sim_d _ _ S).
  - apply (sim_m _ _ S).
Qed.
Lemma sim_set_d st s v k c : sim st s -> (forall f, k = Some f -> exists r, c = Some r /\ holds x f r) -> sim (set_dv st v c) (aset_dv s v k).
Proof.
  intros S H. constructor; cbn [set_dv aset_dv c_iv a_iv c_dv a_dv c_mem a_mem].
  - apply (sim_i _ _ S).
  - intros w f. rewrite !upd_cases. destruct (w =? v); [apply H|apply (sim_d _ _ S)].
  - apply (sim_m _ _ S).
Qed.
Lemma sim_set_m st s a k f r : sim st s -> holds x f r -> sim (set_mem st a (str a * t + k) (Some r)) (aset_mem s a k (Some f)).
Proof.
  intros S H. constructor; cbn [set_mem aset_mem c_iv a_iv c_dv a_dv c_mem a_mem].
  - apply (sim_i _ _ S).
  - apply (sim_d _ _ S).
  - intros b j g. rewrite !(upd_cases _ a). destruct (Z.eqb_spec b a) as [->|N0]; [|apply (sim_m _ _ S)].
    rewrite !upd_cases. destruct (Z.eqb_spec j k) as [->|N1].
    + intros E. inversion E. subst g. rewrite Z.eqb_refl. exists r. split; [reflexivity|exact H].
    + intros E. destruct (Z.eqb_spec (str a * t + j) (str a * t + k)); [lia|]. apply (sim_m _ _ S). exact E.
Qed.
Lemma frame_refl st : frame st st. Proof. intros a k _. reflexivity. Qed.
Lemma frame_trans s1 s2 s3 : frame s1 s2 -> frame s2 s3 -> frame s1 s3.
Proof. intros A B a k H. rewrite (B a k H). apply A. exact H. Qed.

Lemma aexec_ok prog : forall st s s', sim st s -> aexec prog s = Some s' ->
  exists st', exec len prog st = Some st' /\ sim st' s' /\ frame st st'.
Proof.
  induction prog as [|s1 IH1 s2 IH2|l|l|v e|v e|a i e|v h b IH]; intros st s s' S E; cbn [aexec exec] in *.
  - inversion E. subst. exists st. split; [reflexivity|]. split; [exact S|apply frame_refl].
  - destruct (aexec s1 s) as [sm|] eqn:E1; [|discriminate]. destruct (IH1 _ _ _ S E1) as (stm & -> & Sm & Fm).
    destruct (IH2 _ _ _ Sm E) as (st' & X & S' & F'). exists st'. cbn. split; [exact X|]. split; [exact S'|eapply frame_trans; eassumption].
  - inversion E. clear E. eexists. split; [reflexivity|].
    revert st s S H0. induction l as [|v l IH]; intros st s S H0; cbn [fold_left].
    + split; [subst; exact S|apply frame_refl].
    + cbn [fold_left] in H0. destruct (IH (set_iv st v None) (aset_iv s v None)) as [A B].
      * apply sim_set_i; [exact S|]. intros p; discriminate.
      * exact H0.
      * rewrite H0. cbn [fold_left]. rewrite H0 in A. split; [exact A|]. exact B.
  - inversion E. clear E. eexists. split; [reflexivity|].
    revert st s S H0. induction l as [|v l IH]; intros st s S H0; cbn [fold_left].
    + split; [subst; exact S|apply frame_refl].
    + cbn [fold_left] in H0. destruct (IH (set_dv st v None) (aset_dv s v None)) as [A B].
      * apply sim_set_d; [exact S|]. intros p; discriminate.
      * exact H0.
      * rewrite H0. cbn [fold_left]. rewrite H0 in A. split; [exact A|]. exact B.
  - destruct (aiev s e) as [p|] eqn:P; [|discriminate]. inversion E. rewrite (aiev_ok _ _ _ _ S P). eexists. split; [reflexivity|].
    split; [|intros a k _; reflexivity]. apply sim_set_i; [exact S|]. intros q Q. inversion Q. reflexivity.
  - destruct (adev s e) as [f|] eqn:P; [|discriminate]. inversion E. destruct (adev_ok _ _ _ _ S P) as (r & -> & H). eexists. split; [reflexivity|].
    split; [|intros a k _; reflexivity]. apply sim_set_d; [exact S|]. intros g G. inversion G. subst. exists r. split; [reflexivity|exact H].
  - destruct (aiev s i) as [p|] eqn:P; [|discriminate]. cbn [bind] in E. destruct (adev s e) as [f|] eqn:D; [|discriminate]. cbn [bind] in E.
    destruct (wr a && addr a p) eqn:B; [|discriminate]. inversion E. apply andb_true_iff in B. destruct B as [W A].
    rewrite (aiev_ok _ _ _ _ S P). destruct (adev_ok _ _ _ _ S D) as (r & -> & H). destruct (addr_ok _ _ A) as (-> & K & J). cbn [bind]. rewrite J.
    eexists. split; [reflexivity|]. split; [apply sim_set_m; assumption|].
    intros b k NO. cbn. rewrite (upd_cases _ a). destruct (Z.eqb_spec b a) as [->|_]; [|reflexivity].
    rewrite upd_cases. destruct (Z.eqb_spec k (str a * t + snd p)) as [->|_]; [|reflexivity].
    exfalso. apply NO. split; [exact W|lia].
  - assert (K : forall n k st s, sim st s -> repeat_opt n k (fun k st => aexec b (aset_iv st v (Some (0, k)))) s = Some s' ->
      exists st', repeat_opt n k (fun k st => exec len b (set_iv st v (Some k))) st = Some st' /\ sim st' s' /\ frame st st').
    { clear st s S E. induction n as [|n IHn]; intros k st s S E; cbn [repeat_opt] in *.
      - inversion E. subst. exists st. split; [reflexivity|]. split; [exact S|apply frame_refl].
      - destruct (aexec b (aset_iv s v (Some (0, k)))) as [sm|] eqn:E1; [|discriminate].
        assert (S1 : sim (set_iv st v (Some k)) (aset_iv s v (Some (0, k)))).
        { apply sim_set_i; [exact S|]. intros p Q. inversion Q. reflexivity. }
        destruct (IH _ _ _ S1 E1) as (stm & -> & Sm & Fm).
        destruct (IHn _ _ _ Sm E) as (st' & X & S' & F'). exists st'. cbn. split; [exact X|]. split; [exact S'|].
        eapply frame_trans; [|exact F']. exact Fm. }
    apply (K _ _ _ _ S E).
Qed.
End Sym.
