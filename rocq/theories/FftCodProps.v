(** Property theorems C125: the vendored FFT routines compute the discrete Fourier
    transforms that the toroidal transforms ask for, and the lookup finds the right
    one. *)
From Coq Require Import ZArith List Bool Reals Lia Lra.
From Verif Require Import Base BaseLemmas SumLemmas GeoMag FftSpec FftLang FftCodelets FftBall FftSim FftCodSpec FftCheck FftCodProofs.
Import ListNotations.
Open Scope Z_scope.

Definition eps : R := (5 / 10 ^ 16)%R.
Definition tol0 : Z := 604462909.
Lemma tol0_eps : (IZR tol0 / IZR unit_ <= eps)%R.
Proof.
  rewrite unit_val. unfold tol0, eps. rewrite <- (Rmult_1_r (IZR _ / _)), <- (Rmult_1_r (5 / _)). lra.
Qed.
Definition all_r2c := [r2c_16; r2c_20; r2c_24; r2c_28; r2c_32; r2c_36; r2c_40].
Definition all_c2r := [c2r_16; c2r_20; c2r_24; c2r_28; c2r_32; c2r_36; c2r_40].
Lemma checks_r2c : forallb (check tol0 false) all_r2c = true. Proof. vm_compute. reflexivity. Qed.
Lemma checks_c2r : forallb (check tol0 true) all_c2r = true. Proof. vm_compute. reflexivity. Qed.

(** A routine found in the library for [cnt] transforms of length [N]: its init
    function runs in every state, and afterwards every call, whatever the buffers
    and the thread-local scratch arrays hold, ends without reading an uninitialised
    cell or leaving an array, writes exactly the output buffer with the transforms
    of the input, and leaves everything ready for the next call. *)
Definition routine_ok (inv : bool) (N cnt : Z) (r : codelet * Z) : Prop :=
  let '(cd, c) := r in
  (forall st, exists st1, cd_start cd st = Some st1 /\ ready cd st1) /\
  (forall x st, ready cd st -> input_is x (cnt * read_len inv N) st ->
    exists st' y, cd_run cd c (cnt * read_len inv N) (cnt * write_len inv N) st = Some st' /\
      (forall k, 0 <= k < cnt * write_len inv N -> c_mem st' 1 k = Some (y k)) /\
      transforms eps inv N cnt x y /\
      (forall k, ~ (0 <= k < cnt * write_len inv N) -> c_mem st' 1 k = c_mem st 1 k) /\
      (forall k, c_mem st' 0 k = c_mem st 0 k) /\ ready cd st').
Definition find_routine (inv : bool) (N cnt : Z) : option (codelet * Z) :=
  if inv then tuple_search c2r_sizes c2r_tuples (N, cnt, 0, 0) else tuple_search r2c_sizes r2c_tuples (N, cnt, 0, 0).

Lemma search_in sizes : forall tuples req r, tuple_search sizes tuples req = Some r -> In (req, r) (combine sizes tuples).
Proof.
  induction sizes as [|[[[a0 a1] a2] a3] sizes IH]; intros tuples [[[r0 r1] r2] r3] r E; [discriminate|]. destruct tuples as [|t tuples]; [discriminate|].
  cbn [tuple_search] in E. cbn [combine]. destruct (_ && _) eqn:B in E.
  - left. inversion E. rewrite !andb_true_iff, !Z.eqb_eq in B. destruct B as [[[-> ->] ->] ->]. reflexivity.
  - right. apply IH. exact E.
Qed.
Lemma found_entry inv N cnt cd c : find_routine inv N cnt = Some (cd, c) ->
  cd_n cd = N /\ c = cnt /\ 0 <= cnt /\ check tol0 inv cd = true /\
  In N [16; 20; 24; 28; 32; 36; 40] /\ In cnt [72; 96; 120; 144; 168; 192; 216].
Proof.
  intros E. assert (W : cd_n cd = N /\ c = cnt /\ 0 <= cnt /\ In cd (if inv then all_c2r else all_r2c) /\
    In N [16; 20; 24; 28; 32; 36; 40] /\ In cnt [72; 96; 120; 144; 168; 192; 216]).
  { unfold find_routine in E. destruct inv; apply search_in in E; cbv [combine c2r_sizes c2r_tuples r2c_sizes r2c_tuples] in E;
    repeat (destruct E as [E|E]; [injection E; intros; subst cd c N cnt; repeat split; [lia|cbn; tauto|cbn; tauto|cbn; tauto]|]); destruct E. }
  destruct W as (W1 & W2 & W3 & W4 & W5 & W6). repeat split; try assumption.
  destruct inv; [pose proof checks_c2r as C|pose proof checks_r2c as C]; rewrite forallb_forall in C; apply C; exact W4.
Qed.

(** C125, routines: every routine the library returns for a request is the right one
    for it. *)
Theorem C125_routines inv N cnt r : find_routine inv N cnt = Some r -> routine_ok inv N cnt r.
Proof.
  destruct r as [cd c]. intros E. destruct (found_entry _ _ _ _ _ E) as (<- & -> & Hc & C & _). destruct (check_sound _ _ _ C) as [I R].
  split.
  - intros st. destruct (I st) as (st1 & E1). exists st1. split; [exact E1|]. exists st, st1. split; [exact E1|]. reflexivity.
  - intros x st HR HX. destruct (R cnt x st Hc HR HX) as (st' & y & A1 & A2 & A3 & A4 & A5 & A6). exists st', y.
    split; [exact A1|]. split; [exact A2|]. split; [|split; [exact A4|split; [exact A5|exact A6]]].
    intros i w Hi Hw. eapply Rle_trans; [apply A3; assumption|]. apply Rmult_le_compat_r; [|exact tol0_eps].
    apply GeoMag.zsum_nonneg. intros b Hb. apply Rabs_pos.
Qed.
Print Assumptions C125_routines.

(** C125, coverage: exactly the runs with nZeta in {16, 20, ..., 40} and an even mpol
    from 6 to 18 get routines, and they get them for both directions. *)
Theorem C125_coverage inv nZeta mpol :
  (exists r, find_routine inv nZeta (12 * mpol) = Some r) <->
  In nZeta [16; 20; 24; 28; 32; 36; 40] /\ In mpol [6; 8; 10; 12; 14; 16; 18].
Proof.
  split.
  - intros ([cd c] & E). destruct (found_entry _ _ _ _ _ E) as (_ & _ & _ & _ & A & B). split; [exact A|].
    cbn [In] in B |- *. repeat (destruct B as [B|B]; [lia|]). destruct B.
  - intros [A B]. cbn [In] in A, B.
    repeat (destruct A as [<-|A]; [repeat (destruct B as [<-|B]; [destruct inv; eexists; cbv; reflexivity|]); destruct B|]). destruct A.
Qed.
Print Assumptions C125_coverage.

(** A concrete case: the constant signal 1 of length 24 (a routine with a table, a
    scratch array and loops), 72 times; the mean comes out. *)
Example C125_case : exists cd c st st' y, find_routine false 24 72 = Some (cd, c) /\ ready cd st /\ input_is (fun _ => 1%R) (72 * 24) st /\
  cd_run cd c (72 * 24) (72 * 26) st = Some st' /\ c_mem st' 1 (26 * 71) = Some y /\ (Rabs (y - 24) <= eps * 24)%R.
Proof.
  pose proof (C125_routines false 24 72 _ eq_refl) as [I R].
  pose (st0 := {| c_iv := fun _ => None; c_dv := fun _ => None; c_mem := fun _ _ => Some 1%R |}).
  destruct (I st0) as (st1 & E1 & HR).
  pose (st := {| c_iv := c_iv st1; c_dv := c_dv st1; c_mem := upd (c_mem st1) 0 (fun _ => Some 1%R) |}).
  assert (HR' : ready r2c_24 st).
  { exists st0, st1. split; [exact E1|]. intros a Ha _ k. unfold st. cbn [c_mem]. rewrite upd_cases. destruct (Z.eqb_spec a 0); [lia|reflexivity]. }
  assert (HX : input_is (fun _ => 1%R) (72 * read_len false 24) st).
  { intros k _. unfold st. cbn [c_mem]. rewrite upd_cases. reflexivity. }
  destruct (R (fun _ => 1%R) st HR' HX) as (st' & y & A1 & A2 & A3 & _).
  exists r2c_24, 72, st, st', (y (26 * 71)). split; [reflexivity|]. split; [exact HR'|]. split; [exact HX|]. split; [exact A1|].
  split; [apply A2; cbv; split; [discriminate|reflexivity]|].
  assert (S1 : forall n, 0 <= n -> zsum 0 n (fun _ => 1%R) = IZR n).
  { intros n Hn. rewrite zsum_const by lia. rewrite Rmult_1_r || rewrite Rmult_1_l. f_equal. lia. }
  specialize (A3 71 0 ltac:(lia) ltac:(cbv; split; [discriminate|reflexivity])). change (write_len false 24 * 71 + 0) with (26 * 71) in A3.
  change (read_len false 24) with 24 in A3. cbv beta in A3.
  assert (S2 : zsum 0 24 (fun _ => Rabs 1) = 24%R) by (rewrite (zsum_ext 0 24 _ (fun _ => 1%R)) by (intros; apply Rabs_R1); apply S1; lia).
  rewrite S2 in A3.
  assert (S3 : exact_out false 24 (fun _ => 1%R) 0 = 24%R).
  { unfold exact_out. change (0 / 2) with 0. change (0 mod 2) with 0. cbn [Z.eqb]. rewrite Rmult_1_l.
    rewrite (zsum_ext 0 24 _ (fun _ => 1%R)); [apply S1; lia|]. intros k Hk. unfold turn.
    replace (2 * PI * 0 * IZR k / 24)%R with 0%R by field. rewrite cos_0. ring. }
  rewrite S3 in A3. exact A3.
Qed.
