(** Meaning of a namelist, and the settings both input formats have. *)
From Coq Require Import String Ascii ZArith List Bool.
From Verif Require Import Base Num IndataModel IndataSpec NamelistModel.
Import ListNotations.
Open Scope Z_scope.

Section Spec.
  Context {K : num}.

  (** The namelist sets [name] to [r] and to nothing else. *)
  Definition sets (ls : list (line K)) (name : string) (r : rhs K) : Prop :=
    In (Assign name r) ls /\ forall r', In (Assign name r') ls -> r' = r.
  Definition leaves_default (ls : list (line K)) (name : string) : Prop :=
    (forall r, ~ In (Assign name r) ls) /\ forall n m x, ~ In (Indexed name n m x) ls.
  (** The elements name(n, m) it sets, in order. *)
  Definition elements_set (ls : list (line K)) (name : string) : list (json K * json K * K) :=
    flat_map (fun l => match l with Indexed nm n m x => if String.eqb nm name then [(n, m, x)] else [] | _ => [] end) ls.

  (** A Fortran character literal: quotes inside it are doubled. *)
  Fixpoint literal_body (s : string) : option string :=
    match s with
    | EmptyString => None
    | String c r =>
        if Ascii.eqb c (ascii_of_nat 39) then
          match r with
          | EmptyString => Some EmptyString
          | String d r' => if Ascii.eqb d (ascii_of_nat 39) then option_map (String (ascii_of_nat 39)) (literal_body r') else None
          end
        else option_map (String c) (literal_body r)
    end.
  Definition literal (text : string) : option string :=
    match text with
    | String c r => if Ascii.eqb c (ascii_of_nat 39) then literal_body r else None
    | EmptyString => None
    end.

  (** Typed values on the two sides. *)
  Definition says_bool (ls : list (line K)) name b := sets ls name (RBool b).
  Definition says_int (ls : list (line K)) name z := sets ls name (RPython (JInt z)).
  Definition says_float (ls : list (line K)) name x := sets ls name (RFloat x).
  Definition says_string (ls : list (line K)) name s := exists text, sets ls name (RQuoted text) /\ literal text = Some s.
  Definition says_ints (ls : list (line K)) name l := sets ls name (RPythons (map JInt l)).
  Definition says_floats (ls : list (line K)) name l := sets ls name (RFloats l).

  (** Settings the two formats have in common, as (JSON name, namelist name). *)
  Definition same (l : list string) := map (fun s => (s, s)) l.
  Definition shared_bools : list (string * string) := same ["lasym"; "lforbal"; "lfreeb"]%string.
  Definition shared_ints := same ["nfp"; "mpol"; "ntor"; "ntheta"; "nzeta"; "nstep"; "ncurr"; "nvacskip"]%string.
  Definition shared_floats := same ["delt"; "tcon0"; "phiedge"; "pres_scale"; "gamma"; "spres_ped"; "curtor"; "bloat"]%string.
  Definition shared_strings := same ["pmass_type"; "piota_type"; "pcurr_type"; "mgrid_file"]%string.
  Definition shared_int_lists := same ["ns_array"; "niter_array"]%string.
  Definition shared_float_lists := same ["ftol_array"; "aphi"; "am"; "am_aux_s"; "am_aux_f"; "ai"; "ai_aux_s"; "ai_aux_f"; "ac"; "ac_aux_s"; "ac_aux_f"; "extcur"]%string.
  Definition shared_axis : list (string * string) := [("raxis_c", "raxis_cc"); ("zaxis_s", "zaxis_cs"); ("raxis_s", "raxis_cs"); ("zaxis_c", "zaxis_cc")]%string.
  Definition shared_boundary : list (string * string) := same ["rbc"; "zbs"; "rbs"; "zbc"]%string.

  (** Members with list values hold at least one number; an empty list means no setting. *)
  Definition number_list (w : json K) (l : list K) := is_list is_num w l /\ l <> [].
  Definition mode_entry (w : json K) (e : json K * json K * K) : Prop :=
    let '(n, m, x) := e in exists l wv, w = JObj l /\ member l "m" = Some m /\ member l "n" = Some n /\ member l "value" = Some wv /\ is_num wv x.

  Definition keeps_scalars (j : list (string * json K)) (ls : list (line K)) : Prop :=
    (forall a b v, In (a, b) shared_bools -> member j a = Some (JBool v) -> says_bool ls b v) /\
    (forall a b z, In (a, b) shared_ints -> member j a = Some (JInt z) -> says_int ls b z) /\
    (forall a b w x, In (a, b) shared_floats -> member j a = Some w -> is_num w x -> says_float ls b x).
  Definition keeps_lists (j : list (string * json K)) (ls : list (line K)) : Prop :=
    (forall a b l, In (a, b) shared_int_lists -> member j a = Some (JArr (map JInt l)) -> l <> [] -> says_ints ls b l) /\
    (forall a b w l, In (a, b) shared_float_lists -> member j a = Some w -> number_list w l -> says_floats ls b l).
  Definition keeps_strings (j : list (string * json K)) (ls : list (line K)) : Prop :=
    forall a b s, In (a, b) shared_strings -> member j a = Some (JStr s) -> says_string ls b s.
  Definition keeps_axis (j : list (string * json K)) (ls : list (line K)) : Prop :=
    forall a b w l, In (a, b) shared_axis -> member j a = Some w -> number_list w l -> says_floats ls b l.
  Definition keeps_boundary (j : list (string * json K)) (ls : list (line K)) : Prop :=
    forall a b ws es, In (a, b) shared_boundary -> member j a = Some (JArr ws) -> Forall2 mode_entry ws es -> elements_set ls b = es.
  (** Settings absent from the JSON input stay at VMEC2000's default. *)
  Definition adds_nothing (j : list (string * json K)) (ls : list (line K)) : Prop :=
    forall a b, In (a, b) (shared_bools ++ shared_ints ++ shared_floats ++ shared_strings ++ shared_int_lists ++ shared_float_lists ++ shared_boundary) ->
      member j a = None -> leaves_default ls b.

  (** Every present setting has the type the format documents. *)
  Definition well_typed (j : list (string * json K)) : Prop :=
    (forall a b w, In (a, b) shared_floats -> member j a = Some w -> exists x, is_num w x) /\
    (forall a b w, In (a, b) (shared_int_lists) -> member j a = Some w -> w = JNull \/ exists l, w = JArr (map JInt l)) /\
    (forall a b w, In (a, b) (shared_float_lists) -> member j a = Some w -> w = JNull \/ exists l, is_list is_num w l) /\
    (forall b w, In b (map snd shared_axis) -> member j b = Some w -> False) /\
    (forall a b w, In (a, b) shared_boundary -> member j a = Some w -> w = JNull \/ exists ws es, w = JArr ws /\ Forall2 mode_entry ws es).

  Definition no_quote (s : string) : Prop := ~ In (ascii_of_nat 39) (list_ascii_of_string s).
End Spec.
