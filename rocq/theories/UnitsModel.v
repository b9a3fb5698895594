(** Model of src/pycba/units.py: display unit systems.  Characters are bytes; as in Python the
    ASCII letters are lower-cased and the ASCII blanks are stripped.  Simplification: bytes
    above 127 (no preset name has any) are neither letters nor blanks. *)
From Coq Require Import String Ascii.
From Verif Require Import Base.
Open Scope R_scope.
Local Open Scope string_scope.
Local Open Scope list_scope.

(** units.py:27-67 [UnitSystem] (frozen dataclass). *)
Record unit_system := { us_name : string; us_force : string; us_length : string; us_moment : string;
  us_distributed : string; us_disp_label : string; us_disp_scale : R }.

(** units.py:71-72 [_suffix]. *)
Definition suffix (unit : string) : string :=
  if String.eqb unit "" then "" else (" (" ++ unit ++ ")")%string.
(** units.py:74-92: axis labels. *)
Definition moment_axis (u : unit_system) : string := ("Bending Moment" ++ suffix (us_moment u))%string.
Definition shear_axis (u : unit_system) : string := ("Shear Force" ++ suffix (us_force u))%string.
Definition deflection_axis (u : unit_system) : string := ("Deflection" ++ suffix (us_disp_label u))%string.
Definition distance_axis (u : unit_system) : string := ("Distance along beam" ++ suffix (us_length u))%string.
(** units.py:87-89 [length_axis]. *)
Definition length_axis (u : unit_system) (what : string) : string := (what ++ suffix (us_length u))%string.
(** units.py:93-94 [_val]. *)
Definition val_text (value unit : string) : string := if String.eqb unit "" then value else (value ++ " " ++ unit)%string.
(** units.py:96-100 [fmt_force], [fmt_moment]; [g] is the format ":g" of a number. *)
Definition fmt_force (g : R -> string) (u : unit_system) (v : R) : string := val_text (g v) (us_force u).
Definition fmt_moment (g : R -> string) (u : unit_system) (v : R) : string := val_text (g v) (us_moment u).
(** units.py:102-108 [fmt_distributed]. *)
Definition fmt_distributed (g : R -> string) (u : unit_system) (w0 : R) (w1 : option R) : string :=
  val_text (match w1 with
            | None => g w0
            | Some w => if Reqb w w0 then g w0 else (g w0 ++ "→" ++ g w)%string
            end) (us_distributed u).

(** units.py:113-121. *)
Definition SI : unit_system := {| us_name := "SI (kN, m)"; us_force := "kN"; us_length := "m"; us_moment := "kNm";
  us_distributed := "kN/m"; us_disp_label := "mm"; us_disp_scale := 1000 |}.
(** units.py:123-131. *)
Definition SI_N_MM : unit_system := {| us_name := "SI (N, mm)"; us_force := "N"; us_length := "mm"; us_moment := "N·mm";
  us_distributed := "N/mm"; us_disp_label := "mm"; us_disp_scale := 1 |}.
(** units.py:133-141. *)
Definition US_KIP_FT : unit_system := {| us_name := "US (kip, ft)"; us_force := "kip"; us_length := "ft"; us_moment := "kip·ft";
  us_distributed := "kip/ft"; us_disp_label := "in"; us_disp_scale := 12 |}.
(** units.py:143-151. *)
Definition US_KIP_IN : unit_system := {| us_name := "US (kip, in)"; us_force := "kip"; us_length := "in"; us_moment := "kip·in";
  us_distributed := "kip/in"; us_disp_label := "in"; us_disp_scale := 1 |}.
(** units.py:153. *)
Definition NONE : unit_system := {| us_name := "dimensionless"; us_force := ""; us_length := ""; us_moment := "";
  us_distributed := ""; us_disp_label := ""; us_disp_scale := 1 |}.

(** units.py:157-176 [_REGISTRY]. *)
Definition registry : list (string * unit_system) :=
  [("si", SI); ("kn-m", SI); ("knm", SI); ("eu", SI); ("aus", SI); ("metric", SI);
   ("si-n-mm", SI_N_MM); ("n-mm", SI_N_MM); ("nmm", SI_N_MM);
   ("us", US_KIP_FT); ("us-ft", US_KIP_FT); ("kip-ft", US_KIP_FT); ("us-customary", US_KIP_FT);
   ("us-in", US_KIP_IN); ("kip-in", US_KIP_IN);
   ("none", NONE); ("dimensionless", NONE); ("", NONE)].

(** Characters removed by [str.strip]. *)
Definition is_space (c : ascii) : bool :=
  let n := N_of_ascii c in ((9 <=? n) && (n <=? 13) || (28 <=? n) && (n <=? 32))%N.
Fixpoint lstrip (l : list ascii) : list ascii :=
  match l with [] => [] | c :: t => if is_space c then lstrip t else l end.
Definition strip (l : list ascii) : list ascii := rev (lstrip (rev (lstrip l))).
(** [str.lower] on one character. *)
Definition lower (c : ascii) : ascii :=
  let n := N_of_ascii c in if ((65 <=? n) && (n <=? 90))%N then ascii_of_N (n + 32) else c.
Definition replace1 (x y c : ascii) : ascii := if Ascii.eqb c x then y else c.

(** units.py:181-182 [_normalise]. *)
Definition normalise (s : string) : string :=
  string_of_list_ascii (map (replace1 " " "-") (map (replace1 "_" "-") (map lower (strip (list_ascii_of_string s))))).

(** Dictionary access. *)
Fixpoint lookup (k : string) (d : list (string * unit_system)) : result unit_system :=
  match d with
  | [] => Err KeyError
  | (k', u) :: t => if String.eqb k k' then Ok u else lookup k t
  end.

(** The [units] argument: None, a string, a unit system, or an object of another type (which
    has no [strip]). *)
Inductive units_arg := UNone | UName (s : string) | USystem (u : unit_system) | UOther.

(** units.py:210-234 [resolve]; [d] is the global [_default]. *)
Definition resolve (d : unit_system) (a : units_arg) : result unit_system :=
  match a with
  | UNone => Ok d
  | USystem u => Ok u
  | UName s => lookup (normalise s) registry
  | UOther => Err AttributeError
  end.

(** units.py:185-202 [set_units]: new default and returned value. *)
Definition set_units (d : unit_system) (a : units_arg) : unit_system * result unit_system :=
  match resolve d a with
  | Ok u => (u, Ok u)
  | Err e => (d, Err e)
  end.

(** units.py:205-207 [get_units]. *)
Definition get_units (d : unit_system) : unit_system := d.

(** Calls made by a program, starting with the default SI (units.py:178). *)
Inductive units_call := CSet (a : units_arg) | CResolve (a : units_arg) | CGet.
Definition units_step (d : unit_system) (c : units_call) : unit_system * result unit_system :=
  match c with
  | CSet a => set_units d a
  | CResolve a => (d, resolve d a)
  | CGet => (d, Ok (get_units d))
  end.
Fixpoint units_run (d : unit_system) (cs : list units_call) : unit_system * list (result unit_system) :=
  match cs with
  | [] => (d, [])
  | c :: t => let (d1, r) := units_step d c in let (d2, rs) := units_run d1 t in (d2, r :: rs)
  end.
