(** Independent specification of unit-system names and of the current default. *)
From Coq Require Import String Ascii.
From Verif Require Import Base UnitsModel.
Open Scope R_scope.
Local Open Scope string_scope.
Local Open Scope list_scope.

(** Blanks: tab, line feed, vertical tab, form feed, return, the four ASCII separators, space. *)
Definition blank (c : ascii) : Prop := In (nat_of_ascii c) [9; 10; 11; 12; 13; 28; 29; 30; 31; 32]%nat.
Definition separator (c : ascii) : Prop := c = " "%char \/ c = "_"%char \/ c = "-"%char.
Definition capital_of (C c : ascii) : Prop :=
  (65 <= nat_of_ascii C <= 90)%nat /\ nat_of_ascii c = (nat_of_ascii C + 32)%nat.

(** Equal up to letter case, any separator standing for any other. *)
Definition same_char (c d : ascii) : Prop :=
  c = d \/ (separator c /\ separator d) \/ capital_of c d \/ capital_of d c.

(** A name without the blanks around it. *)
Definition trimmed (m : list ascii) : Prop :=
  (forall c t, m = c :: t -> ~ blank c) /\ (forall t c, m = t ++ [c] -> ~ blank c).
Definition core (s : string) (m : list ascii) : Prop :=
  trimmed m /\ exists pre post, Forall blank pre /\ Forall blank post /\ list_ascii_of_string s = pre ++ m ++ post.
Definition same_name (a b : string) : Prop :=
  exists m n, core a m /\ core b n /\ Forall2 same_char m n.

(** The documented preset names with their force and length units, the deflection unit and
    its scale. *)
Definition documented : list (list string * (string * string * string * R)) :=
  [ (["SI"; "kN-m"; "kNm"; "EU"; "AUS"; "metric"], ("kN", "m", "mm", 1000));
    (["SI-N-mm"; "N-mm"; "Nmm"], ("N", "mm", "mm", 1));
    (["US"; "US-ft"; "kip-ft"; "US-customary"], ("kip", "ft", "in", 12));
    (["US-in"; "kip-in"], ("kip", "in", "in", 1));
    (["none"; "dimensionless"; ""], ("", "", "", 1)) ].
Definition shows (u : unit_system) (q : string * string * string * R) : Prop :=
  q = (us_force u, us_length u, us_disp_label u, us_disp_scale u).
Definition named (s : string) (q : string * string * string * R) : Prop :=
  exists names name, In (names, q) documented /\ In name names /\ same_name s name.

(** The texts on the axes of moments, shears, deflections and distances, and a line load and a
    moment with their units, under the documented names. *)
Definition texts : list (list string * list string) :=
  [ (["SI"; "kN-m"; "kNm"; "EU"; "AUS"; "metric"],
     ["Bending Moment (kNm)"; "Shear Force (kN)"; "Deflection (mm)"; "Distance along beam (m)"; "7 kN/m"; "7 kNm"; "7 kN"]);
    (["SI-N-mm"; "N-mm"; "Nmm"],
     ["Bending Moment (N·mm)"; "Shear Force (N)"; "Deflection (mm)"; "Distance along beam (mm)"; "7 N/mm"; "7 N·mm"; "7 N"]);
    (["US"; "US-ft"; "kip-ft"; "US-customary"],
     ["Bending Moment (kip·ft)"; "Shear Force (kip)"; "Deflection (in)"; "Distance along beam (ft)"; "7 kip/ft"; "7 kip·ft"; "7 kip"]);
    (["US-in"; "kip-in"],
     ["Bending Moment (kip·in)"; "Shear Force (kip)"; "Deflection (in)"; "Distance along beam (in)"; "7 kip/in"; "7 kip·in"; "7 kip"]);
    (["none"; "dimensionless"; ""],
     ["Bending Moment"; "Shear Force"; "Deflection"; "Distance along beam"; "7"; "7"; "7"]) ].
Definition named_texts (s : string) (t : list string) : Prop :=
  exists names name, In (names, t) texts /\ In name names /\ same_name s name.
(** A text with its unit behind it, apart by [sep] and closed by [close]; nothing is added for
    an empty unit. *)
Definition with_label (sep close text unit out : string) : Prop :=
  (unit = "" /\ out = text) \/ (unit <> "" /\ out = text ++ sep ++ unit ++ close)%string.

(** The system set last: what the last accepted [set_units] of the history was given. *)
Fixpoint current (d : unit_system) (cs : list units_call) (rs : list (result unit_system)) : unit_system :=
  match cs, rs with
  | CSet _ :: cs, Ok u :: rs => current u cs rs
  | _ :: cs, _ :: rs => current d cs rs
  | _, _ => d
  end.
