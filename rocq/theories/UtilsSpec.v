(** Independent specification of support names and of beam strings. *)
From Coq Require Import Ascii String.
From Verif Require Import Base UtilsModel.
Local Open Scope string_scope.
Open Scope R_scope.

(** ** Support names (documentation of the [supports] argument) *)
Definition name_table : list (string * (R * R)) :=
  [("p", (-1, 0)); ("pin", (-1, 0)); ("pinned", (-1, 0)); ("r", (-1, 0)); ("roller", (-1, 0));
   ("e", (-1, -1)); ("encastre", (-1, -1)); ("fixed", (-1, -1)); ("clamped", (-1, -1));
   ("f", (0, 0)); ("free", (0, 0))].

(** Blanks: tab, line feed, vertical tab, form feed, carriage return, 28-31 and space. *)
Definition blank_char (c : ascii) : Prop :=
  In (nat_of_ascii c) [9; 10; 11; 12; 13; 28; 29; 30; 31; 32]%nat.
Fixpoint all_chars (P : ascii -> Prop) (s : string) : Prop :=
  match s with EmptyString => True | String c t => P c /\ all_chars P t end.
Definition blank : string -> Prop := all_chars blank_char.

(** Two texts that differ at most in letter case. *)
Definition capital (c d : ascii) : Prop :=
  (65 <= nat_of_ascii c <= 90)%nat /\ nat_of_ascii d = (nat_of_ascii c + 32)%nat.
Fixpoint same_letters (s t : string) : Prop :=
  match s, t with
  | EmptyString, EmptyString => True
  | String c s', String d t' => (c = d \/ capital c d \/ capital d c) /\ same_letters s' t'
  | _, _ => False
  end.

(** [s] is the word [w] in any letter case with any surrounding blanks. *)
Definition spells (s w : string) : Prop :=
  exists pre core post, s = pre ++ core ++ post /\ blank pre /\ blank post /\ same_letters core w.

(** The restraint pair that an entry of a support list stands for. *)
Inductive denotes : support -> R * R -> Prop :=
| den_name s w p : In (w, p) name_table -> spells s w -> denotes (SupName s) p
| den_pair x y : denotes (SupPair [x; y]) (x, y).

(** ** Beam strings *)
(** A terminal letter, either case, and the texts between terminals. *)
Definition term_letter (c : ascii) : Prop :=
  In c ["e"; "E"; "f"; "F"; "h"; "H"; "p"; "P"; "r"; "R"]%char.
Definition hinge (c : ascii) : Prop := c = "h"%char \/ c = "H"%char.
Definition free_or_encastre (c : ascii) : Prop := In c ["e"; "E"; "f"; "F"]%char.
Definition plain : string -> Prop := all_chars (fun c => ~ term_letter c).

(** First terminal, then one (text, terminal) pair per span. *)
Definition description : Type := ascii * list (string * ascii).
Fixpoint render_rest (l : list (string * ascii)) : string :=
  match l with
  | [] => ""
  | (x, t) :: r => x ++ String t (render_rest r)
  end.
Definition render (d : description) : string := String (fst d) (render_rest (snd d)).
Definition all_terms (d : description) : list ascii := fst d :: map snd (snd d).
Definition written (d : description) : Prop :=
  Forall term_letter (all_terms d) /\ Forall (fun p => plain (fst p)) (snd d).

(** What the documentation allows. *)
Definition legal (d : description) : Prop :=
  snd d <> [] /\ ~ hinge (fst d) /\ ~ hinge (last (all_terms d) (fst d)) /\
  Forall (fun c => ~ free_or_encastre c) (removelast (map snd (snd d))).

(** Restraint pair of a terminal and type of the member on its left. *)
Definition pair_of (c : ascii) : list R :=
  if Ascii.eqb c "p" || Ascii.eqb c "P" || Ascii.eqb c "r" || Ascii.eqb c "R" then [-1; 0]
  else if Ascii.eqb c "e" || Ascii.eqb c "E" then [-1; -1] else [0; 0].
Definition type_left_of (c : ascii) : nat :=
  if Ascii.eqb c "h" || Ascii.eqb c "H" then 2%nat else 1%nat.
