(** Model of building a section (src/pycba/section.py:86-133, 138-273). *)
From Coq Require Import String.
From Verif Require Import Base SectionModel.
Open Scope R_scope.
Local Notation length := List.length.
Local Open Scope list_scope.

(** One call of add_segment, or one of the specs given to the constructor. *)
Record segment := { sg_type : string; sg_x : list R; sg_ei : eiarg; sg_degree : option nat }.

Section Build.
Variable polyfit : list R -> list R -> nat -> list R.
Definition add1 (s : sect) (c : segment) : result sect := add_segment polyfit s (sg_type c) (sg_x c) (sg_ei c) (sg_degree c).
(** The call as a statement: the object afterwards, and what was raised.  All attributes are
    written after the last check (section.py:265-272). *)
Definition call (s : sect) (c : segment) : sect * result unit :=
  match add1 s c with Ok s' => (s', Ok tt) | Err e => (s, Err e) end.
Fixpoint calls (s : sect) (cs : list segment) : sect :=
  match cs with [] => s | c :: t => calls (fst (call s c)) t end.
(** section.py:86-133: the constructor; an exception leaves no object. *)
Definition sect_init (cs : list segment) : result sect := foldM add1 cs sect_empty.
End Build.
