(** Restraint codes: two lists that name the same kind of restraint at every DOF. *)
From Verif Require Import Base.
Open Scope R_scope.

(** Both negative (rigidly held), or the same number. *)
Definition same_restraint (r r' : R) : Prop := r = r' \/ (r < 0 /\ r' < 0).
Definition same_restraints (rs rs' : list R) : Prop := Forall2 same_restraint rs rs'.
(** Rigidly held by a negative number other than -1. *)
Definition unusual (r : R) : Prop := r < 0 /\ r <> -1.
