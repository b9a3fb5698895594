(** Independent specification of exported tables: how a reader takes the text apart. *)
From Coq Require Import String Ascii.
From Verif Require Import Base LoadModel EnvelopeModel.
Open Scope R_scope.
Local Notation length := List.length.
Local Open Scope list_scope.

(** The pieces of a text between the occurrences of a character. *)
Fixpoint pieces (c : ascii) (s : string) : list string :=
  match s with
  | EmptyString => [EmptyString]
  | String a t =>
    if Ascii.eqb a c then EmptyString :: pieces c t
    else match pieces c t with p :: ps => String a p :: ps | [] => [String a EmptyString] end
  end.
(** The lines of a text each line of which is ended by a newline. *)
Definition lines (s : string) : list string := removelast (pieces (ascii_of_nat 10) s).
(** A table: the names of its columns and its rows of numbers. *)
Definition read_table (c : ascii) (float : string -> option R) (s : string) : option (list string * list (list (option R))) :=
  match lines s with
  | [] => None
  | h :: rows => Some (pieces c h, map (fun l => map float (pieces c l)) rows)
  end.
(** A text that does not have a character. *)
Fixpoint without (c : ascii) (s : string) : Prop :=
  match s with EmptyString => True | String a t => a <> c /\ without c t end.
(** A format of numbers that a reader of fields separated by [c] understands, for the numbers of
    the arrays [cols] (no format does for all real numbers). *)
Definition legible (c : ascii) (num : R -> string) (float : string -> option R) (cols : list (list R)) : Prop :=
  forall d x, In d cols -> In x d -> without c (num x) /\ without (ascii_of_nat 10) (num x) /\ float (num x) = Some x.
(** The rows of a table of columns [cols] of length [n]. *)
Definition is_table (cols : list (list R)) (n : nat) (rows : list (list (option R))) : Prop :=
  length rows = n /\
  forall k row, nth_error rows k = Some row -> length row = length cols /\
    forall j c, nth_error cols j = Some c -> exists v, nth_error c k = Some v /\ nth_error row j = Some (Some v).
