(** What a user reads from a collection of load cases, and what each method should do to it. *)
From Coq Require Import String Sorting.Sorted.
From Verif Require Import Base FoundationModel CollModel.
Open Scope R_scope.
Local Open Scope list_scope.

(** A stored case as values. *)
Record acase := { a_name : string; a_loads : list (list R); a_spans : list Z; a_meta : option (list R) }.
Definition loads_value (st : coll) (l : nat) : list (list R) := map (row_at st) (list_at st l).
Definition case_value (st : coll) (c : hcase) : acase :=
  {| a_name := h_name c; a_loads := loads_value st (h_loads c); a_spans := h_spans c; a_meta := option_map (row_at st) (h_meta c) |}.
Definition contents (st : coll) : list acase := map (case_value st) (cases st).

Definition names_of (cs : list acase) : list string := map a_name cs.

(** The spans named by the rows, 0-based, in increasing order without repetition. *)
Definition spans_of_rows (loads : list (list R)) (out : list Z) : Prop :=
  StronglySorted Z.lt out /\ forall z, In z out <-> exists x t, In (x :: t) loads /\ z = (trunc x - 1)%Z.
(** A case made from an object or a bare list [s], as the [i]-th of the collection. *)
Definition made_from (st : coll) (s : source) (default : string) (c : acase) : Prop :=
  match s with
  | SrcList l => a_name c = default /\ a_loads c = loads_value st l /\ spans_of_rows (loads_value st l) (a_spans c) /\ a_meta c = None
  | SrcCase n l sp m =>
      a_name c = match n with Some n => n | None => default end /\
      a_loads c = match l with Some l => loads_value st l | None => [] end /\
      match sp with [] => spans_of_rows (a_loads c) (a_spans c) | _ => a_spans c = sp end /\
      a_meta c = option_map (row_at st) m
  end.
(** The row [v] appended to the case [name], which is made, empty, if there is none. *)
Definition row_added (cs : list acase) (name : string) (v : list R) (cs' : list acase) : Prop :=
  (exists pre c post, cs = pre ++ c :: post /\ a_name c = name /\
     cs' = pre ++ {| a_name := name; a_loads := a_loads c ++ [v]; a_spans := a_spans c; a_meta := a_meta c |} :: post) \/
  (~ In name (names_of cs) /\ cs' = cs ++ [{| a_name := name; a_loads := [v]; a_spans := []; a_meta := None |}]).
(** [c] replaces the case of the same name, or is appended if there is none. *)
Definition case_set (cs : list acase) (c : acase) (cs' : list acase) : Prop :=
  (exists pre c0 post, cs = pre ++ c0 :: post /\ a_name c0 = a_name c /\ cs' = pre ++ c :: post) \/
  (~ In (a_name c) (names_of cs) /\ cs' = cs ++ [c]).

(** Steps of the calling program that call no changing method: it makes objects, overwrites
    objects it holds (those it passed in or got from [to_LM] included), or calls [to_LM]. *)
Definition caller_only (o : op) : Prop :=
  match o with NewRow _ | NewList _ | WriteRow _ _ | WriteList _ _ | ToLM => True | _ => False end.
(** [st'] is reached from [st] by further steps. *)
Inductive leads : coll -> coll -> Prop :=
| leads_refl st : leads st st
| leads_step st o st' : allowed st o -> leads (fst (exec st o)) st' -> leads st st'.
