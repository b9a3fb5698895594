(** Property theorems about collections of load cases (C30), for every history of calls and
    of in-place edits by the calling program. *)
From Coq Require Import String.
From Verif Require Import Base LoadCasesModel CollModel CollSpec CollTheorems.
Open Scope R_scope.
Local Open Scope list_scope.
Local Notation length := List.length.

(** C30: names stay unique... *)
Theorem C30_unique_names : forall st, reachable st -> NoDup (names_of (contents st)).
Proof. exact names_unique. Qed.
Print Assumptions C30_unique_names.

(** ...in insertion order: later steps only add names at the end... *)
Theorem C30_order_kept : forall st st', reachable st -> leads st st' -> exists more, names_of (contents st') = names_of (contents st) ++ more.
Proof. exact order_history. Qed.
Print Assumptions C30_order_kept.

(** ...and edits in place of the objects the program holds change no stored case. *)
Theorem C30_caller_edits : forall st o, reachable st -> allowed st o -> caller_only o -> contents (fst (exec st o)) = contents st.
Proof. exact caller_effect. Qed.
Print Assumptions C30_caller_edits.

(** [add] stores the values its argument has at the call; it raises for a known name and
    then changes nothing. *)
Theorem C30_add : forall st n l sp m, reachable st -> allowed st (Add n l sp m) ->
  (In n (names_of (contents st)) -> exec st (Add n l sp m) = (st, Some ValueError)) /\
  (~ In n (names_of (contents st)) -> snd (exec st (Add n l sp m)) = None /\
     contents (fst (exec st (Add n l sp m))) = contents st ++ [{| a_name := n; a_loads := loads_value st l; a_spans := sp; a_meta := option_map (row_at st) m |}]).
Proof. exact add_effect. Qed.
Print Assumptions C30_add.

(** [set] replaces the case of that name where it is, or adds it. *)
Theorem C30_set : forall st n l sp m, reachable st -> allowed st (SetCase n l sp m) ->
  snd (exec st (SetCase n l sp m)) = None /\
  case_set (contents st) {| a_name := n; a_loads := loads_value st l; a_spans := sp; a_meta := option_map (row_at st) m |} (contents (fst (exec st (SetCase n l sp m)))).
Proof. exact set_effect. Qed.
Print Assumptions C30_set.

(** [append], with the name "LC k+1" for an object without name and the spans read from the
    rows for an object without spans. *)
Theorem C30_append : forall st s, reachable st -> allowed st (Append s) ->
  let k := length (contents st) in let default := ("LC " ++ dec (k + 1))%string in
  let name := match s with SrcCase (Some n) _ _ _ => n | _ => default end in
  (In name (names_of (contents st)) -> exec st (Append s) = (st, Some ValueError)) /\
  (~ In name (names_of (contents st)) -> snd (exec st (Append s)) = None /\
     exists c, made_from st s default c /\ contents (fst (exec st (Append s))) = contents st ++ [c]).
Proof. exact append_effect. Qed.
Print Assumptions C30_append.

(** [extend] appends in order up to the first repeated name. *)
Theorem C30_extend : forall st ss, reachable st -> allowed st (Extend ss) ->
  let k := length (contents st) in let st' := fst (exec st (Extend ss)) in
  exists cs, contents st' = contents st ++ cs /\
  (forall j s c, nth_error ss j = Some s -> nth_error cs j = Some c -> made_from st s ("LC " ++ dec (k + j + 1)) c) /\
  (snd (exec st (Extend ss)) = None /\ length cs = length ss \/
   snd (exec st (Extend ss)) = Some ValueError /\ exists s, nth_error ss (length cs) = Some s /\
     In (match s with SrcCase (Some n) _ _ _ => n | _ => "LC " ++ dec (length (contents st') + 1) end)%string (names_of (contents st'))).
Proof. exact extend_effect. Qed.
Print Assumptions C30_extend.

(** [add_load] and [add_udl] add one row at the end of the named case. *)
Theorem C30_add_load : forall st n r, reachable st -> allowed st (AddLoad n r) ->
  snd (exec st (AddLoad n r)) = None /\ row_added (contents st) n (row_at st r) (contents (fst (exec st (AddLoad n r)))).
Proof. exact add_load_effect. Qed.
Print Assumptions C30_add_load.

Theorem C30_add_udl : forall st n i w, reachable st ->
  snd (exec st (AddUdl n i w)) = None /\ row_added (contents st) n [IZR i; 1; w] (contents (fst (exec st (AddUdl n i w)))).
Proof. exact add_udl_effect. Qed.
Print Assumptions C30_add_udl.

(** [to_LM] gives the values of all cases in order, in lists that only the caller has. *)
Theorem C30_to_LM : forall st, reachable st ->
  let '(st', out) := copy_cases st (cases st) in st' = fst (exec st ToLM) /\
  map (fun p => (fst p, loads_value st' (snd p))) out = map (fun c => (a_name c, a_loads c)) (contents st) /\
  (forall p, In p out -> In (snd p) (klists st')) /\ contents st' = contents st.
Proof. exact to_LM_effect. Qed.
Print Assumptions C30_to_LM.

(** Methods that raise and have changed the collection. *)
Theorem C30_extend_refuted : exists st o, reachable st /\ allowed st o /\ (exists ss, o = Extend ss) /\ snd (exec st o) = Some ValueError /\
  contents (fst (exec st o)) <> contents st.
Proof. exact extend_partial. Qed.
Print Assumptions C30_extend_refuted.

Theorem C30_add_trap_refuted : exists st o, reachable st /\ allowed st o /\ (exists n i w1 w2 a, o = AddTrap n i w1 w2 (Some a) None) /\
  snd (exec st o) = Some ValueError /\ contents (fst (exec st o)) <> contents st.
Proof. exact trap_partial. Qed.
Print Assumptions C30_add_trap_refuted.

Theorem C30_add_span_udl_refuted : exists st o, reachable st /\ allowed st o /\ (exists w n, o = AddSpanUdl w n) /\
  snd (exec st o) = Some ValueError /\ contents (fst (exec st o)) <> contents st.
Proof. exact span_udl_partial. Qed.
Print Assumptions C30_add_span_udl_refuted.

Example C30_nonvacuous : reachable (run_ops sample_history) /\
  map (fun c => (a_name c, a_loads c)) (contents (run_ops sample_history)) = [("dead"%string, [[1; 1; 20]]); ("LC 2"%string, [[1; 1; 20]]); ("live"%string, [[2; 1; 7]])].
Proof. exact sample_reach. Qed.
