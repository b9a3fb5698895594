(** Model of src/pycba/load_cases.py [LoadCases] and [LoadCase] as Python objects: which
    load lists and rows are shared between the caller and the collection, and what is left
    behind when a method raises. *)
From Coq Require Import String.
From Verif Require Import Base SectionModel LoadModel FoundationModel UtilsModel BeamModel AnalysisModel ResultsModel LoadCasesModel.
Open Scope R_scope.
Local Open Scope list_scope.
Local Notation length := List.length.

(** load_cases.py:34-47 [LoadCase]: [h_loads] refers to a list object, whose entries refer to
    row objects; [h_meta] refers to a metadata object.  [loaded_spans] is a tuple, a value. *)
Record hcase := { h_name : string; h_loads : nat; h_spans : list Z; h_meta : option nat }.

(** The heap of row objects (lists of numbers; metadata dictionaries are kept here too, as
    the list of their values) and of list objects, the collection [_cases], and the
    references the calling program holds.  The caller's references to the [LoadCase] objects
    of the collection are left out: through them the caller edits the stored case on purpose. *)
Record coll := { rows : list (list R); lists : list (list nat); cases : list hcase;
  krows : list nat; klists : list nat }.
(** load_cases.py:295-303 [__init__] without cases; with cases it is [extend]. *)
Definition coll0 : coll := {| rows := []; lists := []; cases := []; krows := []; klists := [] |}.

Definition row_at (st : coll) (a : nat) : list R := nth a (rows st) [].
Definition list_at (st : coll) (a : nat) : list nat := nth a (lists st) [].
Definition put {A} (l : list A) (i : nat) (a : A) : list A := firstn i l ++ a :: skipn (S i) l.

Definition with_cases (st : coll) (cs : list hcase) : coll :=
  {| rows := rows st; lists := lists st; cases := cs; krows := krows st; klists := klists st |}.
Definition with_heap (st : coll) (rs : list (list R)) (ls : list (list nat)) : coll :=
  {| rows := rs; lists := ls; cases := cases st; krows := krows st; klists := klists st |}.
Definition with_known (st : coll) (ks ls : list nat) : coll :=
  {| rows := rows st; lists := lists st; cases := cases st; krows := ks ++ krows st; klists := ls ++ klists st |}.

(** Python's [copy.deepcopy] of a list of rows: a row that occurs twice is copied once. *)
Fixpoint lookup (a : nat) (memo : list (nat * nat)) : option nat :=
  match memo with [] => None | (x, y) :: t => if Nat.eqb a x then Some y else lookup a t end.
Fixpoint copy_rows (h : list (list R)) (memo : list (nat * nat)) (l : list nat) : list (list R) * list nat :=
  match l with
  | [] => (h, [])
  | a :: t =>
      match lookup a memo with
      | Some b => let '(h', t') := copy_rows h memo t in (h', b :: t')
      | None => let b := length h in
                let '(h', t') := copy_rows (h ++ [nth a h []]) ((a, b) :: memo) t in (h', b :: t')
      end
  end.
Definition deepcopy_list (st : coll) (a : nat) : coll * nat :=
  let '(rs, l) := copy_rows (rows st) [] (list_at st a) in
  (with_heap st rs (lists st ++ [l]), length (lists st)).
Definition deepcopy_row (st : coll) (a : nat) : coll * nat :=
  (with_heap st (rows st ++ [row_at st a]) (lists st), length (rows st)).
Definition deepcopy_meta (st : coll) (m : option nat) : coll * option nat :=
  match m with None => (st, None) | Some a => let '(st, b) := deepcopy_row st a in (st, Some b) end.
(** A new empty list object. *)
Definition new_list (st : coll) : coll * nat := (with_heap st (rows st) (lists st ++ [[]]), length (lists st)).
(** A new row object. *)
Definition new_row (st : coll) (v : list R) : coll * nat := (with_heap st (rows st ++ [v]) (lists st), length (rows st)).

(** load_cases.py:323-327 [names]. *)
Definition names (st : coll) : list string := map h_name (cases st).
Definition in_names (s : string) (st : coll) : bool := existsb (String.eqb s) (names st).

(** load_cases.py:381-404 [add].  The state comes back with the exception, if any. *)
Definition do_add (st : coll) (name : string) (loads : nat) (spans : list Z) (meta : option nat) : coll * option exc :=
  if in_names name st then (st, Some ValueError)
  else let '(st, l) := deepcopy_list st loads in
       let '(st, m) := deepcopy_meta st meta in
       (with_cases st (cases st ++ [{| h_name := name; h_loads := l; h_spans := spans; h_meta := m |}]), None).

(** load_cases.py:355-363 [case], the search: the position of the first case of that name. *)
Fixpoint find_from (name : string) (cs : list hcase) (i : nat) : option nat :=
  match cs with [] => None | c :: t => if String.eqb (h_name c) name then Some i else find_from name t (S i) end.
Definition find_case (name : string) (st : coll) : option nat := find_from name (cases st) 0.

Definition hcase0 : hcase := {| h_name := EmptyString; h_loads := 0; h_spans := []; h_meta := None |}.

(** load_cases.py:406-423 [set]: replaces in place, or adds. *)
Definition do_set (st : coll) (name : string) (loads : nat) (spans : list Z) (meta : option nat) : coll * option exc :=
  match find_case name st with
  | None => do_add st name loads spans meta
  | Some i => let '(st, l) := deepcopy_list st loads in
              let '(st, m) := deepcopy_meta st meta in
              (with_cases st (put (cases st) i
                 {| h_name := h_name (nth i (cases st) hcase0); h_loads := l; h_spans := spans; h_meta := m |}), None)
  end.

(** The argument of [append]: a bare load list, or an object (or dictionary) that may lack
    a name, loads, loaded spans (the empty tuple stands for that) or metadata. *)
Inductive source := SrcList (loads : nat)
| SrcCase (name : option string) (loads : option nat) (spans : list Z) (meta : option nat).

(** load_cases.py:759-763 [_load_case_name]. *)
Definition source_name (s : source) (i : nat) : string :=
  match s with SrcCase (Some n) _ _ _ => n | _ => "LC " ++ dec (i + 1) end.
(** load_cases.py:766-770 [_load_case_loads], before the copy. *)
Definition source_loads (s : source) : option nat :=
  match s with SrcList a => Some a | SrcCase _ l _ _ => l end.
Definition source_meta (s : source) : option nat := match s with SrcList _ => None | SrcCase _ _ _ m => m end.
(** load_cases.py:787 [sorted(set(loaded))]. *)
Fixpoint zinsert (z : Z) (l : list Z) : list Z :=
  match l with
  | [] => [z]
  | y :: t => if Z.ltb z y then z :: l else if Z.eqb z y then l else y :: zinsert z t
  end.
Definition sorted_set (l : list Z) : list Z := fold_right zinsert [] l.
(** load_cases.py:773-787 [_load_case_loaded_spans]; empty rows are skipped. *)
Definition source_spans (st : coll) (s : source) : list Z :=
  match s with
  | SrcCase _ _ (z :: zs) _ => z :: zs
  | _ => match source_loads s with
         | None => []
         | Some a => sorted_set (flat_map (fun r => match row_at st r with [] => [] | x :: _ => [(trunc x - 1)%Z] end) (list_at st a))
         end
  end.

(** load_cases.py:425-438 [append]. *)
Definition do_append (st : coll) (s : source) : coll * option exc :=
  let name := source_name s (length (cases st)) in
  if in_names name st then (st, Some ValueError)
  else let spans := source_spans st s in
       let '(st, l) := match source_loads s with Some a => deepcopy_list st a | None => new_list st end in
       let '(st, m) := deepcopy_meta st (source_meta s) in
       (with_cases st (cases st ++ [{| h_name := name; h_loads := l; h_spans := spans; h_meta := m |}]), None).

(** load_cases.py:440-444 [extend]: stops at the first exception. *)
Fixpoint do_extend (st : coll) (ss : list source) : coll * option exc :=
  match ss with
  | [] => (st, None)
  | s :: t => match do_append st s with (st', None) => do_extend st' t | r => r end
  end.

(** load_cases.py:355-379 [case] with [create], [add_case] without loads. *)
Definition get_case (st : coll) (name : string) : coll * nat :=
  match find_case name st with
  | Some i => (st, i)
  | None => let '(st, l) := new_list st in
            (with_cases st (cases st ++ [{| h_name := name; h_loads := l; h_spans := []; h_meta := None |}]), length (cases st))
  end.
(** load_cases.py:49-53 [LoadCase.add_load]: a copy of the row goes to the end of the list. *)
Definition push_row (st : coll) (i : nat) (r : nat) : coll :=
  let a := h_loads (nth i (cases st) hcase0) in
  let '(st, b) := deepcopy_row st r in
  with_heap st (rows st) (put (lists st) a (list_at st a ++ [b])).
(** load_cases.py:461-464 [add_load]. *)
Definition do_add_load (st : coll) (name : string) (r : nat) : coll * option exc :=
  let '(st, i) := get_case st name in (push_row st i r, None).
(** load_cases.py:60-143, 466-544 with a row built by the method itself. *)
Definition push_new (st : coll) (i : nat) (v : list R) : coll :=
  let '(st, r) := new_row st v in push_row st i r.
Definition do_add_udl (st : coll) (name : string) (i_span : Z) (w : R) : coll * option exc :=
  let '(st, i) := get_case st name in (push_new st i [IZR i_span; 1; w], None).
(** load_cases.py:528-539, 123-137 [add_trap]: the case is made before the arguments are
    looked at. *)
Definition do_add_trap (st : coll) (name : string) (i_span : Z) (w1 w2 : R) (a c : option R) : coll * option exc :=
  let '(st, i) := get_case st name in
  match a, c with
  | Some _, None => (st, Some ValueError)
  | None, _ => (push_new st i [IZR i_span; 5; w1; w2], None)
  | Some a, Some c => (push_new st i [IZR i_span; 5; w1; w2; a; c], None)
  end.
(** load_cases.py:446-459 [add_span_udl] of a beam of [n] spans, from span [i] on.  The
    metadata is left out. *)
Fixpoint do_add_span_udl (st : coll) (w : R) (i n : nat) : coll * option exc :=
  match n with
  | O => (st, None)
  | S n => let '(st, r) := new_row st [INR (i + 1); 1; w] in
           let st := with_heap st (rows st) (lists st ++ [[r]]) in
           match do_add st (span_udl_name (i + 1)) (length (lists st) - 1) [Z.of_nat i] None with
           | (st', None) => do_add_span_udl st' w (S i) n
           | e => e
           end
  end.
(** load_cases.py:55-58, 344-353 [to_LM]: copies, which the caller then holds. *)
Fixpoint copy_cases (st : coll) (cs : list hcase) : coll * list (string * nat) :=
  match cs with
  | [] => (st, [])
  | c :: t => let '(st, l) := deepcopy_list st (h_loads c) in
              let st := with_known st (list_at st l) [l] in
              let '(st, out) := copy_cases st t in (st, (h_name c, l) :: out)
  end.

(** What the calling program does: it makes rows and lists, overwrites those it has, and
    calls the methods. *)
Inductive op :=
| NewRow (v : list R) | NewList (l : list nat)
| WriteRow (a : nat) (v : list R) | WriteList (a : nat) (l : list nat)
| Add (name : string) (loads : nat) (spans : list Z) (meta : option nat)
| SetCase (name : string) (loads : nat) (spans : list Z) (meta : option nat)
| Append (s : source) | Extend (ss : list source)
| AddLoad (name : string) (r : nat)
| AddUdl (name : string) (i_span : Z) (w : R)
| AddTrap (name : string) (i_span : Z) (w1 w2 : R) (a c : option R)
| AddSpanUdl (w : R) (n : nat)
| ToLM.

Definition exec (st : coll) (o : op) : coll * option exc :=
  match o with
  | NewRow v => let '(st, a) := new_row st v in (with_known st [a] [], None)
  | NewList l => (with_known (with_heap st (rows st) (lists st ++ [l])) [] [length (lists st)], None)
  | WriteRow a v => (with_heap st (put (rows st) a v) (lists st), None)
  | WriteList a l => (with_heap st (rows st) (put (lists st) a l), None)
  | Add n l s m => do_add st n l s m
  | SetCase n l s m => do_set st n l s m
  | Append s => do_append st s
  | Extend ss => do_extend st ss
  | AddLoad n r => do_add_load st n r
  | AddUdl n i w => do_add_udl st n i w
  | AddTrap n i w1 w2 a c => do_add_trap st n i w1 w2 a c
  | AddSpanUdl w n => do_add_span_udl st w 0 n
  | ToLM => (fst (copy_cases st (cases st)), None)
  end.

(** A program can only use references it holds. *)
Definition holds_row (st : coll) (m : option nat) : Prop := match m with None => True | Some a => In a (krows st) end.
Definition holds_list (st : coll) (m : option nat) : Prop := match m with None => True | Some a => In a (klists st) end.
Definition holds_source (st : coll) (s : source) : Prop := holds_list st (source_loads s) /\ holds_row st (source_meta s).
Definition allowed (st : coll) (o : op) : Prop :=
  match o with
  | NewRow _ | AddUdl _ _ _ | AddTrap _ _ _ _ _ _ | AddSpanUdl _ _ | ToLM => True
  | NewList l => Forall (fun r => In r (krows st)) l
  | WriteRow a _ => In a (krows st)
  | WriteList a l => In a (klists st) /\ Forall (fun r => In r (krows st)) l
  | Add _ l _ m | SetCase _ l _ m => In l (klists st) /\ holds_row st m
  | Append s => holds_source st s
  | Extend ss => Forall (holds_source st) ss
  | AddLoad _ r => In r (krows st)
  end.

(** All histories. *)
Inductive reachable : coll -> Prop :=
| reach0 : reachable coll0
| reach_step st o : reachable st -> allowed st o -> reachable (fst (exec st o)).
