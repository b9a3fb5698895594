(** Model of a program that uses several [BeamAnalysis] objects (src/pycba/analysis.py) and
    load lists: which list object each of them refers to.  A load matrix is a Python list that
    is stored without copying (beam.py:151-152, 303-304) and extended in place (beam.py:322).
    Simplifications: the rows of a load matrix are values; the restraint and displacement
    lists are values (in-place edits of those: C14_in_place_edit_refuted); the shear points of
    an object are those of its constructor, none. *)
From Verif Require Import RenderModel.
From Verif Require Import Base Linalg SectionModel LoadModel FoundationModel ElementModel UtilsModel BeamModel AnalysisModel ResultsModel.
Open Scope R_scope.

(** analysis.py:181-207 and beam.py:94-115: an analysis object.  The loads of [so_an] are not
    read: [so_lm] is the list object that [beam.LM] refers to; [so_res] is [_beam_results]. *)
Record sobj := { so_an : analysis; so_lm : nat; so_res : option bres }.
Record store := { st_lists : list (list row); st_objs : list sobj }.
Definition store0 : store := {| st_lists := []; st_objs := [] |}.

Definition rows_of (st : store) (r : nat) : list row := nth r (st_lists st) [].
(** The analysis object with the present contents of its load list. *)
Definition seen (st : store) (o : sobj) : analysis :=
  with_beam (so_an o) (with_LM (an_beam (so_an o)) (rows_of st (so_lm o))).

Definition put {A} (l : list A) (i : nat) (a : A) : list A := firstn i l ++ a :: skipn (S i) l.
Definition write_list (st : store) (r : nat) (lm : list row) : store := {| st_lists := put (st_lists st) r lm; st_objs := st_objs st |}.
Definition write_obj (st : store) (p : nat) (o : sobj) : store := {| st_lists := st_lists st; st_objs := put (st_objs st) p o |}.
Definition new_list (st : store) (lm : list row) : store * nat :=
  ({| st_lists := st_lists st ++ [lm]; st_objs := st_objs st |}, length (st_lists st)).
Definition with_an (o : sobj) (a : analysis) : sobj := {| so_an := a; so_lm := so_lm o; so_res := so_res o |}.

(** What a program does.  Objects and lists are named by their number of creation. *)
Inductive call :=
| NewList (lm : list row)                         (* lm = [...] *)
| EditList (r : nat) (lm : list row)              (* lm.append, lm[0] = ..., lm.clear() by the caller *)
| Construct (c : ctor) (lm : option nat)          (* BeamAnalysis(..., LM=lm); [ct_LM c] is not read *)
| SetLoads (p r : nat)                            (* obj.set_loads(lm), obj.beam.loads = lm *)
| AddHelper (p : nat) (h : helper)                (* obj.add_udl(...), ... *)
| AddRow (p : nat) (r : row)                      (* obj.beam.add_load(row) *)
| SetRestraints (p : nat) (rs : list R)           (* obj.beam.restraints = rs *)
| SetPrescribed (p : nat) (ds : list (option R))  (* obj.beam.prescribed_displacements = ds *)
| AddSpan (p : nat) (L : R) (EI : rigid) (et : etarg) (GAv : option rigid) (kf : option R)  (* obj.beam.add_span *)
| IsStable (p : nat)
| Analyze (p : nat) (npts : option nat) (check : bool).

Definition given (c : ctor) (lm : list row) : ctor :=
  {| ct_L := ct_L c; ct_EI := ct_EI c; ct_R := ct_R c; ct_LM := Some lm; ct_types := ct_types c; ct_D := ct_D c; ct_sup := ct_sup c;
     ct_GAv := ct_GAv c; ct_kf := ct_kf c |}.

Section Calls.
Variable gl : nat -> list (R * R).
Variable ill : nat -> mat -> bool.

(** A name without object: NameError in the calling program. *)
Definition on_obj (st : store) (p : nat) (f : sobj -> store * result unit) : store * result unit :=
  match nth_error (st_objs st) p with Some o => f o | None => (st, Err NameError) end.

Definition exec (st : store) (k : call) : store * result unit :=
  match k with
  | NewList lm => (fst (new_list st lm), Ok tt)
  | EditList r lm => if Nat.ltb r (length (st_lists st)) then (write_list st r lm, Ok tt) else (st, Err NameError)
  | Construct c lm =>
      (* beam.py:110: a new empty list unless LM is given *)
      let (st1, r) := match lm with Some r => (st, r) | None => new_list st [] end in
      if Nat.ltb r (length (st_lists st1)) then
        match analysis_init (given c (rows_of st1 r)) with
        | Ok a => ({| st_lists := st_lists st1; st_objs := st_objs st1 ++ [{| so_an := a; so_lm := r; so_res := None |}] |}, Ok tt)
        | Err e => (st1, Err e)
        end
      else (st, Err NameError)
  | SetLoads p r =>
      on_obj st p (fun o => if Nat.ltb r (length (st_lists st))
                            then (write_obj st p {| so_an := so_an o; so_lm := r; so_res := so_res o |}, Ok tt)
                            else (st, Err NameError))
  | AddHelper p h =>
      on_obj st p (fun o => match helper_row h with
                            | Ok r => (write_list st (so_lm o) (rows_of st (so_lm o) ++ [r]), Ok tt)
                            | Err e => (st, Err e)
                            end)
  | AddRow p r => on_obj st p (fun o => (write_list st (so_lm o) (rows_of st (so_lm o) ++ [r]), Ok tt))
  | SetRestraints p rs =>
      on_obj st p (fun o => (write_obj st p (with_an o (with_beam (so_an o) (set_restraints (an_beam (so_an o)) rs))), Ok tt))
  | SetPrescribed p ds =>
      on_obj st p (fun o => let (b, r) := set_prescribed (an_beam (so_an o)) ds in
                            (write_obj st p (with_an o (with_beam (so_an o) b)), r))
  | AddSpan p L EI et GAv kf =>
      on_obj st p (fun o => let (b, r) := add_span (an_beam (so_an o)) L EI et GAv kf in
                            (write_obj st p (with_an o (with_beam (so_an o) b)), r))
  | IsStable p =>
      on_obj st p (fun o => let (a, r) := is_stable gl ill (seen st o) in
                            (write_obj st p (with_an o a), do _ <- r; Ok tt))
  | Analyze p npts check =>
      on_obj st p (fun o => let (a, r) := analyze gl ill (seen st o) (fun _ => []) npts check in
                            match r with
                            | Ok res => (write_obj st p {| so_an := a; so_lm := so_lm o; so_res := Some res |}, Ok tt)
                            | Err e => (write_obj st p (with_an o a), Err e)
                            end)
  end.

(** The program goes on after an exception (try/except). *)
Definition run_calls (ks : list call) : store := fold_left (fun st k => fst (exec st k)) ks store0.
End Calls.
