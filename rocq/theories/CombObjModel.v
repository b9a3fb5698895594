(** Model of load combinations as objects that refer to a collection of load cases
    (src/pycba/load_cases.py:146-283, 628-654, 1053-1103) and of the envelope of a collection
    (551-585).  Collections are values here: what their lists share with the calling program
    is in CollModel.v. *)
From Coq Require Import String.
From Verif Require Import Base Linalg SectionModel LoadModel UtilsModel BeamModel AnalysisModel ResultsModel LoadCasesModel EnvelopeModel.
Open Scope R_scope.
Local Notation length := List.length.
Local Open Scope list_scope.

(** load_cases.py:295-303: a collection of cases for one beam. *)
Record collection := { cl_beam : template; cl_cases : list lcase }.
(** load_cases.py:146-157 [LoadCombination] with the reference [_bound], if it has one, to a
    collection.  The metadata is left out. *)
Record combination := { cb_name : string; cb_factors : fargs; cb_bound : option nat }.
(** The collections and combinations of a program; references are positions. *)
Record prog := { pg_colls : list collection; pg_combs : list combination }.
Definition prog0 : prog := {| pg_colls := []; pg_combs := [] |}.

(** load_cases.py:355-363 [case] and a change of the case found; the first of that name. *)
Fixpoint change_case (name : string) (f : lcase -> lcase) (cs : list lcase) : list lcase :=
  match cs with
  | [] => []
  | c :: t => if String.eqb (lc_name c) name then f c :: t else c :: change_case name f t
  end.
(** load_cases.py:406-423 [set]. *)
Definition lcs_set (cs : list lcase) (name : string) (loads : list row) : list lcase :=
  if has_name name cs then change_case name (fun c => {| lc_name := lc_name c; lc_loads := loads; lc_pos := None |}) cs
  else cs ++ [{| lc_name := name; lc_loads := loads; lc_pos := None |}].
(** load_cases.py:461-464 [add_load]. *)
Definition lcs_load (cs : list lcase) (name : string) (w : row) : list lcase :=
  if has_name name cs then change_case name (fun c => {| lc_name := lc_name c; lc_loads := lc_loads c ++ [w]; lc_pos := lc_pos c |}) cs
  else cs ++ [{| lc_name := name; lc_loads := [w]; lc_pos := None |}].

(** load_cases.py:159-175 [_resolve_load_cases]: the collection given, else the bound one. *)
Definition resolve (st : prog) (cb : combination) (given : option nat) : result collection :=
  match given with
  | Some h => get (pg_colls st) h
  | None => match cb_bound cb with Some h => get (pg_colls st) h | None => Err ValueError end
  end.

Section Methods.
Variable gl : nat -> list (R * R).
Variable ill : nat -> mat -> bool.

(** load_cases.py:177-188 [factor_vector]. *)
Definition cb_vector (st : prog) (cb : combination) (given : option nat) : result fvals :=
  do c <- resolve st cb given; lcs_factors (cl_cases c) (cb_factors cb).
(** load_cases.py:190-201 [to_LM]. *)
Definition cb_to_LM (st : prog) (cb : combination) (given : option nat) : result (list row) :=
  do c <- resolve st cb given; combined_loads (cl_cases c) (cb_factors cb).
(** load_cases.py:203-220 [to_load_case]. *)
Definition cb_to_case (st : prog) (cb : combination) (given : option nat) : result lcase :=
  do lm <- cb_to_LM st cb given; Ok {| lc_name := cb_name cb; lc_loads := lm; lc_pos := None |}.
(** load_cases.py:222-237 [response]. *)
Definition cb_response (st : prog) (cb : combination) (given : option nat) (resp : string) : result (list R * fvals) :=
  do c <- resolve st cb given; lcs_combine gl ill (cl_beam c) (cl_cases c) (cb_factors cb) resp.
(** load_cases.py:239-254 [analyze]: the results of the analysis returned. *)
Definition cb_analyze (st : prog) (cb : combination) (given : option nat) (npts : option nat) : result bres :=
  do c <- resolve st cb given; analyze_combination gl ill (cl_beam c) (cl_cases c) (cb_factors cb) npts.
(** load_cases.py:258-283 [envelope]. *)
Definition cb_envelope (st : prog) (cb : combination) (given : option nat) (npts : option nat) : result env :=
  do br <- cb_analyze st cb given npts; env_init [br].

(** load_cases.py:551-585 [LoadCases.envelope]. *)
Definition lcs_envelope (t : template) (cs : list lcase) (npts : option nat) : result env :=
  do rs <- mapM (fun c => analyse_loads gl ill t (lc_loads c) (match npts with Some n => Some n | None => t_npts t end)) cs;
  env_init rs.

(** What a program does.  [PMake] is LoadCases(beam), [PTarget] [target_combination] with the
    default name of its arguments in order, [PComb] a LoadCombination made directly. *)
Inductive pcall :=
| PMake (t : template)
| PAdd (h : nat) (name : string) (loads : list row)
| PSet (h : nat) (name : string) (loads : list row)
| PLoad (h : nat) (name : string) (w : row)
| PTarget (h : nat) (name : string) (x : R) (sense resp : string) (sel unsel : R)
| PComb (name : string) (f : fargs).

Definition put_coll (st : prog) (h : nat) (cs : list lcase) : prog :=
  match nth_error (pg_colls st) h with
  | None => st
  | Some c => {| pg_colls := firstn h (pg_colls st) ++ {| cl_beam := cl_beam c; cl_cases := cs |} :: skipn (S h) (pg_colls st); pg_combs := pg_combs st |}
  end.
Definition put_comb (st : prog) (cb : combination) : prog :=
  {| pg_colls := pg_colls st; pg_combs := pg_combs st ++ [cb] |}.

(** One call; the state comes back with the exception, if any.  A reference to no object is
    not a call a program can make (the state is left as it is). *)
Definition pexec (st : prog) (k : pcall) : prog * result unit :=
  match k with
  | PMake t => ({| pg_colls := pg_colls st ++ [{| cl_beam := t; cl_cases := [] |}]; pg_combs := pg_combs st |}, Ok tt)
  | PComb name f => (put_comb st {| cb_name := name; cb_factors := f; cb_bound := None |}, Ok tt)
  | PAdd h name loads =>
      match nth_error (pg_colls st) h with
      | None => (st, Err NameError)
      | Some c => match lcs_add (cl_cases c) {| lc_name := name; lc_loads := loads; lc_pos := None |} with
                  | Ok cs => (put_coll st h cs, Ok tt)
                  | Err e => (st, Err e)
                  end
      end
  | PSet h name loads =>
      match nth_error (pg_colls st) h with
      | None => (st, Err NameError)
      | Some c => (put_coll st h (lcs_set (cl_cases c) name loads), Ok tt)
      end
  | PLoad h name w =>
      match nth_error (pg_colls st) h with
      | None => (st, Err NameError)
      | Some c => (put_coll st h (lcs_load (cl_cases c) name w), Ok tt)
      end
  | PTarget h name x sense resp sel unsel =>
      match nth_error (pg_colls st) h with
      | None => (st, Err NameError)
      | Some c => match target_combination gl ill (cl_beam c) (cl_cases c) x sense resp sel unsel with
                  | Ok tc => (put_comb st {| cb_name := name; cb_factors := FSeq (tc_factors tc); cb_bound := Some h |}, Ok tt)
                  | Err e => (st, Err e)
                  end
      end
  end.
Definition prun (ks : list pcall) : prog := fold_left (fun st k => fst (pexec st k)) ks prog0.
End Methods.
