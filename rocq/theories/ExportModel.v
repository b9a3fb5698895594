(** Model of the exports of results (src/pycba/results.py:345-375, 824-854;
    src/pycba/analysis.py:232-252). *)
From Coq Require Import String Ascii.
From Verif Require Import Base SectionModel LoadModel BeamModel AnalysisModel ResultsModel EnvelopeModel SpanModel.
Open Scope R_scope.
Local Notation length := List.length.
Local Open Scope list_scope.

(** np.column_stack of one-dimensional arrays, as the list of its rows: ValueError unless they
    are all as long as the first. *)
Definition column_stack (cols : list (list R)) : result (list (list R)) :=
  match cols with
  | [] => Err ValueError
  | c :: _ =>
    if forallb (fun d => Nat.eqb (length d) (length c)) cols
    then Ok (map (fun k => map (fun d => nth k d 0) cols) (seq 0 (length c)))
    else Err ValueError
  end.

(** The keyword arguments of np.savetxt that the code sets when they are not given; the others
    ([fmt], [newline], [footer], [encoding]) keep the defaults of numpy. *)
Record csv_opts := { c_delimiter : option string; c_header : option string; c_comments : option string }.
Definition csv_default : csv_opts := {| c_delimiter := None; c_header := None; c_comments := None |}.
Definition or_default (o : option string) (d : string) : string := match o with Some s => s | None => d end.
Definition newline : string := String (ascii_of_nat 10) EmptyString.
(** str.join. *)
Fixpoint join (sep : string) (l : list string) : string :=
  match l with [] => EmptyString | [s] => s | s :: t => (s ++ sep ++ join sep t)%string end.
(** str.replace(newline, newline + c). *)
Fixpoint comment_lines (c : string) (s : string) : string :=
  match s with
  | EmptyString => EmptyString
  | String a t => if Ascii.eqb a (ascii_of_nat 10) then (newline ++ c ++ comment_lines c t)%string else String a (comment_lines c t)
  end.
(** np.savetxt: the text written.  [num] is the format of a number ("%.18e"); a delimiter is
    taken literally (it has no percent sign). *)
Definition savetxt (num : R -> string) (rows : list (list R)) (delimiter header comments : string) : string :=
  ((if Nat.eqb (String.length header) 0 then EmptyString else comments ++ comment_lines comments header ++ newline)
   ++ fold_right (fun row s => join delimiter (map num row) ++ newline ++ s)%string EmptyString rows)%string.

(** results.py:362-375 [BeamResults.to_csv]: the text written to the path. *)
Definition results_csv (num : R -> string) (r : bres) (o : csv_opts) : result string :=
  let res := br_all r in
  do data <- column_stack [r_x res; r_M res; r_V res; r_R res; r_D res];
  Ok (savetxt num data (or_default (c_delimiter o) ",") (or_default (c_header o) "x,M,V,R,D") (or_default (c_comments o) "")).

(** The one-dimensional arrays of an envelope: those by station and the extreme reactions. *)
Definition env_array (e : env) (attr : string) : result (list R) :=
  if String.eqb attr "Rmaxval" then Ok (e_Rmaxval e) else if String.eqb attr "Rminval" then Ok (e_Rminval e)
  else station_attr e attr.
(** results.py:841-854 [Envelopes.to_csv]. *)
Definition env_csv (num : R -> string) (e : env) (attrs : list string) (o : csv_opts) : result string :=
  do arrays <- mapM (env_array e) attrs;
  do data <- column_stack (e_x e :: arrays);
  Ok (savetxt num data (or_default (c_delimiter o) ",") (or_default (c_header o) (join "," ("x" :: attrs)%string)) (or_default (c_comments o) "")).

(** A dictionary in order of insertion: setting a present name keeps its place. *)
Fixpoint set_item (d : list (string * list R)) (k : string) (v : list R) : list (string * list R) :=
  match d with
  | [] => [(k, v)]
  | (k', v') :: t => if String.eqb k k' then (k', v) :: t else (k', v') :: set_item t k v
  end.
(** pd.DataFrame of a dictionary of arrays: its columns; ValueError if they differ in length. *)
Definition data_frame (d : list (string * list R)) : result (list (string * list R)) :=
  match d with
  | [] => Ok []
  | (_, c) :: _ => if forallb (fun p => Nat.eqb (length (snd p)) (length c)) d then Ok d else Err ValueError
  end.
(** results.py:345-360 [BeamResults.to_dataframe], pandas being installed. *)
Definition results_frame (r : bres) : result (list (string * list R)) :=
  let res := br_all r in
  data_frame [("x", r_x res); ("M", r_M res); ("V", r_V res); ("R", r_R res); ("D", r_D res)]%string.
(** results.py:824-839 [Envelopes.to_dataframe], pandas being installed. *)
Definition env_frame (e : env) (attrs : list string) : result (list (string * list R)) :=
  do d <- foldM (fun d a => do v <- env_array e a; Ok (set_item d a v)) attrs [("x", e_x e)]%string;
  data_frame d.

(** analysis.py:232-252: nothing is written before an analysis has been run. *)
Definition analysis_csv (num : R -> string) (res : option bres) (o : csv_opts) : result (option string) :=
  match res with None => Ok None | Some r => do s <- results_csv num r o; Ok (Some s) end.
Definition analysis_frame (res : option bres) : result (option (list (string * list R))) :=
  match res with None => Ok None | Some r => do d <- results_frame r; Ok (Some d) end.
