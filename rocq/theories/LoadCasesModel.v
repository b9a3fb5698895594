(** Model of src/pycba/load_cases.py: factors, combinations, response matrices, envelopes
    of response matrices, segment and pattern loads.  The collection object and the sharing
    of its load lists are in CollModel.v. *)
From Coq Require Import Ascii String DecimalString.
From Verif Require Import Base Linalg SectionModel FlexModel LoadModel FoundationModel
  ElementModel UtilsModel BeamModel AnalysisModel ResultsModel.
Open Scope R_scope.

(** load_cases.py:34-47 [LoadCase].  [lc_pos] is the metadata entry "load_position" when
    there is one.  The other metadata and [loaded_spans] are only read by the plots. *)
Record lcase := { lc_name : string; lc_loads : list row; lc_pos : option Z }.

(** Python's str of a natural number. *)
Definition dec (n : nat) : string := NilEmpty.string_of_uint (Nat.to_uint n).

(** load_cases.py:381-404 [add], on values. *)
Definition has_name (s : string) (cs : list lcase) : bool := existsb (fun c => String.eqb (lc_name c) s) cs.
Definition lcs_add (cs : list lcase) (c : lcase) : result (list lcase) :=
  if has_name (lc_name c) cs then Err ValueError else Ok (cs ++ [c])%list.

(** load_cases.py:329-342 [load_positions]. *)
Definition load_positions (cs : list lcase) : list Z :=
  map (fun p => match lc_pos (snd p) with Some z => z | None => Z.shiftl 1 (Z.of_nat (fst p)) end)
    (combine (seq 0 (List.length cs)) cs).

(** load_cases.py:790-791 [_span_boundaries]. *)
Fixpoint bounds_from (x : R) (Ls : list R) : list R :=
  match Ls with [] => [x] | L :: t => x :: bounds_from (x + L) t end.
Definition boundaries (Ls : list R) : list R := bounds_from 0 Ls.

(** load_cases.py:1120. *)
Definition seg_tol : R := 1e-9.

(** load_cases.py:1134-1151: the row of one span, if any; [i] counts from 0. *)
Definition segment_row (w x0 x1 : R) (i : nat) (s e : R) : list row :=
  let os := Rmax x0 s in
  let oe := Rmin x1 e in
  let cover := oe - os in
  if Rleb cover seg_tol then []
  else
    let len := e - s in
    let a := os - s in
    let a := if isclose 1e-5 seg_tol a 0 then 0 else a in
    let cover := if isclose 1e-5 seg_tol cover len then len else cover in
    if Reqb a 0 && Reqb cover len then [Row (Z.of_nat i + 1) 1 [w]]
    else [Row (Z.of_nat i + 1) 3 [w; a; cover]].

(** load_cases.py:1106-1153 [_make_segment_udl]. *)
Fixpoint segment_rows (w x0 x1 : R) (i : nat) (bs : list R) : list row :=
  match bs with
  | s :: ((e :: _) as t) => segment_row w x0 x1 i s e ++ segment_rows w x0 x1 (S i) t
  | _ => []
  end%list.
Definition make_segment_udl (Ls : list R) (x0 x1 w : R) : result (list row) :=
  let bs := boundaries Ls in
  let total := last bs 0 in
  if Rleb x1 x0 then Err ValueError
  else if Rltb x0 (- seg_tol) || Rltb (total + seg_tol) x1 then Err ValueError
  else
    let x0 := Rmax 0 (Rmin x0 total) in
    let x1 := Rmax 0 (Rmin x1 total) in
    Ok (segment_rows w x0 x1 0 bs).

(** load_cases.py:1165-1208 [make_patterned_udl]; [n] is an int (a bool or a float raises
    ValueError, not modelled; nor are negative counts, which raise like 0).  [np.diff] of the
    cumulated boundaries is the list of lengths, exactly in real arithmetic. *)
Definition pattern_name (i j : nat) : string :=
  "UDL span " ++ dec i ++ " segment " ++ dec j.
Definition pattern_case (w L : R) (n i j idx : nat) : lcase :=
  let seg := L / INR n in
  let a := INR j * seg in
  let c := if Nat.eqb j (n - 1) then L - a else seg in
  {| lc_name := pattern_name i (j + 1); lc_loads := [Row (Z.of_nat i) 3 [w; a; c]];
     lc_pos := Some (Z.shiftl 1 (Z.of_nat idx)) |}.
Definition pattern_span (w L : R) (n i : nat) (st : list lcase * nat) : result (list lcase * nat) :=
  foldM (fun st j => do cs <- lcs_add (fst st) (pattern_case w L n i j (snd st)); Ok (cs, S (snd st)))
    (seq 0 n) st.
Definition make_patterned_udl (Ls : list R) (w : R) (n : nat) : result (list lcase) :=
  if Nat.ltb n 1 then Err ValueError
  else
    do st <- foldM (fun st p => pattern_span w (snd p) n (fst p) st)
               (combine (seq 1 (List.length Ls)) Ls) ([], O);
    Ok (fst st).

(** load_cases.py:446-459 [add_span_udl] on a fresh collection, 1211-1222
    [make_span_udl_cases]. *)
Definition span_udl_name (i : nat) : string := "UDL on span " ++ dec i.
Definition make_span_udl (Ls : list R) (w : R) : result (list lcase) :=
  foldM (fun cs i => lcs_add cs {| lc_name := span_udl_name (i + 1); lc_loads := [Row (Z.of_nat i + 1) 1 [w]]; lc_pos := None |})
    (seq 0 (List.length Ls)) [].

(** ** Factors (load_cases.py:587-626).  Simplification: an integer key is an int (the code
    applies int()); arrays of more than two dimensions are not modelled. *)
Inductive fkey := KName (s : string) | KIdx (z : Z).
Inductive fargs := FSeq (l : list R) | FRows (l : list (list R)) | FMap (l : list (fkey * R)).
Inductive fvals := F1 (l : list R) | F2 (l : list (list R)).

(** load_cases.py:606: the dictionary of names; a later case wins. *)
Fixpoint name_index_from (s : string) (cs : list lcase) (i : nat) : option nat :=
  match cs with
  | [] => None
  | c :: t => match name_index_from s t (S i) with
              | Some k => Some k
              | None => if String.eqb (lc_name c) s then Some i else None
              end
  end.
Definition key_index (cs : list lcase) (k : fkey) : result nat :=
  match k with
  | KName s => match name_index_from s cs 0 with Some i => Ok i | None => Err KeyError end
  | KIdx z => py_index (List.length cs) z
  end.
Fixpoint set_nth (l : list R) (i : nat) (v : R) : list R :=
  match l, i with
  | [], _ => []
  | _ :: t, O => v :: t
  | x :: t, S j => x :: set_nth t j v
  end.
Definition map_factors (cs : list lcase) (m : list (fkey * R)) : result (list R) :=
  foldM (fun out kv => do i <- key_index cs (fst kv); Ok (set_nth out i (snd kv))) m
    (repeat 0 (List.length cs)).
(** load_cases.py:587-626 [factors]. *)
Definition lcs_factors (cs : list lcase) (f : fargs) : result fvals :=
  match f with
  | FMap m => do out <- map_factors cs m; Ok (F1 out)
  | FSeq l => if negb (Nat.eqb (List.length l) (List.length cs)) then Err ValueError else Ok (F1 l)
  | FRows rs => if negb (forallb (fun r => Nat.eqb (List.length r) (List.length cs)) rs) then Err ValueError
                else Ok (F2 rs)
  end.

(** load_cases.py:674-697 [combined_loads]. *)
Definition combined_loads (cs : list lcase) (f : fargs) : result (list row) :=
  do v <- lcs_factors cs f;
  match v with
  | F2 _ => Err ValueError
  | F1 l =>
      foldM (fun acc p => if Reqb (fst p) 0 then Ok acc
                          else do r <- factor_LM (lc_loads (snd p)) (fst p); Ok (acc ++ r)%list)
        (combine l cs) []
  end.

(** ** Analysis of a case.  A template is a Beam, or a BeamAnalysis with its npts
    (load_cases.py:741-752). *)
Record template := { t_beam : beam; t_npts : option nat }.

(** load_cases.py:849-871 [build_pycba_model]; the foundation moduli are not passed on. *)
Definition build_ctor (b : beam) (lm : list row) : ctor :=
  {| ct_L := b_lengths b; ct_EI := EIEach (b_EIs b); ct_R := Some (b_R b); ct_LM := Some lm;
     ct_types := map (fun t => EtNum [Z.of_nat t]) (b_types b); ct_D := Some (b_D b); ct_sup := None;
     ct_GAv := match b_GAv b with [] => GNone | g => GEach g end; ct_kf := KNone |}.
Definition build_model (b : beam) (lm : list row) : result analysis := analysis_init (build_ctor b lm).

Inductive response := RespM | RespV | RespD | RespR.
(** load_cases.py:897-911. *)
Definition response_of (s : string) : option response :=
  let u := upper s in
  if String.eqb u "M" || String.eqb u "MOMENT" then Some RespM
  else if String.eqb u "V" || String.eqb u "SHEAR" then Some RespV
  else if String.eqb u "D" || String.eqb u "DEFLECTION" || String.eqb u "DISPLACEMENT" then Some RespD
  else if String.eqb u "R" || String.eqb u "ROTATION" then Some RespR
  else None.
Definition pick (r : response) (m : mres) : list R :=
  match r with RespM => r_M m | RespV => r_V m | RespD => r_D m | RespR => r_R m end.

(** numpy.allclose(x, y). *)
Definition allclose (x y : list R) : bool :=
  Nat.eqb (List.length x) (List.length y) && forallb (fun p => isclose 1e-5 1e-8 (fst p) (snd p)) (combine x y).

Section Analysis.
Variable gl : nat -> list (R * R).
Variable ill : nat -> mat -> bool.

(** A model built for the loads [lm] and analysed. *)
Definition analyse_loads (t : template) (lm : list row) (npts : option nat) : result bres :=
  do a <- build_model (t_beam t) lm;
  snd (analyze gl ill a (fun _ => []) npts true).

(** load_cases.py:874-916 [analyse_load_case]. *)
Definition analyse_load_case (t : template) (lm : list row) (resp : string) : result (list R * list R) :=
  match response_of resp with
  | None => Err ValueError
  | Some r => do br <- analyse_loads t lm (t_npts t); Ok (r_x (br_all br), pick r (br_all br))
  end.

(** load_cases.py:922-954 [collect_response_matrix]. *)
Definition collect_responses (t : template) (cs : list lcase) (resp : string) : result (list R * list (list R)) :=
  do st <- foldM (fun st c =>
      do xy <- analyse_load_case t (lc_loads c) resp;
      match fst st with
      | None => Ok (Some (fst xy), snd st ++ [snd xy])%list
      | Some x0 => if allclose (fst xy) x0 then Ok (fst st, snd st ++ [snd xy])%list else Err ValueError
      end) cs (None, []);
  match fst st with None => Err ValueError | Some x => Ok (x, snd st) end.

(** [f @ B]. *)
Definition dot (f v : list R) : R := lsum (map (fun p => fst p * snd p) (combine f v)).
Definition column (B : list (list R)) (k : nat) : list R := map (fun r => nth k r 0) B.
Definition cols (B : list (list R)) : nat := List.length (hd [] B).
Definition matvec (f : list R) (B : list (list R)) : list R :=
  map (fun k => dot f (column B k)) (seq 0 (cols B)).

(** load_cases.py:656-672 [combine]. *)
Definition lcs_combine (t : template) (cs : list lcase) (f : fargs) (resp : string) : result (list R * fvals) :=
  do xB <- collect_responses t cs resp;
  do v <- lcs_factors cs f;
  Ok (fst xB, match v with
              | F1 l => F1 (matvec l (snd xB))
              | F2 ls => F2 (map (fun l => matvec l (snd xB)) ls)
              end).

(** load_cases.py:699-717 [analyze_combination]. *)
Definition analyze_combination (t : template) (cs : list lcase) (f : fargs) (npts : option nat) : result bres :=
  do lm <- combined_loads cs f;
  analyse_loads t lm (match npts with Some n => Some n | None => t_npts t end).

(** ** Response at a section *)
Definition lmin (l : list R) : R := match l with [] => 0 | x :: t => fold_left Rmin t x end.
Definition lmax (l : list R) : R := match l with [] => 0 | x :: t => fold_left Rmax t x end.
(** load_cases.py:1033-1050 [_response_at]. *)
Definition response_at (xs : list R) (B : list (list R)) (x : R) : result (list R) :=
  if negb (forallb (fun r => Nat.eqb (List.length r) (List.length xs)) B) then Err ValueError
  else if Rltb x (lmin xs) || Rltb (lmax xs) x then Err ValueError
  else Ok (map (fun r => read_at x xs r) B).

(** load_cases.py:1070-1076: [Some true] for the minimum. *)
Definition sense_of (s : string) : option bool :=
  let k := lower s in
  if String.eqb k "min" || String.eqb k "minimum" || String.eqb k "neg" || String.eqb k "negative" || String.eqb k "hogging"
  then Some true
  else if String.eqb k "max" || String.eqb k "maximum" || String.eqb k "pos" || String.eqb k "positive" || String.eqb k "sagging"
  then Some false
  else None.

(** load_cases.py:1085-1086, 1095: factors of the cases and names of the selected ones. *)
Definition chosen (minimum : bool) (v : R) : bool := if minimum then Rltb v 0 else Rltb 0 v.
Definition target_factors (minimum : bool) (sel unsel : R) (vs : list R) : list R :=
  map (fun v => if chosen minimum v then sel else unsel) vs.
Record tcomb := { tc_factors : list R; tc_values : list R; tc_selected : list string }.

(** load_cases.py:1053-1103 [_make_target_combination]. *)
Definition target_combination (t : template) (cs : list lcase) (x : R) (sense resp : string) (sel unsel : R)
    : result tcomb :=
  match sense_of sense with
  | None => Err ValueError
  | Some mn =>
      do xB <- collect_responses t cs resp;
      do vs <- response_at (fst xB) (snd xB) x;
      Ok {| tc_factors := target_factors mn sel unsel vs; tc_values := vs;
            tc_selected := map (fun p => lc_name (fst p)) (filter (fun p => chosen mn (snd p)) (combine cs vs)) |}
  end.
End Analysis.

(** ** Envelopes of a response matrix *)
(** Rows of one length, the others are not arrays of two dimensions. *)
Definition rect (B : list (list R)) : bool :=
  match B with [] => false | r :: t => forallb (fun s => Nat.eqb (List.length s) (List.length r)) t end.

(** load_cases.py:957-985 [additive_envelope].  [argsort] is numpy's sort of one column;
    index arrays are given station by station. *)
Definition additive_envelope (argsort : list R -> list nat) (B : list (list R)) (n : nat)
    : result (list R * list R * list (list nat) * list (list nat)) :=
  if negb (rect B) then Err ValueError
  else if Nat.ltb n 1 then Err ValueError
  else if Nat.ltb (List.length B) n then Err ValueError
  else
    let order := map (fun k => argsort (column B k)) (seq 0 (cols B)) in
    let idx_neg := map (firstn n) order in
    let idx_pos := map (fun o => skipn (List.length o - n) o) order in
    let total := fun k idx => lsum (map (fun j => nth k (nth j B []) 0) idx) in
    Ok (map (fun p => total (fst p) (snd p)) (combine (seq 0 (cols B)) idx_neg),
        map (fun p => total (fst p) (snd p)) (combine (seq 0 (cols B)) idx_pos), idx_neg, idx_pos).

(** load_cases.py:988-1030 [sign_selective_envelope]. *)
Definition sign_selective (B : list (list R)) (pos : option (list Z))
    : result (list R * list R * list Z * list Z) :=
  if negb (rect B) then Err ValueError
  else
    do ps <- match pos with
             | None => Ok (map (fun i => Z.shiftl 1 (Z.of_nat i)) (seq 0 (List.length B)))
             | Some l => if negb (Nat.eqb (List.length l) (List.length B)) then Err ValueError else Ok l
             end;
    let ks := seq 0 (cols B) in
    let masks := map (fun k => fold_left (fun m p =>
                        let b := nth k (nth (fst p) B []) 0 in
                        if Rltb b 0 then (Z.lor (fst m) (snd p), snd m)
                        else if Rltb 0 b then (fst m, Z.lor (snd m) (snd p)) else m)
                      (combine (seq 0 (List.length ps)) ps) (0%Z, 0%Z)) ks in
    Ok (map (fun k => lsum (map (fun b => if Rltb b 0 then b else 0) (column B k))) ks,
        map (fun k => lsum (map (fun b => if Rltb 0 b then b else 0) (column B k))) ks,
        map fst masks, map snd masks).
