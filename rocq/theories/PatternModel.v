(** Model of src/pycba/pattern.py: factored load arrangements and their envelope. *)
From Coq Require Import String.
From Verif Require Import Base Linalg SectionModel FlexModel LoadModel FoundationModel
  ElementModel UtilsModel BeamModel AnalysisModel ResultsModel EnvelopeModel LoadCasesModel.
Open Scope R_scope.
Local Open Scope list_scope.
Local Notation length := List.length.

(** pattern.py:28-48: the object; [lp_dead], [lp_live] are None until set (50-100, which copy
    their argument). *)
Record lpattern := { lp_dead : option (list row); lp_live : option (list row);
  lp_gmax : R; lp_gmin : R; lp_qmax : R; lp_qmin : R }.
Definition lpattern0 : lpattern := {| lp_dead := None; lp_live := None; lp_gmax := 0; lp_gmin := 0; lp_qmax := 0; lp_qmin := 0 |}.
Definition set_dead (p : lpattern) (lm : list row) (gmax gmin : R) : lpattern :=
  {| lp_dead := Some lm; lp_live := lp_live p; lp_gmax := gmax; lp_gmin := gmin; lp_qmax := lp_qmax p; lp_qmin := lp_qmin p |}.
Definition set_live (p : lpattern) (lm : list row) (gmax gmin : R) : lpattern :=
  {| lp_dead := lp_dead p; lp_live := Some lm; lp_gmax := lp_gmax p; lp_gmin := lp_gmin p; lp_qmax := gmax; lp_qmin := gmin |}.

(** load_cases.py:841-846 [_choose_max_by_span]; rows come from [factor_LM], which only
    returns full rows, so the other row forms keep the minimum. *)
Definition row_span (r : row) : option Z := match r with Row s _ _ => Some s | _ => None end.
Definition choose_max (wmin wmax : list row) (spans : list nat) : list row :=
  map (fun p => match row_span (snd p) with
                | Some s => if existsb (fun k => Z.eqb s (Z.of_nat k)) spans then snd p else fst p
                | None => fst p
                end) (combine wmin wmax).

(** pattern.py:152-188: the spans that carry the maximum in each arrangement ([range]s). *)
Definition odd_spans (N : nat) : list nat := filter Nat.odd (seq 1 N).
Definition even_spans (N : nat) : list nat := filter Nat.even (seq 1 N).
Definition hog_name (i : nat) : string := "Max hogging spans " ++ dec i ++ "-" ++ dec (i + 1).

(** A case and its 1-based spans of maximum load. *)
Definition pat_add (cs : list (lcase * list nat)) (name : string) (lm : list row) (spans : list nat) : result (list (lcase * list nat)) :=
  if has_name name (map fst cs) then Err ValueError
  else Ok (cs ++ [({| lc_name := name; lc_loads := lm; lc_pos := None |}, spans)]).

(** pattern.py:128-190 [to_load_cases] for [N] spans. *)
Definition to_load_cases (p : lpattern) (N : nat) : result (list (lcase * list nat)) :=
  match lp_dead p, lp_live p with
  | Some g, Some q =>
      do g1 <- factor_LM g (lp_gmax p); do q1 <- factor_LM q (lp_qmax p);
      let wmax := g1 ++ q1 in
      do g2 <- factor_LM g (lp_gmin p); do q2 <- factor_LM q (lp_qmin p);
      let wmin := g2 ++ q2 in
      do cs <- foldM (fun cs i => pat_add cs (hog_name i) (choose_max wmin wmax [i; (i + 1)%nat]) [i; (i + 1)%nat]) (seq 1 (N - 1)) [];
      do cs <- pat_add cs "Max odd spans" (choose_max wmin wmax (odd_spans N)) (odd_spans N);
      do cs <- pat_add cs "Max even spans" (choose_max wmin wmax (even_spans N)) (even_spans N);
      pat_add cs "All spans max" wmax (seq 1 N)
  | _, _ => Err ValueError
  end.

Section Analysis.
Variable gl : nat -> list (R * R).
Variable ill : nat -> mat -> bool.
(** pattern.py:102-126 [analyze]; the results and loads left in the given analysis object
    are in PatRunModel. *)
Definition pattern_analyze (p : lpattern) (t : template) (npts : option nat) : result env :=
  do cs <- to_load_cases p (b_nspans (t_beam t));
  do vr <- mapM (fun c => analyse_loads gl ill t (lc_loads (fst c)) (match npts with Some n => Some n | None => t_npts t end)) cs;
  env_init vr.
End Analysis.
