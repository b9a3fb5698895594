(** Model of [LoadPattern.analyze] (src/pycba/pattern.py:102-126) with what it leaves in the given
    analysis object. *)
From Coq Require Import String.
From Verif Require Import Base Linalg SectionModel FlexModel LoadModel FoundationModel
  ElementModel UtilsModel BeamModel AnalysisModel ResultsModel EnvelopeModel LoadCasesModel PatternModel.
Open Scope R_scope.
Local Open Scope list_scope.

(** The analysis object and its results ([_beam_results]); without shear points.  [an_out], the
    output of the object's own last analysis, plays no part here. *)
Record pobj := { po_an : analysis; po_res : option bres }.

Section Run.
Variable gl : nat -> list (R * R).
Variable ill : nat -> mat -> bool.

(** pattern.py:119-124, one arrangement. *)
Definition run_case (o : pobj) (npts : option nat) (lm : list row) : pobj * result bres :=
  let a := po_an o in
  match build_model (an_beam a) lm with
  | Err e => (o, Err e)
  | Ok m =>
      let (m', r) := analyze gl ill m (fun _ => []) (Some (match npts with Some n => n | None => an_npts a end)) true in
      match r with
      | Err e => (o, Err e)
      | Ok br => ({| po_an := with_npts (with_beam a (set_loads (an_beam a) lm)) (an_npts m'); po_res := Some br |}, Ok br)
      end
  end.
(** pattern.py:117-124: the loop; an exception ends it. *)
Fixpoint run_cases (o : pobj) (npts : option nat) (cs : list (list row)) : pobj * result (list bres) :=
  match cs with
  | [] => (o, Ok [])
  | lm :: t =>
      match run_case o npts lm with
      | (o1, Err e) => (o1, Err e)
      | (o1, Ok br) => let (o2, r) := run_cases o1 npts t in (o2, do l <- r; Ok (br :: l))
      end
  end.
(** pattern.py:102-126. *)
Definition pattern_run (p : lpattern) (o : pobj) (npts : option nat) : pobj * result env :=
  match to_load_cases p (b_nspans (an_beam (po_an o))) with
  | Err e => (o, Err e)
  | Ok cs => let (o', r) := run_cases o npts (map (fun c => lc_loads (fst c)) cs) in (o', do vr <- r; env_init vr)
  end.

(** A series of calls on one pattern object and one analysis object. *)
Inductive pcall :=
| SetDead (lm : list row) (gmax gmin : R)
| SetLive (lm : list row) (gmax gmin : R)
| RunPattern (npts : option nat).
Definition pstep (s : lpattern * pobj) (k : pcall) : lpattern * pobj :=
  match k with
  | SetDead lm x n => (set_dead (fst s) lm x n, snd s)
  | SetLive lm x n => (set_live (fst s) lm x n, snd s)
  | RunPattern npts => (fst s, fst (pattern_run (fst s) (snd s) npts))
  end.
Definition pcalls (s : lpattern * pobj) (ks : list pcall) : lpattern * pobj := fold_left pstep ks s.
End Run.
