(** What a load pattern should leave in the analysis object it was given. *)
From Verif Require Import Base Linalg SectionModel LoadModel ElementModel BeamModel AnalysisModel ResultsModel LoadCasesModel PatternModel PatRunModel.
Open Scope R_scope.
Local Open Scope list_scope.

(** The results held are those of the loads held: analysing the object again gives them. *)
Definition consistent (gl : nat -> list (R * R)) (ill : nat -> mat -> bool) (o : pobj) : Prop :=
  match po_res o with None => True | Some br => snd (analyze gl ill (po_an o) (fun _ => []) None true) = Ok br end.

(** The last loads set of each kind. *)
Definition last_dead (ks : list pcall) (p : lpattern) : option (list row) * R * R :=
  fold_left (fun acc k => match k with SetDead lm x n => (Some lm, x, n) | _ => acc end) ks (lp_dead p, lp_gmax p, lp_gmin p).
Definition last_live (ks : list pcall) (p : lpattern) : option (list row) * R * R :=
  fold_left (fun acc k => match k with SetLive lm x n => (Some lm, x, n) | _ => acc end) ks (lp_live p, lp_qmax p, lp_qmin p).

(** The number of stations of a run: the one asked for, or else the object's own. *)
Definition asked (npts : option nat) (o : pobj) : option nat :=
  match npts with Some n => Some n | None => Some (an_npts (po_an o)) end.
(** The beam of the object as a template for load cases. *)
Definition beam_of (o : pobj) : template := {| t_beam := an_beam (po_an o); t_npts := Some (an_npts (po_an o)) |}.
