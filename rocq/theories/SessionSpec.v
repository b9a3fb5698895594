(** Independent specification for programs with several analysis objects (C72-C74). *)
From Verif Require Import RenderModel.
From Verif Require Import Base Linalg SectionModel LoadModel FoundationModel ElementModel UtilsModel BeamModel AnalysisModel ResultsModel
  SessionModel.
Open Scope R_scope.

(** [o] is the [p]-th analysis object. *)
Definition object (st : store) (p : nat) (o : sobj) : Prop := nth_error (st_objs st) p = Some o.
(** The object [p] refers to the load list [r]. *)
Definition refers (st : store) (p r : nat) : Prop := exists o, object st p o /\ so_lm o = r.
(** The loads that object [p] would analyse, and everything else it would. *)
Definition loads_now (st : store) (o : sobj) : list row := b_LM (an_beam (seen st o)).

(** The objects a call may change: the one it is made on; for a call that adds a load also
    those that refer to the same list; for an edit of a list those that refer to it. *)
Definition may_change (st : store) (k : call) (q : nat) : Prop :=
  match k with
  | NewList _ | Construct _ _ => False
  | EditList r _ => refers st q r
  | AddHelper p _ | AddRow p _ => exists r, refers st p r /\ refers st q r
  | SetLoads p _ | SetRestraints p _ | SetPrescribed p _ | AddSpan p _ _ _ _ _ | IsStable p | Analyze p _ _ => p = q
  end.

(** A call that hands a list to an object while another object refers to it. *)
Definition shares (st : store) (k : call) : Prop :=
  match k with
  | Construct _ (Some r) => exists q, refers st q r
  | SetLoads p r => exists q, q <> p /\ refers st q r
  | _ => False
  end.
(** No list was ever handed over while in use. *)
Inductive unshared (gl : nat -> list (R * R)) (ill : nat -> mat -> bool) : list call -> Prop :=
| un_nil : unshared gl ill []
| un_snoc ks k : unshared gl ill ks -> ~ shares (run_calls gl ill ks) k -> unshared gl ill (ks ++ [k]).

(** The object on which a call is made. *)
Definition subject (k : call) : option nat :=
  match k with
  | NewList _ | EditList _ _ | Construct _ _ => None
  | SetLoads p _ | AddHelper p _ | AddRow p _ | SetRestraints p _ | SetPrescribed p _ | AddSpan p _ _ _ _ _ | IsStable p | Analyze p _ _ => Some p
  end.

(** The constructor arguments that describe a beam as it is now. *)
Definition described (b : beam) : ctor :=
  {| ct_L := b_lengths b; ct_EI := EIEach (b_EIs b); ct_R := Some (b_R b); ct_LM := Some (b_LM b);
     ct_types := map (fun t => EtNum [Z.of_nat t]) (b_types b); ct_D := Some (b_D b); ct_sup := None;
     ct_GAv := GEach (b_GAv b); ct_kf := KEach (b_kf b) |}.
(** The lists of an object have the lengths that its number of members asks for: no span was
    added after construction, the restraint vector has two entries per node. *)
Definition complete (a : analysis) : Prop :=
  let b := an_beam a in
  b_nspans b = an_n a /\ length (b_lengths b) = an_n a /\ length (b_types b) = an_n a /\
  length (b_R b) = (2 * an_n a + 2)%nat /\ length (b_D b) = length (b_R b).

(** The number of stations asked for: the argument if it is above 3. *)
Definition effective (npts : option nat) (before : nat) : nat :=
  match npts with Some p => if Nat.ltb 3 p then p else before | None => before end.
(** The documented number: 100 if omitted or not above 3. *)
Definition documented (npts : option nat) : nat := effective npts 100.

(** The lists a call changes. *)
Definition edits (st : store) (k : call) (r : nat) : Prop :=
  match k with
  | EditList r' _ => r' = r
  | AddHelper p _ | AddRow p _ => refers st p r
  | _ => False
  end.
(** The call adds the load row [w] to object [p]. *)
Inductive adds : call -> nat -> row -> Prop :=
| ad_helper p h w : helper_row h = Ok w -> adds (AddHelper p h) p w
| ad_row p w : adds (AddRow p w) p w.
