(** Independent specification for programs with bridge analyses (C90). *)
From Verif Require Import Base Linalg SectionModel LoadModel FoundationModel ElementModel UtilsModel BeamModel AnalysisModel ResultsModel RenderModel SessionModel SessionSpec
  EnvelopeModel VehicleModel VehicleSpec BridgeModel BridgeSpec BrSessionModel.
Open Scope R_scope.

(** The bridge analysis [q] works on the beam analysis [p]. *)
Definition works_on (s : bstore) (q p : nat) : Prop := exists b, nth_error (bs_br s) q = Some b /\ bo_ba b = Some p.
Definition has_vehicle (s : bstore) (q : nat) (v : vehicle) : Prop := exists b, nth_error (bs_br s) q = Some b /\ bo_veh b = Some v.
(** The static loads that the bridge analysis [q] puts under its vehicle. *)
Definition static_loads (s : bstore) (q : nat) (rows : list row) : Prop :=
  exists b, nth_error (bs_br s) q = Some b /\ rows_of (bs_st s) (bo_static b) = rows.
(** The loads of the beam analysis [p]. *)
Definition loads_are (s : bstore) (p : nat) (rows : list row) : Prop := exists o, object (bs_st s) p o /\ loads_now (bs_st s) o = rows.
(** The static loads of [q] are the very list that [p] has as its loads. *)
Definition same_list (s : bstore) (q p : nat) : Prop :=
  exists b o, nth_error (bs_br s) q = Some b /\ bo_ba b = Some p /\ object (bs_st s) p o /\ so_lm o = bo_static b.

(** Calls that analyse vehicle positions: of which bridge analysis, at which positions, with which
    shear points, and which loads a vehicle [v] puts on the beam at a position. *)
Inductive drives : bcall -> nat -> list R -> sparg -> option R -> (vehicle -> beam -> R -> list row -> Prop) -> Prop :=
| dr_static q pos sp dv : drives (Static q pos sp dv) q [pos] sp dv axle_loads
| dr_run q ps sp dv : drives (Traverse q ps sp dv) q ps sp dv axle_loads
| dr_lane q ps w c sp dv : drives (LaneTraverse q ps w c sp dv) q ps sp dv (fun v => axle_lane_loads v c w).
(** The call replaces the loads of [p], or gives [q] another bridge. *)
Definition replaces (s : bstore) (k : bcall) (q p : nat) : Prop :=
  match k with
  | Plain (SetLoads p' _) => p' = p
  | SetBridge q' _ => q' = q
  | Static q' _ _ _ | Traverse q' _ _ _ | LaneTraverse q' _ _ _ _ _ => works_on s q' p
  | _ => False
  end.
(** The call changes the list that [q] has as its static loads: the caller edits it, or a load is
    added to an analysis that has this list as its loads. *)
Definition touches (s : bstore) (k : bcall) (q : nat) : Prop :=
  match k with
  | SetBridge q' _ => q' = q
  | Plain k => exists b, nth_error (bs_br s) q = Some b /\ edits (bs_st s) k (bo_static b)
  | _ => False
  end.
