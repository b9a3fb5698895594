(** C90: which loads a vehicle run includes.  [brun gl ill ks] is the state of a program after the
    calls [ks] on any number of beam analyses, bridge analyses and load lists. *)
From Coq Require Import ZArith.
From Verif Require Import Base BaseFacts Linalg SectionModel LoadModel FoundationModel ElementModel UtilsModel BeamModel AnalysisModel AnalysisSpec ResultsModel ResultsFacts RenderModel SessionModel SessionSpec SessionFacts
  EnvelopeModel VehicleModel VehicleSpec VehicleFacts BridgeModel BridgeSpec BridgeFacts LoadCasesSpec BrSessionModel BrSessionSpec BrSessionFacts BrSessionExample.
Open Scope R_scope.

(** The loads analysed at a position are the static loads of the bridge analysis and those of the
    vehicle (and lane) at this position, in this order: nothing of earlier positions or runs.  The
    results are those of the beam under these loads, whatever was analysed before. *)
Theorem C90_positions : forall gl ill ks k q ps sp dv P p v o static s' ds r, let s := brun gl ill ks in
  drives k q ps sp dv P -> works_on s q p -> has_vehicle s q v -> static_loads s q static -> object (bs_st s) p o -> bridge_model (so_an o) ->
  (2 * b_nspans (an_beam (so_an o)) < length (b_R (an_beam (so_an o))))%nat -> Forall (Rlt length_tol) (b_lengths (an_beam (so_an o))) -> 0 <= v_L v ->
  bexec gl ill s k = (s', ds, r) ->
  (length ds <= length ps)%nat /\ (r = Ok tt -> length ds = length ps) /\
  exists sps, (ds <> [] -> exists pts, shear_sections (an_beam (so_an o)) sp dv sps pts) /\
    Forall2 (fun x d => exists rw, P v (an_beam (so_an o)) x rw /\ fst d = (static ++ rw)%list /\ snd d = analysed_with gl ill (so_an o) sps (fst d)) (firstn (length ds) ps) ds.
Proof. exact positions_loads. Qed.
Print Assumptions C90_positions.

(** Vehicle runs leave the static loads of every bridge analysis as they are. *)
Theorem C90_run_keeps : forall gl ill ks k q ps sp dv P q' rows, drives k q ps sp dv P -> static_loads (brun gl ill ks) q' rows -> static_loads (brun gl ill (ks ++ [k])%list) q' rows.
Proof. exact drive_static. Qed.
Print Assumptions C90_run_keeps.

(** So does every call that neither edits this very list nor gives the object another bridge. *)
Theorem C90_kept : forall gl ill ks k q rows, static_loads (brun gl ill ks) q rows -> ~ touches (brun gl ill ks) k q -> static_loads (brun gl ill (ks ++ [k])%list) q rows.
Proof. exact static_kept. Qed.
Print Assumptions C90_kept.

(** When a bridge analysis is given a beam analysis, its static loads are the loads of the latter. *)
Theorem C90_attached_new : forall gl ill ks p v rows, loads_are (brun gl ill ks) p rows ->
  let q := length (bs_br (brun gl ill ks)) in let s' := brun gl ill (ks ++ [NewBridge (Some p) v])%list in
  static_loads s' q rows /\ same_list s' q p /\ loads_are s' p rows.
Proof. exact attached_new. Qed.
Print Assumptions C90_attached_new.
Theorem C90_attached_set : forall gl ill ks p q b rows, loads_are (brun gl ill ks) p rows -> nth_error (bs_br (brun gl ill ks)) q = Some b ->
  let s' := brun gl ill (ks ++ [SetBridge q p])%list in
  static_loads s' q rows /\ same_list s' q p /\ loads_are s' p rows /\ (forall v, has_vehicle (brun gl ill ks) q v -> has_vehicle s' q v).
Proof. exact attached_set. Qed.
Print Assumptions C90_attached_set.

(** A load added to the beam analysis while both have the same list joins the static loads. *)
Theorem C90_joined : forall gl ill ks k q p w rows, same_list (brun gl ill ks) q p -> static_loads (brun gl ill ks) q rows -> adds k p w ->
  let s' := brun gl ill (ks ++ [Plain k])%list in static_loads s' q (rows ++ [w])%list /\ same_list s' q p.
Proof. exact joined. Qed.
Print Assumptions C90_joined.
(** They have the same list until the loads of the beam analysis are replaced (by the caller or a
    vehicle run on it) or the bridge analysis is given another bridge. *)
Theorem C90_link_kept : forall gl ill ks k q p, same_list (brun gl ill ks) q p -> ~ replaces (brun gl ill ks) k q p -> same_list (brun gl ill (ks ++ [k])%list) q p.
Proof. exact link_kept. Qed.
Print Assumptions C90_link_kept.

(** After the first analysed position no bridge analysis has the list of this beam analysis, which
    holds the loads of the last position; loads added to it are in no bridge analysis's static
    loads. *)
Theorem C90_link_cut : forall gl ill ks k q ps sp dv P p s' ds r, drives k q ps sp dv P -> works_on (brun gl ill ks) q p -> bexec gl ill (brun gl ill ks) k = (s', ds, r) -> ds <> [] ->
  (forall q', ~ same_list s' q' p) /\ loads_are s' p (fst (last ds ([], Err ValueError))) /\
  forall k2 w q' rows, adds k2 p w -> static_loads (brun gl ill ks) q' rows -> static_loads (brun gl ill (ks ++ [k; Plain k2])%list) q' rows.
Proof. exact link_cut. Qed.
Print Assumptions C90_link_cut.

(** So it is not the case that a load added to the beam analysis is included in the next run. *)
Theorem C90_later_loads_refuted : forall gl ill, ~ (forall ks k2 p w k q ps sp dv P s' ds d r, adds k2 p w -> drives k q ps sp dv P -> works_on (brun gl ill (ks ++ [Plain k2])) q p ->
  bexec gl ill (brun gl ill (ks ++ [Plain k2])) k = (s', ds, r) -> In d ds -> In w (fst d)).
Proof. exact later_loads. Qed.
Print Assumptions C90_later_loads_refuted.

(** Hypotheses are met: a beam analysis, a bridge analysis on it and a run. *)
Example C90_ready : forall gl ill, works_on (brun gl ill br_prog) 0 0 /\ has_vehicle (brun gl ill br_prog) 0 truck /\ static_loads (brun gl ill br_prog) 0 [Row 1 1 [2]] /\
  same_list (brun gl ill br_prog) 0 0 /\ loads_are (brun gl ill br_prog) 0 [Row 1 1 [2]] /\
  exists o, object (bs_st (brun gl ill br_prog)) 0 o /\ bridge_model (so_an o) /\ (2 * b_nspans (an_beam (so_an o)) < length (b_R (an_beam (so_an o))))%nat /\
    Forall (Rlt length_tol) (b_lengths (an_beam (so_an o))) /\ 0 <= v_L truck.
Proof. exact sample_ready. Qed.
Example C90_driven : forall gl ill, exists s' d rw, bexec gl ill (brun gl ill br_prog) (Static 0 5 (SpPoints None) None) = (s', [d], Ok tt) /\
  fst d = (Row 1 1 [2] :: rw)%list /\ axle_rows (an_beam ff) truck 5 rw.
Proof. exact sample_drive. Qed.
