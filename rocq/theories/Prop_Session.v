(** C72-C74: programs with several analysis objects ([SessionSpec] says what a call may
    change; a program is any list of calls, those that raise included). *)
From Verif Require Import RenderModel.
From Verif Require Import Base SectionModel LoadModel ElementModel UtilsModel BeamModel BeamSpec AnalysisModel ResultsModel ResultsFacts
  SessionModel SessionSpec SessionFacts SessionExample.
Open Scope R_scope.
Local Notation length := List.length.
Local Open Scope list_scope.

(** C72: a call changes no object but the one it is made on, and those that refer to the load
    list it extends... *)
Theorem C72_frame : forall gl ill ks k q o, object (run_calls gl ill ks) q o -> ~ may_change (run_calls gl ill ks) k q ->
  object (run_calls gl ill (ks ++ [k])) q o /\ seen (run_calls gl ill (ks ++ [k])) o = seen (run_calls gl ill ks) o.
Proof. exact frame. Qed.
Print Assumptions C72_frame.

(** ...and no list but the one extended or edited... *)
Theorem C72_lists : forall gl ill ks k r, (r < length (st_lists (run_calls gl ill ks)))%nat -> ~ edits (run_calls gl ill ks) k r ->
  rows_of (run_calls gl ill (ks ++ [k])) r = rows_of (run_calls gl ill ks) r.
Proof. exact run_lists. Qed.
Print Assumptions C72_lists.

(** ...a load that is added comes last in the loads of every object that refers to the list,
    and in the list itself... *)
Theorem C72_add : forall gl ill ks k p o w, object (run_calls gl ill ks) p o -> adds k p w ->
  let st := run_calls gl ill ks in let st' := run_calls gl ill (ks ++ [k]) in
  snd (exec gl ill st k) = Ok tt /\ rows_of st' (so_lm o) = rows_of st (so_lm o) ++ [w] /\
  forall q x, object st q x -> object st' q x /\
    (refers st q (so_lm o) -> loads_now st' x = loads_now st x ++ [w]) /\ (~ refers st q (so_lm o) -> loads_now st' x = loads_now st x).
Proof. exact run_add. Qed.
Print Assumptions C72_add.

(** ...a new object refers to the list it was given, or to a list of its own... *)
Theorem C72_constructed : forall gl ill ks c lm q o, object (run_calls gl ill (ks ++ [Construct c lm])) q o -> q = length (st_objs (run_calls gl ill ks)) ->
  analysis_init (given c (loads_now (run_calls gl ill (ks ++ [Construct c lm])) o)) = Ok (so_an o) /\ so_res o = None /\ an_npts (so_an o) = 100%nat /\
  match lm with
  | Some r => so_lm o = r
  | None => loads_now (run_calls gl ill (ks ++ [Construct c lm])) o = [] /\ forall p, ~ refers (run_calls gl ill ks) p (so_lm o)
  end.
Proof. exact run_constructed. Qed.
Print Assumptions C72_constructed.

(** ...so as long as no list is given to two objects, the objects are independent. *)
Theorem C72_unshared : forall gl ill ks k p q o, unshared gl ill ks -> subject k = Some p -> p <> q -> object (run_calls gl ill ks) q o ->
  object (run_calls gl ill (ks ++ [k])) q o /\ seen (run_calls gl ill (ks ++ [k])) o = seen (run_calls gl ill ks) o.
Proof. exact unshared_frame. Qed.
Print Assumptions C72_unshared.

(** Without that they are not: a point load added to the first of two objects made with the
    same list is also a load of the second, and is in the list of the caller. *)
Theorem C72_shared_refuted : forall gl ill, exists o, object (run_calls gl ill two_objects) 1 o /\ loads_now (run_calls gl ill two_objects) o = [Row 1 1 [2]] /\
  (forall k, In k two_objects -> subject k = None) /\
  let st' := run_calls gl ill (two_objects ++ [AddHelper 0 (AddPL 1 7 3)]) in
  object st' 1 o /\ loads_now st' o = [Row 1 1 [2]; Row 1 2 [7; 3]] /\ rows_of st' 0 = [Row 1 1 [2]; Row 1 2 [7; 3]].
Proof. exact sharing. Qed.
Print Assumptions C72_shared_refuted.

(** Two objects, the second with its own list. *)
Example C72_nonvacuous : forall gl ill, unshared gl ill own_lists /\
  (exists o, object (run_calls gl ill own_lists) 0 o /\ loads_now (run_calls gl ill own_lists) o = [Row 1 1 [2]]) /\
  (exists o, object (run_calls gl ill own_lists) 1 o /\ loads_now (run_calls gl ill own_lists) o = []) /\
  ~ may_change (run_calls gl ill own_lists) (AddHelper 0 (AddUDL 1 5)) 1 /\ ~ edits (run_calls gl ill own_lists) (AddHelper 0 (AddUDL 1 5)) 1.
Proof.
  intros gl ill. split; [exact (own_unshared gl ill)|]. split; [eexists; split; reflexivity|]. split; [eexists; split; reflexivity|]. split.
  - intros (r & (o1 & A1 & B1) & o2 & A2 & B2). injection A1 as <-. injection A2 as <-. cbn in *. congruence.
  - intros (o1 & A1 & B1). injection A1 as <-. discriminate.
Qed.

(** C73: an object whose lists are complete gives the results (or the exception) of a new
    object made from its present members, restraints, displacements and loads, whatever calls
    came before; [Some n]: the number of stations in force... *)
Theorem C73_rebuild : forall gl ill ks p o, object (run_calls gl ill ks) p o -> complete (seen (run_calls gl ill ks) o) ->
  exists a', analysis_init (described (an_beam (seen (run_calls gl ill ks) o))) = Ok a' /\
    forall npts check, let st' := run_calls gl ill (ks ++ [Analyze p npts check]) in
      let n := effective npts (an_npts (so_an o)) in
      exists o', object st' p o' /\
      match snd (analyze gl ill a' (fun _ => []) (Some n) check) with
      | Ok res => snd (exec gl ill (run_calls gl ill ks) (Analyze p npts check)) = Ok tt /\ so_res o' = Some res
      | Err e => snd (exec gl ill (run_calls gl ill ks) (Analyze p npts check)) = Err e /\ so_res o' = so_res o
      end.
Proof. exact rebuilt. Qed.
Print Assumptions C73_rebuild.

(** ...the results of an object change by its own successful analyses only... *)
Theorem C73_results : forall gl ill ks k q o o', object (run_calls gl ill ks) q o -> object (run_calls gl ill (ks ++ [k])) q o' ->
  so_res o' = match k with
    | Analyze p npts check => if Nat.eqb q p then
        match snd (analyze gl ill (seen (run_calls gl ill ks) o) (fun _ => []) npts check) with Ok r => Some r | Err _ => so_res o end else so_res o
    | _ => so_res o end.
Proof. exact run_res. Qed.
Print Assumptions C73_results.

(** ...and the number of stations by its own analyses only, also those that raise... *)
Theorem C73_stations : forall gl ill ks k q o o', object (run_calls gl ill ks) q o -> object (run_calls gl ill (ks ++ [k])) q o' ->
  an_npts (so_an o') = match k with
    | Analyze p npts _ => if Nat.eqb q p then effective npts (an_npts (so_an o)) else an_npts (so_an o)
    | _ => an_npts (so_an o) end.
Proof. exact run_npts. Qed.
Print Assumptions C73_stations.

(** ...so a number once given stays: after analyze(npts=5), analyze() does not use the
    documented 100. *)
Theorem C73_default_stations_refuted : forall gl ill, let ks := one_object ++ [Analyze 0 (Some 5%nat) false; Analyze 0 None false] in
  exists o br r, object (run_calls gl ill ks) 0 o /\ so_res o = Some br /\ nth_error (br_mem br) 0 = Some r /\
    length (r_x r) = 8%nat /\ (documented None + 3)%nat = 103%nat.
Proof. exact sticky. Qed.
Print Assumptions C73_default_stations_refuted.

Example C73_nonvacuous : forall gl ill, exists o br, object (run_calls gl ill one_object) 0 o /\ complete (seen (run_calls gl ill one_object) o) /\
  snd (analyze gl ill (seen (run_calls gl ill one_object) o) (fun _ => []) None false) = Ok br.
Proof.
  intros gl ill. destruct (ff_any gl ill None) as (br & r & E & _). exists {| so_an := ff; so_lm := 0; so_res := None |}, br.
  split; [reflexivity|]. split; [exact (one_complete gl ill)|]. exact E.
Qed.

(** A span added to the beam of an object is never analysed: every later analysis raises,
    although a new object can be made from the same data. *)
Theorem C73_added_span_refuted : forall gl ill ks p L EI et GAv kf ks' npts check,
  snd (exec gl ill (run_calls gl ill ks) (AddSpan p L EI et GAv kf)) = Ok tt ->
  snd (exec gl ill (run_calls gl ill (ks ++ AddSpan p L EI et GAv kf :: ks')) (Analyze p npts check)) <> Ok tt.
Proof. exact added_span. Qed.
Print Assumptions C73_added_span_refuted.
Example C73_added_span_nonvacuous : forall gl ill, snd (exec gl ill (run_calls gl ill one_object) (AddSpan 0 4 (RConst 3) (EtNum [1%Z]) None None)) = Ok tt /\
  let ks := one_object ++ [AddSpan 0 4 (RConst 3) (EtNum [1%Z]) None None; SetRestraints 0 [-1; -1; -1; 0; -1; 0]; SetPrescribed 0 [None; None; None; None; None; None]] in
  exists o a, object (run_calls gl ill ks) 0 o /\ analysis_init (described (an_beam (seen (run_calls gl ill ks) o))) = Ok a.
Proof. intros gl ill. exact (conj (grown_sample gl ill) (grown_described gl ill)). Qed.

(** C74: a call that raises leaves the members, restraints, displacements, loads and results of
    every object as they were.  Full claim: every call; missing: add_span with a member type
    that is none... *)
Theorem C74_raises_partial : forall gl ill ks k e q o, snd (exec gl ill (run_calls gl ill ks) k) = Err e -> object (run_calls gl ill ks) q o ->
  (forall p L EI et GAv kf, k = AddSpan p L EI et GAv kf -> exists t, type_code et t) ->
  exists o', object (run_calls gl ill (ks ++ [k])) q o' /\ an_beam (seen (run_calls gl ill (ks ++ [k])) o') = an_beam (seen (run_calls gl ill ks) o) /\
    an_n (so_an o') = an_n (so_an o) /\ so_lm o' = so_lm o /\ so_res o' = so_res o.
Proof. exact run_raises. Qed.
Print Assumptions C74_raises_partial.
Example C74_nonvacuous : forall gl ill, snd (exec gl ill (run_calls gl ill one_object) (SetPrescribed 0 [None])) = Err ValueError /\
  exists o, object (run_calls gl ill one_object) 0 o.
Proof. intros gl ill. split; [reflexivity|eexists; reflexivity]. Qed.

(** ...which raises and yet leaves its length and rigidity in the beam: the next span that is
    added gets the length of the rejected one, and the beam counts a member more than it has. *)
Theorem C74_rejected_span_refuted : forall gl ill, let bad := AddSpan 0 4 (RConst 3) (EtNum [7%Z]) None None in
  snd (exec gl ill (run_calls gl ill one_object) bad) <> Ok tt /\ (forall t, ~ type_code (EtNum [7%Z]) t) /\
  let ks := one_object ++ [bad; AddSpan 0 9 (RConst 5) (EtNum [1%Z]) None None] in
  exists o m, object (run_calls gl ill ks) 0 o /\ member_at (an_beam (so_an o)) 1 = Ok m /\ mb_L m = 4 /\
    b_nspans (an_beam (so_an o)) = 3%nat /\ member_at (an_beam (so_an o)) 2 = Err IndexError.
Proof. exact rejected_span. Qed.
Print Assumptions C74_rejected_span_refuted.
