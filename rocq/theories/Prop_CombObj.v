(** C76 and C78: programs with load combinations, and the envelope of a collection of load
    cases ([CombObjSpec] says what a call edits and what "best" is; a program is any list of
    calls, those that raise included). *)
From Coq Require Import String Lia Lra.
From Verif Require Import Base BaseFacts Linalg SectionModel FlexModel LoadModel LoadSpec UtilsModel FoundationModel ElementModel ElementSpec BeamModel AnalysisModel AnalysisSpec ConstSectFacts AnalysisFacts3 ReleaseFacts ResultsModel ResultsSpec ResultsFacts
  LoadCasesModel LoadCasesSpec CaseExample EnvelopeModel EnvelopeSpec EnvReadModel EnvReadSpec CombObjModel CombObjSpec CombObjFacts CombObjFacts2 CollEnvFacts CombObjExample.
Open Scope R_scope.
Local Notation length := List.length.
Local Open Scope list_scope.

(** C76: a call changes no combination, and no collection but the one it is made to edit;
    an edited collection keeps its beam and its cases in their order, and only grows... *)
Theorem C76_kept : forall gl ill ks ks',
  (forall j cb, comb_is (prun gl ill ks) j cb -> comb_is (prun gl ill (ks ++ ks')) j cb) /\
  (forall h c, coll_is (prun gl ill ks) h c -> Forall (fun k => ~ edits_coll k h) ks' -> coll_is (prun gl ill (ks ++ ks')) h c) /\
  (forall h c, coll_is (prun gl ill ks) h c -> exists c' more, coll_is (prun gl ill (ks ++ ks')) h c' /\ cl_beam c' = cl_beam c /\
    map lc_name (cl_cases c') = map lc_name (cl_cases c) ++ more).
Proof. exact runs_kept. Qed.
Print Assumptions C76_kept.

(** ...a target combination stays the most adverse one as long as its collection is not
    edited, whatever else the program does (full claim: also when it is)... *)
Theorem C76_best_partial : forall gl ill ks h name x sense resp sel unsel ks' (minimum : bool),
  snd (pexec gl ill (prun gl ill ks) (PTarget h name x sense resp sel unsel)) = Ok tt ->
  In (lower sense) (if minimum then min_words else max_words) ->
  let st := prun gl ill ((ks ++ [PTarget h name x sense resp sel unsel]) ++ ks') in
  exists cb c, comb_is st (length (pg_combs (prun gl ill ks))) cb /\ cb_name cb = name /\
    (Forall (fun k => ~ edits_coll k h) ks' -> coll_is st h c /\ best gl ill minimum st cb c x resp sel unsel).
Proof. exact target_stays_best. Qed.
Print Assumptions C76_best_partial.

(** ...but not when a case is given other loads: its factors are those of the old ones... *)
Theorem C76_stale_refuted : forall gl ill, gauss_rule gl -> exists ks h name x sense resp sel unsel ks' cb c,
  let st := prun gl ill ((ks ++ [PTarget h name x sense resp sel unsel]) ++ ks') in
  snd (pexec gl ill (prun gl ill ks) (PTarget h name x sense resp sel unsel)) = Ok tt /\ In (lower sense) min_words /\
  comb_is st (length (pg_combs (prun gl ill ks))) cb /\ coll_is st h c /\
  (exists f, factors_among unsel sel (length (cl_cases c)) f) /\ (exists xs y, cb_response gl ill st cb None resp = Ok (xs, F1 y)) /\
  ~ best gl ill true st cb c x resp sel unsel.
Proof. exact stale. Qed.
Print Assumptions C76_stale_refuted.

(** ...and when a case has been added, every use of it raises... *)
Theorem C76_grown : forall gl ill ks h name x sense resp sel unsel ks' c0 c,
  snd (pexec gl ill (prun gl ill ks) (PTarget h name x sense resp sel unsel)) = Ok tt ->
  let st := prun gl ill ((ks ++ [PTarget h name x sense resp sel unsel]) ++ ks') in
  coll_is (prun gl ill ks) h c0 -> coll_is st h c -> length (cl_cases c) <> length (cl_cases c0) ->
  exists cb, comb_is st (length (pg_combs (prun gl ill ks))) cb /\ all_raise gl ill st cb.
Proof. exact target_grown. Qed.
Print Assumptions C76_grown.

(** ...as does every use, without a collection given, of a combination made directly. *)
Theorem C76_unbound : forall gl ill st cb, cb_bound cb = None -> all_raise gl ill st cb.
Proof. exact unbound_raises. Qed.
Print Assumptions C76_unbound.

(** The response of a combination is that of the one load case it can be turned into. *)
Theorem C76_as_case : forall gl ill st cb given c resp rr xs y, resolve st cb given = Ok c -> no_settlement (t_beam (cl_beam c)) ->
  (forall k, In k (cl_cases c) -> Forall wf_row (lc_loads k)) -> response_of resp = Some rr ->
  (rr = RespM \/ rr = RespV \/ Forall (eq 1%nat) (b_types (t_beam (cl_beam c))) \/ (forall k s ty args, In k (cl_cases c) -> In (Row s ty args) (lc_loads k) -> ty <> 6%Z)) ->
  cb_response gl ill st cb given resp = Ok (xs, F1 y) ->
  exists k, cb_to_case st cb given = Ok k /\ lc_name k = cb_name cb /\ collect_responses gl ill (cl_beam c) [k] resp = Ok (xs, [y]).
Proof. exact as_case. Qed.
Print Assumptions C76_as_case.

(** Two opposite cases, hogging at the right support; afterwards a third case is added to
    another collection, then to this one. *)
Example C76_nonvacuous : forall gl ill, gauss_rule gl -> snd (pexec gl ill (prun gl ill pair_calls) pair_ask) = Ok tt /\ In (lower "Hogging") min_words /\
  Forall (fun k => ~ edits_coll k 0) [PMake ff_template; PAdd 1 "c" [Row 1 1 [7]]; PComb "d" (FSeq [1; 1])]%string /\
  (exists cb c xs y, resolve (prun gl ill (pair_calls ++ [pair_ask])) cb None = Ok c /\ no_settlement (t_beam (cl_beam c)) /\ (forall k, In k (cl_cases c) -> Forall wf_row (lc_loads k)) /\
    cb_response gl ill (prun gl ill (pair_calls ++ [pair_ask])) cb None "M" = Ok (xs, F1 y)) /\
  exists c0 c, coll_is (prun gl ill pair_calls) 0 c0 /\ coll_is (prun gl ill ((pair_calls ++ [pair_ask]) ++ [PAdd 0 "c" [Row 1 1 [7]]]%string)) 0 c /\ length (cl_cases c) <> length (cl_cases c0).
Proof. exact pair_sample. Qed.

(** [set] gives the first case of the name these loads, [add_load] one load more; both make
    the case, last, when there is none; [add] makes it too, and refuses a name in use. *)
Theorem C76_edits : forall gl ill st h c name, coll_is st h c ->
  (forall loads, exists st' cs', pexec gl ill st (PSet h name loads) = (st', Ok tt) /\ coll_is st' h {| cl_beam := cl_beam c; cl_cases := cs' |} /\
     edited name (fun _ k' => k' = plain_case name loads) (plain_case name loads) (cl_cases c) cs') /\
  (forall w, exists st' cs', pexec gl ill st (PLoad h name w) = (st', Ok tt) /\ coll_is st' h {| cl_beam := cl_beam c; cl_cases := cs' |} /\
     edited name (fun k k' => lc_name k' = name /\ lc_loads k' = lc_loads k ++ [w] /\ lc_pos k' = lc_pos k) (plain_case name [w]) (cl_cases c) cs') /\
  (forall loads, (exists k, In k (cl_cases c) /\ lc_name k = name) -> pexec gl ill st (PAdd h name loads) = (st, Err ValueError)) /\
  (forall loads, (forall k, In k (cl_cases c) -> lc_name k <> name) -> exists st', pexec gl ill st (PAdd h name loads) = (st', Ok tt) /\
     coll_is st' h {| cl_beam := cl_beam c; cl_cases := cl_cases c ++ [plain_case name loads] |}).
Proof. exact edits. Qed.
Print Assumptions C76_edits.

(** With a collection given, a combination does what the one with its factors bound to that
    collection does, whatever collection it is bound to itself. *)
Theorem C76_given : forall gl ill st cb g c st' cb', coll_is st g c -> cb_factors cb' = cb_factors cb -> cb_bound cb' = Some g -> coll_is st' g c ->
  same_uses gl ill st cb (Some g) st' cb' None.
Proof. exact given_wins. Qed.
Print Assumptions C76_given.
(** Two collections of opposite cases, and a combination of the first used with the second. *)
Example C76_given_nonvacuous : forall gl ill, exists st cb cb' c c', st = prun gl ill (pair_calls ++ [PMake ff_template; PAdd 1 "a" [Row 1 1 [7]]]%string) /\
  coll_is st 0 c /\ coll_is st 1 c' /\ cl_cases c <> cl_cases c' /\ cb_bound cb = Some 0%nat /\ cb_factors cb' = cb_factors cb /\ cb_bound cb' = Some 1%nat /\
  cb_to_LM st cb (Some 1%nat) <> cb_to_LM st cb None.
Proof. exact given_sample. Qed.

(** C78: the envelope of a collection is that of the analyses of its cases one by one, on
    their common stations... *)
Theorem C78_envelope : forall gl ill t cs npts vr, Forall (Rlt 0) (b_lengths (t_beam t)) -> cs <> [] ->
  Forall2 (fun lm r => analyse_loads gl ill t lm (used t npts) = Ok r) (map lc_loads cs) vr ->
  exists e, lcs_envelope gl ill t cs npts = Ok e /\ e_nres e = length cs /\ envelope_of vr e /\ coincident vr e /\ on_stations (e_x e) vr.
Proof. exact envelope_runs. Qed.
Print Assumptions C78_envelope.

(** ...it raises what the first case that cannot be analysed raises, and for no case at all... *)
Theorem C78_fails : forall gl ill t cs npts cs1 c cs2 er, cs = cs1 ++ c :: cs2 ->
  (forall d, In d cs1 -> exists r, analyse_loads gl ill t (lc_loads d) (used t npts) = Ok r) ->
  analyse_loads gl ill t (lc_loads c) (used t npts) = Err er -> lcs_envelope gl ill t cs npts = Err er.
Proof. exact envelope_fails. Qed.
Print Assumptions C78_fails.
Theorem C78_empty : forall gl ill t npts, lcs_envelope gl ill t [] npts = Err IndexError.
Proof. exact envelope_empty. Qed.
Print Assumptions C78_empty.

(** ...and it bounds every combination of the cases with factors that are not negative and
    add up to at most one. *)
Theorem C78_bounds_combinations : forall gl ill t cs f resp rr xs y e, Forall (Rlt 0) (b_lengths (t_beam t)) -> lcs_envelope gl ill t cs None = Ok e -> response_of resp = Some rr ->
  lcs_combine gl ill t cs (FSeq f) resp = Ok (xs, F1 y) -> Forall (Rle 0) f -> lsum f <= 1 ->
  xs = e_x e /\
  (rr = RespM -> length y = length xs /\ forall k, (k < length xs)%nat -> nth k (e_Mmin e) 0 <= nth k y 0 <= nth k (e_Mmax e) 0) /\
  (rr = RespV -> length y = length xs /\ forall k, (k < length xs)%nat -> nth k (e_Vmin e) 0 <= nth k y 0 <= nth k (e_Vmax e) 0).
Proof. exact bounds_combination. Qed.
Print Assumptions C78_bounds_combinations.

(** The envelope of a combination is that of its one analysis. *)
Theorem C78_combination : forall gl ill st cb given npts c br, resolve st cb given = Ok c -> Forall (Rlt 0) (b_lengths (t_beam (cl_beam c))) ->
  cb_analyze gl ill st cb given npts = Ok br ->
  exists e, cb_envelope gl ill st cb given npts = Ok e /\ e_nres e = 1%nat /\ envelope_of [br] e /\ on_stations (e_x e) [br].
Proof. exact combination_envelope. Qed.
Print Assumptions C78_combination.

Example C78_nonvacuous : forall gl ill, gauss_rule gl -> Forall (Rlt 0) (b_lengths (t_beam ff_template)) /\
  (exists vr, Forall2 (fun lm r => analyse_loads gl ill ff_template lm (used ff_template None) = Ok r) (map lc_loads (pair_cases 2 (-2))) vr) /\
  (exists e xs y, lcs_envelope gl ill ff_template (pair_cases 2 (-2)) None = Ok e /\ lcs_combine gl ill ff_template (pair_cases 2 (-2)) (FSeq [1/2; 1/4]) "M" = Ok (xs, F1 y) /\ (0 < length xs)%nat) /\
  exists cb br, resolve (prun gl ill (pair_calls ++ [pair_ask])) cb None = Ok {| cl_beam := ff_template; cl_cases := pair_cases 2 (-2) |} /\
    cb_analyze gl ill (prun gl ill (pair_calls ++ [pair_ask])) cb None (Some 7%nat) = Ok br.
Proof. exact coll_sample. Qed.
