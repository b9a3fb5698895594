(** Property theorems: load patterns (C33). *)
From Coq Require Import Lia String.
From Verif Require Import Base Linalg SectionModel FlexModel LoadModel LoadSpec LMFacts FoundationModel ElementModel ElementSpec UtilsModel BeamModel AnalysisModel AnalysisSpec
  ConstSectFacts AnalysisFacts3 ReleaseFacts ResultsModel ResultsSpec EnvelopeModel EnvelopeSpec LoadCasesModel LoadCasesSpec CaseExample PatternModel PatternSpec PatternFacts.
Open Scope R_scope.
Local Notation length := List.length.
Local Open Scope list_scope.

(** C33: the cases are the arrangements of the beam, in order and under distinct names; in
    each case every span carries its dead and its live loads with the factor the arrangement
    gives it. *)
Theorem C33_pattern_cases : forall p N g q, lp_dead p = Some g -> lp_live p = Some q -> Forall wf_row g -> Forall wf_row q ->
  exists cs pg pq, to_load_cases p N = Ok cs /\ unique_names (map fst cs) /\ parse_LM g = Ok pg /\ parse_LM q = Ok pq /\
  Forall2 (fun c a => lc_name (fst c) = fst a /\ (forall k, In k (snd c) <-> (1 <= k <= N)%nat /\ snd a k) /\
    exists ps, parse_LM (lc_loads (fst c)) = Ok ps /\
    forall i, (i < N)%nat -> carries (lp_gmax p) (lp_gmin p) (lp_qmax p) (lp_qmin p) (snd a) (S i) (loads_of pg i) (loads_of pq i) (loads_of ps i))
    cs (arrangements N).
Proof. exact patterns_spec. Qed.
Print Assumptions C33_pattern_cases.

(** The same in terms of the two calls that set the loads and their factors, in either order
    and whatever was set before. *)
Theorem C33_set_loads : forall p0 p N g q gmax gmin qmax qmin, Forall wf_row g -> Forall wf_row q ->
  p = set_live (set_dead p0 g gmax gmin) q qmax qmin \/ p = set_dead (set_live p0 q qmax qmin) g gmax gmin ->
  exists cs pg pq, to_load_cases p N = Ok cs /\ unique_names (map fst cs) /\ parse_LM g = Ok pg /\ parse_LM q = Ok pq /\
  Forall2 (fun c a => lc_name (fst c) = fst a /\ (forall k, In k (snd c) <-> (1 <= k <= N)%nat /\ snd a k) /\
    exists ps, parse_LM (lc_loads (fst c)) = Ok ps /\
    forall i, (i < N)%nat -> carries gmax gmin qmax qmin (snd a) (S i) (loads_of pg i) (loads_of pq i) (loads_of ps i))
    cs (arrangements N).
Proof. exact set_loads_spec. Qed.
Print Assumptions C33_set_loads.

(** Three spans, a dead load on each and a live load on the outer two. *)
Definition three_spans : lpattern := set_live (set_dead lpattern0 [Row 1 1 [20]; Row 2 1 [20]; Row 3 1 [20]] (27/20) 1) [Row 1 2 [10; 3]; Row 3 1 [12]] (3/2) 0.
Example C33_nonvacuous : exists cs, to_load_cases three_spans 3 = Ok cs /\ length cs = 5%nat /\
  map (fun c => (lc_name (fst c), snd c)) cs = [("Max hogging spans 1-2", [1; 2]%nat); ("Max hogging spans 2-3", [2; 3]%nat); ("Max odd spans", [1; 3]%nat); ("Max even spans", [2]%nat); ("All spans max", [1; 2; 3]%nat)]%string /\
  lc_loads (fst (nth 0 cs ({| lc_name := ""; lc_loads := []; lc_pos := None |}, []))) =
    [Row 1 1 [27/20 * 20]; Row 2 1 [27/20 * 20]; Row 3 1 [1 * 20]; Row 1 2 [3/2 * 10; 3]; Row 3 1 [0 * 12]].
Proof. eexists. split; [reflexivity|]. repeat split. Qed.

(** Without dead or without live loads the cases are refused. *)
Theorem C33_unset_loads : forall p N, lp_dead p = None \/ lp_live p = None -> to_load_cases p N = Err ValueError.
Proof. exact pattern_unset. Qed.
Print Assumptions C33_unset_loads.

(** The analysis of the pattern is the envelope of the analyses of the cases: it exists when
    each of them succeeds, and only then. *)
Theorem C33_pattern_envelope : forall gl ill p t npts g q vr, lp_dead p = Some g -> lp_live p = Some q -> Forall wf_row g -> Forall wf_row q -> Forall (Rlt 0) (b_lengths (t_beam t)) ->
  forall cs, to_load_cases p (b_nspans (t_beam t)) = Ok cs ->
  Forall2 (fun c r => analyse_loads gl ill t (lc_loads (fst c)) (match npts with Some n => Some n | None => t_npts t end) = Ok r) cs vr ->
  exists e, pattern_analyze gl ill p t npts = Ok e /\ e_nres e = length vr /\ envelope_of vr e.
Proof. exact pattern_envelope. Qed.
Print Assumptions C33_pattern_envelope.
Theorem C33_pattern_envelope_only : forall gl ill p t npts e, pattern_analyze gl ill p t npts = Ok e ->
  exists cs vr, to_load_cases p (b_nspans (t_beam t)) = Ok cs /\
    Forall2 (fun c r => analyse_loads gl ill t (lc_loads (fst c)) (match npts with Some n => Some n | None => t_npts t end) = Ok r) cs vr /\ envelope_of vr e.
Proof. exact pattern_converse. Qed.
Print Assumptions C33_pattern_envelope_only.
(** An encastre span with a dead load and no live load. *)
Definition one_span : lpattern := set_live (set_dead lpattern0 [Row 1 1 [2]] 3 1) [] 1 0.
Example C33_envelope_nonvacuous : exists e, pattern_analyze sample_gl (fun _ _ => false) one_span ff_template None = Ok e /\ e_nres e = 3%nat.
Proof.
  assert (A : forall q, exists br, analyse_loads sample_gl (fun _ _ => false) ff_template [Row 1 1 [q]] None = Ok br).
  { intros q. destruct (ffq_results sample_gl (fun _ _ => false) q gauss2_rule) as (a' & br & E & _). exists br.
    unfold analyse_loads. cbn [ff_template t_beam]. rewrite ffq_build. cbn [rbind]. rewrite E. reflexivity. }
  destruct (A (3 * 2)) as (r1 & E1). destruct (A (1 * 2)) as (r2 & E2).
  destruct (C33_pattern_envelope sample_gl (fun _ _ => false) one_span ff_template None [Row 1 1 [2]] [] [r1; r2; r1] eq_refl eq_refl) with
    (cs := [({| lc_name := "Max odd spans"; lc_loads := [Row 1 1 [3 * 2]]; lc_pos := None |}, [1%nat]);
            ({| lc_name := "Max even spans"; lc_loads := [Row 1 1 [1 * 2]]; lc_pos := None |}, []);
            ({| lc_name := "All spans max"; lc_loads := [Row 1 1 [3 * 2]]; lc_pos := None |}, [1%nat])]%string) as (e & E & N & _).
  - repeat constructor.
  - constructor.
  - repeat constructor. lra.
  - reflexivity.
  - repeat (constructor; [assumption|]). constructor.
  - exists e. auto.
Qed.
