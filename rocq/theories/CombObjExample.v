(** Sample programs for C76 and C78. *)
From Coq Require Import String Lia Lra.
From Verif Require Import Base BaseFacts Linalg SectionModel FlexModel LoadModel LoadSpec UtilsModel FoundationModel ElementModel ElementSpec BeamModel AnalysisModel AnalysisSpec AnalysisFacts2 ResultsModel ResultsSpec ResultsFacts
  LoadCasesModel LoadCasesSpec LoadCasesFacts CaseExample EnvelopeModel EnvelopeSpec EnvReadModel EnvReadSpec CombObjModel CombObjSpec CombObjFacts CollEnvFacts.
Open Scope R_scope.
Local Notation length := List.length.
Local Open Scope list_scope.

Lemma pair_sample gl ill : gauss_rule gl -> snd (pexec gl ill (prun gl ill pair_calls) pair_ask) = Ok tt /\ In (lower "Hogging") min_words /\
  Forall (fun k => ~ edits_coll k 0) [PMake ff_template; PAdd 1 "c" [Row 1 1 [7]]; PComb "d" (FSeq [1; 1])]%string /\
  (exists cb c xs y, resolve (prun gl ill (pair_calls ++ [pair_ask])) cb None = Ok c /\ no_settlement (t_beam (cl_beam c)) /\ (forall k, In k (cl_cases c) -> Forall wf_row (lc_loads k)) /\
    cb_response gl ill (prun gl ill (pair_calls ++ [pair_ask])) cb None "M" = Ok (xs, F1 y)) /\
  exists c0 c, coll_is (prun gl ill pair_calls) 0 c0 /\ coll_is (prun gl ill ((pair_calls ++ [pair_ask]) ++ [PAdd 0 "c" [Row 1 1 [7]]]%string)) 0 c /\ length (cl_cases c) <> length (cl_cases c0).
Proof.
  intros G. destruct (pair_asked gl ill G) as [A B]. split; [exact A|]. split; [cbn; auto 10|]. split; [repeat constructor; cbn; auto|]. split.
  - destruct (pair_collect gl ill 2 (-2) G) as (xs & y0 & y1 & C & _). rewrite B.
    exists {| cb_name := "worst"; cb_factors := FSeq [1; 0]; cb_bound := Some 0%nat |}, {| cl_beam := ff_template; cl_cases := pair_cases 2 (-2) |}, xs, (matvec [1; 0] [y0; y1]).
    split; [reflexivity|]. split; [intros i; left; exact (ff_prescribed i)|]. split.
    + intros k [<-|[<-|[]]]; cbn; repeat constructor.
    + unfold cb_response. cbn [resolve get pg_colls cb_bound nth_error rbind cl_beam cl_cases cb_factors]. apply combine_1; [exact C|reflexivity].
  - rewrite prun_snoc, B. eexists. eexists. split; [reflexivity|]. split; [reflexivity|]. cbn. discriminate.
Qed.
Lemma coll_sample gl ill : gauss_rule gl -> Forall (Rlt 0) (b_lengths (t_beam ff_template)) /\
  (exists vr, Forall2 (fun lm r => analyse_loads gl ill ff_template lm (used ff_template None) = Ok r) (map lc_loads (pair_cases 2 (-2))) vr) /\
  (exists e xs y, lcs_envelope gl ill ff_template (pair_cases 2 (-2)) None = Ok e /\ lcs_combine gl ill ff_template (pair_cases 2 (-2)) (FSeq [1/2; 1/4]) "M" = Ok (xs, F1 y) /\ (0 < length xs)%nat) /\
  exists cb br, resolve (prun gl ill (pair_calls ++ [pair_ask])) cb None = Ok {| cl_beam := ff_template; cl_cases := pair_cases 2 (-2) |} /\
    cb_analyze gl ill (prun gl ill (pair_calls ++ [pair_ask])) cb None (Some 7%nat) = Ok br.
Proof.
  intros G. assert (HL : Forall (Rlt 0) (b_lengths (t_beam ff_template))) by (repeat constructor; lra). split; [exact HL|].
  assert (A : forall q n, exists r, analyse_loads gl ill ff_template [Row 1 1 [q]] n = Ok r).
  { intros q n. destruct (ffq_core gl ill q) as (o & Ho). rewrite <- (core_npts gl ill (ffq q) n) in Ho.
    destruct (analyze_total_ok gl ill (ffq q) (fun _ => []) n true o [(0%Z, LUDL q)] Ho) as (a' & br & E & _); [reflexivity|exact (ffq_wf gl q)|reflexivity| | |].
    - intros i mb Hi E. destruct (ff_member i mb E) as (_ & _ & X & Y & _). auto.
    - intros i mb Hi E. cbn in Hi. replace i with 0%nat by lia. cbn. eexists. reflexivity.
    - exists br. unfold analyse_loads. cbn [ff_template t_beam]. rewrite ffq_build. cbn [rbind]. rewrite E. reflexivity. }
  destruct (A 2 None) as (r1 & A1), (A (-2) None) as (r2 & A2).
  assert (F : Forall2 (fun lm r => analyse_loads gl ill ff_template lm (used ff_template None) = Ok r) (map lc_loads (pair_cases 2 (-2))) [r1; r2]) by (repeat constructor; assumption).
  split; [exists [r1; r2]; exact F|]. split.
  - destruct (envelope_runs gl ill ff_template (pair_cases 2 (-2)) None [r1; r2] HL ltac:(discriminate) F) as (e & E & _).
    destruct (pair_collect gl ill 2 (-2) G) as (xs & y0 & y1 & C & I6 & _). exists e, xs, (matvec [1/2; 1/4] [y0; y1]). split; [exact E|]. split; [apply combine_1; [exact C|reflexivity]|].
    destruct xs; [destruct I6|cbn; lia].
  - destruct (pair_asked gl ill G) as [_ B]. destruct (A (1 * 2) (Some 7%nat)) as (r3 & A3). rewrite B.
    exists {| cb_name := "worst"; cb_factors := FSeq [1; 0]; cb_bound := Some 0%nat |}, r3. split; [reflexivity|].
    unfold cb_analyze, analyze_combination. cbn [resolve get pg_colls cb_bound nth_error rbind cl_beam cl_cases cb_factors].
    assert (Q : combined_loads (pair_cases 2 (-2)) (FSeq [1; 0]) = Ok [Row 1 1 [1 * 2]]).
    { unfold combined_loads. cbn. unfold Reqb. destruct (Req_EM_T 1 0); [lra|]. destruct (Req_EM_T 0 0); [|lra]. reflexivity. }
    rewrite Q. exact A3.
Qed.
Lemma given_sample gl ill : exists st cb cb' c c', st = prun gl ill (pair_calls ++ [PMake ff_template; PAdd 1 "a" [Row 1 1 [7]]]%string) /\
  coll_is st 0 c /\ coll_is st 1 c' /\ cl_cases c <> cl_cases c' /\ cb_bound cb = Some 0%nat /\ cb_factors cb' = cb_factors cb /\ cb_bound cb' = Some 1%nat /\
  cb_to_LM st cb (Some 1%nat) <> cb_to_LM st cb None.
Proof.
  eexists. exists {| cb_name := "worst"; cb_factors := FSeq [1]; cb_bound := Some 0%nat |}, {| cb_name := "other"; cb_factors := FSeq [1]; cb_bound := Some 1%nat |}. do 2 eexists.
  split; [reflexivity|]. split; [reflexivity|]. split; [reflexivity|]. split; [cbn; intros H; apply (f_equal (@List.length _)) in H; discriminate|]. do 3 (split; [reflexivity|]).
  cbn. unfold Reqb. destruct (Req_EM_T 1 0); [lra|]. discriminate.
Qed.
