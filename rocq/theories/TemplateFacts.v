(** Facts about load cases analysed on a template beam. *)
From Verif Require Import RenderModel.
From Verif Require Import Base BaseFacts Linalg SectionModel LoadModel FoundationModel ElementModel UtilsModel UtilsSpec
  BeamModel BeamSpec CtorFacts AnalysisModel AnalysisSpec ElementSpec AnalysisFacts AnalysisFacts2 MechFacts HistoryFacts ResultsModel ResultsSpec ResultsFacts
  LoadCasesModel BedFacts5 SessionModel SessionSpec SessionFacts.
Open Scope R_scope.
Local Notation length := List.length.
Local Open Scope list_scope.

Section G.
Variable gl : nat -> list (R * R).
Variable ill : nat -> mat -> bool.

Lemma nones {A} (l : list (option A)) n : Forall (eq None) l -> length l = n -> l = repeat None n.
Proof. revert n. induction l as [|x l IH]; intros [|n] F E; cbn in *; try discriminate; [reflexivity|]. inversion F. subst. f_equal. apply IH; [assumption|lia]. Qed.

Lemma complete_LM a lm : complete a -> complete (with_beam a (with_LM (an_beam a) lm)).
Proof. exact (fun H => H). Qed.

Lemma template_says a lm : healthy gl ill a -> complete a -> Forall (eq None) (b_kf (an_beam a)) ->
  says (build_ctor (an_beam a) lm) (an_beam (with_beam a (with_LM (an_beam a) lm))).
Proof.
  intros [_ [S1 S2 S3 S4 S5 S6] _] C K. constructor; try reflexivity.
  - unfold gav_list, build_ctor. cbn [BeamModel.ct_GAv BeamModel.ct_L with_beam an_beam with_LM b_GAv]. destruct (b_GAv (an_beam a)) as [|g l] eqn:E; [|reflexivity].
    assert (Q := Forall2_len _ _ _ S2). cbn in Q. rewrite <- Q. reflexivity.
  - unfold kf_list, build_ctor. cbn [BeamModel.ct_kf BeamModel.ct_L with_beam an_beam with_LM b_kf]. symmetry. apply nones; assumption.
Qed.

Lemma template_analysis a tn lm npts : healthy gl ill a -> complete a -> Forall (eq None) (b_kf (an_beam a)) ->
  analyse_loads gl ill {| t_beam := an_beam a; t_npts := tn |} lm npts =
  snd (analyze gl ill (with_beam a (set_loads (an_beam a) lm)) (fun _ => []) (Some (effective npts 100)) true).
Proof.
  intros H C K. unfold analyse_loads. cbn [t_beam]. unfold build_model.
  destruct (rebuild_from gl ill (with_beam a (with_LM (an_beam a) lm)) _ (healthy_LM gl ill a lm H) (complete_LM a lm C) (template_says a lm H C K)) as (v & ->).
  cbn [rbind]. unfold set_loads. rewrite (analyze_anew gl ill (with_beam a (with_LM (an_beam a) lm)) v _ (Some (effective npts 100)) true (healthy_LM gl ill a lm H)).
  assert (E : effective (Some (effective npts 100)) (an_npts (with_beam a (with_LM (an_beam a) lm))) = effective npts 100).
  { assert (L := effective_gt npts 100 ltac:(lia)). generalize dependent (effective npts 100). intros m L. unfold effective. destruct (Nat.ltb_spec 3 m); [reflexivity|lia]. }
  rewrite E, !analyze_snd. rewrite (core_npts gl ill _ npts), (core_npts gl ill _ (Some (effective npts 100))).
  assert (E2 : effective (Some (effective npts 100)) (an_npts (anew (with_beam a (with_LM (an_beam a) lm)) v)) = effective npts (an_npts (anew (with_beam a (with_LM (an_beam a) lm)) v))).
  { cbn [anew an_npts]. assert (L := effective_gt npts 100 ltac:(lia)). generalize dependent (effective npts 100). intros m L. unfold effective at 1. destruct (Nat.ltb_spec 3 m); [reflexivity|lia]. }
  rewrite E2. reflexivity.
Qed.

Lemma program_template ks p o tn lm npts : object (run_calls gl ill ks) p o -> complete (seen (run_calls gl ill ks) o) ->
  Forall (eq None) (b_kf (an_beam (so_an o))) ->
  analyse_loads gl ill {| t_beam := an_beam (seen (run_calls gl ill ks) o); t_npts := tn |} lm npts =
  snd (analyze gl ill (with_beam (so_an o) (set_loads (an_beam (so_an o)) lm)) (fun _ => []) (Some (effective npts 100)) true).
Proof.
  intros H C K. destruct (good_run gl ill ks p o H) as [_ HH].
  rewrite (template_analysis (seen (run_calls gl ill ks) o) tn lm npts (healthy_seen gl ill _ _ HH) C K). reflexivity.
Qed.

(** *** The foundation is lost *)
Definition on_bed (b : beam) (k : list (option R)) : beam :=
  {| b_lengths := b_lengths b; b_EIs := b_EIs b; b_GAv := b_GAv b; b_kf := k; b_types := b_types b; b_nspans := b_nspans b;
     b_length := b_length b; b_terminal := b_terminal b; b_R := b_R b; b_D := b_D b; b_LM := b_LM b; b_version := b_version b |}.

Definition bare : analysis :=
  {| an_beam := with_version (on_bed flat_beam [None]) 1; an_n := 1; an_npts := 100; an_checked := None; an_out := None |}.
Lemma bare_built : build_model flat_beam [Row 1 1 [2]] = Ok bare.
Proof. reflexivity. Qed.
Lemma bare_mechanism : well_formed gl (an_beam bare) 1 /\
  mechanism gl (an_beam bare) 1 (fun i => match i with 0%nat => 1 | 2%nat => 1 | _ => 0 end).
Proof.
  split.
  - split; [cbn; lia|]. split; [cbn; lia|]. eexists; split; [reflexivity|]. intros m Hm.
    replace m with 0%nat by lia. do 3 eexists. repeat (split; [reflexivity|]). reflexivity.
  - split; [exists 0%nat; split; [lia|lra]|]. split.
    + intros i Hi [[H|H]|H].
      * exfalso. apply H. unfold prescribed. cbn. destruct i as [|[|[|[|i]]]]; try reflexivity. destruct i; reflexivity.
      * unfold restraint in H. cbn in H. destruct i as [|[|[|[|i]]]]; cbn in H; lra || lia.
      * unfold restraint in H. cbn in H. destruct i as [|[|[|[|i]]]]; cbn in H; lra || lia.
    + intros m mb kb p Hm E Ek Hp. replace m with 0%nat in * by lia. cbv in E. injection E as <-.
      cbn in Ek. injection Ek as <-. unfold end_forces, mulmv, ends.
      destruct p as [|[|[|[|p]]]]; try lia; cbn; field.
Qed.
Lemma flat_template_raises tn npts : analyse_loads gl ill {| t_beam := flat_beam; t_npts := tn |} [Row 1 1 [2]] npts = Err ValueError.
Proof.
  unfold analyse_loads. cbn [t_beam]. rewrite bare_built. cbn [rbind]. rewrite analyze_snd.
  destruct bare_mechanism as [W M]. rewrite (analyze_mechanism gl ill bare npts true _ W M). reflexivity.
Qed.
Lemma bed_lost b k tn lm npts : analyse_loads gl ill {| t_beam := on_bed b k; t_npts := tn |} lm npts = analyse_loads gl ill {| t_beam := b; t_npts := tn |} lm npts.
Proof. reflexivity. Qed.
Lemma flat_refuted tn : exists a br, analysis_init flat_ctor = Ok a /\ b_LM (an_beam a) = [Row 1 1 [2]] /\ snd (analyze gl ill a (fun _ => []) None false) = Ok br /\
  forall npts, analyse_loads gl ill {| t_beam := an_beam a; t_npts := tn |} [Row 1 1 [2]] npts = Err ValueError.
Proof.
  destruct (flat_results gl ill (fun _ => [])) as (a' & br & e & r & E & _). exists flat_an, br. split; [exact flat_init|]. split; [reflexivity|].
  split; [rewrite E; reflexivity|]. exact (flat_template_raises tn).
Qed.
End G.
