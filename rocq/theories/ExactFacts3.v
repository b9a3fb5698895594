(** The analysis of a beam solves the beam problem, and nothing else does. *)
From Coquelicot Require Import Coquelicot.
From Coq Require Import Lia.
From Verif Require Import Base BaseFacts Linalg SectionModel FlexModel LoadModel LoadSpec FoundationModel ElementModel ElementSpec
  UtilsModel BeamModel AnalysisModel AnalysisSpec AnalysisFacts AnalysisFacts2 AnalysisFacts3 MechFacts ResultsModel ResultsSpec ResultsFacts DetFacts ExactSpec ExactFacts ExactFacts2.
Open Scope R_scope.

Section Beam.
Variable gl : nat -> list (R * R).
Hypothesis G : gauss_rule gl.

Lemma prism_data mb : prismatic mb -> exists ei ga, mb_EI mb = RConst ei /\ mb_GAv mb = option_map RConst ga.
Proof.
  intros P. destruct (pr_EI _ P) as (ei & E & _). destruct (pr_GAv _ P) as [E'|(g & E' & _)]; exists ei; [exists None|exists (Some g)]; auto.
Qed.
Lemma state_bends b D m f n : (m < n)%nat -> members b n prismatic -> exact_loads b n -> member_state gl b D m f -> exists V M, member_bends b D m f V M.
Proof.
  intros Hm HP HX (ls & mb & k & r & E1 & E2 & E3 & E4 & E5). assert (P := HP m mb Hm E2). destruct (prism_data mb P) as (ei & ga & Ee & Eg).
  destruct (own_bent gl mb ei ga P Ee Eg G (loads_of ls m) k r (ends D m) (HX m mb ls Hm E2 E1) (attached_loads _ _ _ _ E1 E2) E3 E4) as (V & M & th & y & B & J).
  exists V, M, mb, ls, ei, ga, th, y. repeat (split; [assumption|]). split.
  - eapply bent_ext; [exact B|reflexivity|]. intros p _. symmetry. apply E5.
  - destruct J as [J1 J2 J3 J4 J5]. constructor; try assumption. intros p Hp. rewrite E5. exact (J5 p Hp).
Qed.
Lemma bends_state b D m f g V M n : (m < n)%nat -> members b n prismatic -> exact_loads b n -> member_bends b D m f V M -> member_state gl b D m g -> eq4 f g.
Proof.
  intros Hm HP HX (mb & ls & ei & ga & th & y & A1 & A2 & A3 & A4 & B & J) (ls' & mb' & k & r & E1 & E2 & E3 & E4 & E5).
  rewrite A1 in E2. inversion E2; subst mb'. rewrite A2 in E1. inversion E1; subst ls'. assert (P := HP m mb Hm A1).
  intros p Hp. rewrite E5. exact (bent_own gl mb ei ga P A3 A4 G (loads_of ls m) k r (ends D m) f V M th y (HX m mb ls Hm A1 A2) (attached_loads _ _ _ _ A2 A1) E3 E4 B J p Hp).
Qed.

Lemma nodal_sum_eq n e f i : (i < 2 * (n + 1))%nat -> (forall m, (m < n)%nat -> eq4 (e m) (f m)) -> nodal_sum n e i = nodal_sum n f i.
Proof.
  intros Hi E. unfold nodal_sum. assert (i mod 2 < 2)%nat by (apply Nat.mod_upper_bound; lia). assert (Q := Nat.div_mod i 2 ltac:(lia)).
  f_equal.
  - destruct (Nat.ltb_spec i (2 * n)); [|reflexivity]. apply E; [|lia]. apply Nat.div_lt_upper_bound; lia.
  - destruct (Nat.leb_spec 2 i); [|reflexivity]. apply E; lia.
Qed.

Lemma analysis_exact ill a npts check a' o : members (an_beam a) (an_n a) prismatic -> exact_loads (an_beam a) (an_n a) ->
  analyze_core gl ill a npts check = (a', Ok o) ->
  exists ef, bent_beam (an_beam a) (an_n a) (o_d o) ef /\
    forall m e, (m < an_n a)%nat -> member_forces gl (an_beam a) (o_d o) m = Ok e -> eq4 (ef m) e.
Proof.
  intros HP HX H. destruct (analyze_equilibrium _ _ _ _ _ _ _ H) as (ef & S & N). exists ef. split; [split|].
  - intros m Hm. exact (state_bends _ _ _ _ _ Hm HP HX (S m Hm)).
  - exact N.
  - intros m e Hm He p _. exact (state_forces_unique gl _ _ _ _ _ (S m Hm) (forces_state gl _ _ _ _ He) p).
Qed.
Lemma analysis_only ill a npts check a' o D ef : members (an_beam a) (an_n a) prismatic -> exact_loads (an_beam a) (an_n a) ->
  analyze_core gl ill a npts check = (a', Ok o) -> bent_beam (an_beam a) (an_n a) D ef ->
  (forall i, (i < an_ndof a)%nat -> D i = o_d o i) /\
  forall m e, (m < an_n a)%nat -> member_forces gl (an_beam a) (o_d o) m = Ok e -> eq4 (ef m) e.
Proof.
  intros HP HX H [B N]. destruct (analyze_equilibrium _ _ _ _ _ _ _ H) as (ef0 & S0 & _).
  assert (ST : exists g, forall m, (m < an_n a)%nat -> member_state gl (an_beam a) D m (g m)).
  { exists (fun m => match parsed_loads (an_beam a) with Ok ls => match member_at (an_beam a) m with Ok mb => match span_k gl mb with Ok k => match span_ref gl mb (loads_of ls m) with
      | Ok r => fun p => end_forces k (ends D m) p + r p | Err _ => fun _ => 0 end | Err _ => fun _ => 0 end | Err _ => fun _ => 0 end | Err _ => fun _ => 0 end).
    intros m Hm. destruct (S0 m Hm) as (ls & mb & k & r & E1 & E2 & E3 & E4 & _). rewrite E1, E2, E3, E4. exists ls, mb, k, r. auto. }
  destruct ST as (g & ST).
  assert (FG : forall m, (m < an_n a)%nat -> eq4 (ef m) (g m)).
  { intros m Hm. destruct (B m Hm) as (V & M & Bm). exact (bends_state _ _ _ _ _ _ _ _ Hm HP HX Bm (ST m Hm)). }
  assert (EQ : equilibrium gl (an_beam a) (an_n a) D).
  { exists g. split; [exact ST|]. intros i Hi. specialize (N i Hi). destruct (prescribed _ i); [exact N|]. destruct (Rlt_dec _ 0); [exact N|].
    rewrite <- (nodal_sum_eq _ ef g i Hi FG). exact N. }
  assert (ED := proj2 (analyze_unique _ _ _ _ _ _ _ D H) EQ). split; [exact ED|].
  intros m e Hm He p Hp. rewrite (FG m Hm p Hp). destruct (ST m Hm) as (ls & mb & k & r & E1 & E2 & E3 & E4 & E5).
  destruct (forces_state gl _ _ _ _ He) as (ls' & mb' & k' & r' & F1 & F2 & F3 & F4 & F5).
  rewrite E1 in F1. inversion F1; subst ls'. rewrite E2 in F2. inversion F2; subst mb'. rewrite E3 in F3. inversion F3; subst k'. rewrite E4 in F4. inversion F4; subst r'.
  rewrite E5, F5. f_equal. unfold end_forces, mulmv. apply rsum_ext. intros j Hj. f_equal. unfold ends. apply ED. unfold an_ndof. lia.
Qed.
Lemma prismatic_sound mb : prismatic mb -> sound_member mb.
Proof. intros P. destruct (prism_data mb P) as (ei & ga & Ee & Eg). exact (pr_sound mb ei ga P Ee Eg). Qed.
Lemma tables_exact ill a sps npts check a' br i r e : an_n a = b_nspans (an_beam a) -> members (an_beam a) (an_n a) prismatic -> exact_loads (an_beam a) (an_n a) ->
  analyze gl ill a sps npts check = (a', Ok br) -> nth_error (br_mem br) i = Some r -> member_forces gl (an_beam a) (br_D br) i = Ok e ->
  exists V M, member_curves (node_x (an_beam a) i) r V M /\ member_bends (an_beam a) (br_D br) i e V M.
Proof.
  intros EN HP HX H Hr He. assert (S := forces_state gl _ _ _ _ He).
  assert (Hi : (i < an_n a)%nat).
  { destruct (analyze_split _ _ _ _ _ _ _ _ H) as (o & Ho & Hv & _ & ED & _). destruct (analyze_core_state _ _ _ _ _ _ _ Ho) as (EB & _). rewrite EB in Hv.
    destruct (member_analysis_spec _ _ _ _ _ _ _ Hv) as (ls' & Hls & Hlen & Hs). rewrite EN, <- Hlen. apply nth_error_Some. rewrite Hr. discriminate. }
  destruct (state_bends _ _ _ _ _ Hi HP HX S) as (V0 & M0 & mb & ls & ei & ga & th & y & A1 & A2 & A3 & A4 & B & J).
  assert (P := HP i mb Hi A1). assert (X := HX i mb ls Hi A1 A2).
  destruct (analyze_diagrams gl ill a sps npts check a' br i r mb ls e G H A1 (prismatic_sound mb P) A2) as (V & M & C & Q & V0e); [|exact Hr|exact He|].
  { eapply Forall_impl; [|exact X]. intros ld [W _]. exact W. }
  rewrite V0e in Q by (pose proof (pr_type _ P); lia).
  exists V, M. split; [exact C|]. exists mb, ls, ei, ga, th, y. repeat (split; [assumption|]). split; [|exact J].
  eapply bent_curves; [exact B|exact Q].
Qed.
End Beam.
