(** C82: the recovered rotations and deflections approach the exact ones as the number of
    stations grows. *)
From Coquelicot Require Import Coquelicot.
From Coq Require Import Lia.
From Verif Require Import Base BaseFacts Linalg SectionModel LoadModel LoadSpec ElementModel ElementSpec UtilsModel BeamModel
  AnalysisModel AnalysisSpec AnalysisFacts2 MechFacts AnalysisFacts3 ConstSectFacts ResultsModel ResultsSpec ResultsFacts ExactSpec ConvSpec ConvFacts5.
Open Scope R_scope.

(** Full claim: all members.  Missing: members with varying section or on a foundation, whose
    stiffnesses are themselves approximate; pin-pin members and concentrated moments on
    shear-flexible members, for which the analysis is wrong (C04_pin_pin_refuted,
    C07_moment_load_refuted).

    Whatever the exact shape of a member, all analyses of the beam, with whatever stations and
    options, tabulate it up to an error inversely proportional to the number of stations... *)
Theorem C82_first_order_partial : forall gl a D ef m th y, gauss_rule gl ->
  an_n a = b_nspans (an_beam a) -> members (an_beam a) (an_n a) prismatic -> exact_loads (an_beam a) (an_n a) ->
  bent_beam (an_beam a) (an_n a) D ef -> (m < an_n a)%nat -> member_shape (an_beam a) D m (ef m) th y ->
  exists C, forall ill sps npts check a' br r,
    analyze gl ill a sps npts check = (a', Ok br) -> (0 < an_npts a')%nat -> nth_error (br_mem br) m = Some r ->
    tables_within (C / INR (an_npts a')) (node_x (an_beam a) m) th y r.
Proof. exact (fun gl a D ef m th y G EN HP HX BB => converge_first gl G a EN HP HX D ef BB m th y). Qed.
Print Assumptions C82_first_order_partial.

(** ...and, without shear flexibility and concentrated moments, to its square. *)
Theorem C82_second_order_partial : forall gl a D ef m th y, gauss_rule gl ->
  an_n a = b_nspans (an_beam a) -> members (an_beam a) (an_n a) prismatic -> exact_loads (an_beam a) (an_n a) ->
  bent_beam (an_beam a) (an_n a) D ef -> (m < an_n a)%nat -> slender (an_beam a) m -> member_shape (an_beam a) D m (ef m) th y ->
  exists C, forall ill sps npts check a' br r,
    analyze gl ill a sps npts check = (a', Ok br) -> (0 < an_npts a')%nat -> nth_error (br_mem br) m = Some r ->
    tables_within (C / INR (an_npts a') ^ 2) (node_x (an_beam a) m) th y r.
Proof. exact (fun gl a D ef m th y G EN HP HX BB => converge_second gl G a EN HP HX D ef BB m th y). Qed.
Print Assumptions C82_second_order_partial.

(** The exact shapes exist. *)
Theorem C82_shapes_partial : forall gl ill a npts check a' o, gauss_rule gl ->
  members (an_beam a) (an_n a) prismatic -> exact_loads (an_beam a) (an_n a) ->
  analyze_core gl ill a npts check = (a', Ok o) ->
  exists ef, bent_beam (an_beam a) (an_n a) (o_d o) ef /\ forall m, (m < an_n a)%nat -> exists th y, member_shape (an_beam a) (o_d o) m (ef m) th y.
Proof. exact (fun gl ill a npts check a' o => shapes_exist gl ill a npts check a' o). Qed.
Print Assumptions C82_shapes_partial.

(** Two spans on a clamp, a roller and a spring, with any number of stations. *)
Example C82_nonvacuous : forall ill n, (3 < n)%nat -> let a := with_beam sample (set_loads sample_beam sample_A) in
  an_n a = b_nspans (an_beam a) /\ members (an_beam a) (an_n a) prismatic /\ exact_loads (an_beam a) (an_n a) /\ slender (an_beam a) 0 /\
  exists a' br r, analyze sample_gl ill a (fun _ => []) (Some n) false = (a', Ok br) /\ an_npts a' = n /\ nth_error (br_mem br) 0 = Some r.
Proof.
  intros ill n Hn a. assert (PM : members (an_beam a) (an_n a) prismatic).
  { intros m mb Hm Em. assert (C : m = 0%nat \/ m = 1%nat) by (cbn in Hm; lia).
    destruct C as [-> | ->]; cbv in Em; injection Em as <-; constructor; cbn; try lra; try lia; try reflexivity; try (eexists; split; [reflexivity|lra]); left; reflexivity. }
  split; [reflexivity|]. split; [exact PM|]. split; [|split].
  - intros m mb ls Hm Em El. injection El as <-. assert (C : m = 0%nat \/ m = 1%nat) by (cbn in Hm; lia).
    destruct C as [-> | ->]; cbn [loads_of filter map fst snd]; cbn; repeat constructor.
  - intros mb ls Em El. cbv in Em. injection Em as <-. injection El as <-. split; [reflexivity|]. cbn. repeat constructor.
  - destruct (analyze_solves sample_gl ill a (Some n) gauss2_rule sample_A_wf) as (o & Ho).
    + intros m mb Hm E. exact (proj1 (proj1 (sample_sound 2 sample_A (le_n 2) m mb Hm E))).
    + apply sample_consistent.
    + apply sample_stable.
    + destruct (analyze_total_ok sample_gl ill a (fun _ => []) (Some n) false o [(0%Z, LUDL 10)] Ho) as (a' & br & E & EP & ED).
      * reflexivity.
      * exact sample_A_wf.
      * reflexivity.
      * intros m mb Hm Em. split; [exact (proj2 (sample_sound 2 sample_A (le_n 2) m mb Hm Em))|exact (pr_kf _ (PM m mb Hm Em))].
      * intros i mb Hi Em. assert (C : i = 0%nat \/ i = 1%nat) by (cbn in Hi; lia). destruct C as [-> | ->]; cbn; eexists; reflexivity.
      * rewrite (proj2 (Nat.ltb_lt 3 n) Hn) in EP. destruct (analyze_split _ _ _ _ _ _ _ _ E) as (o' & Ho' & Hv & _). destruct (analyze_core_state _ _ _ _ _ _ _ Ho') as (EB & _). rewrite EB in Hv.
        destruct (member_analysis_spec _ _ _ _ _ _ _ Hv) as (ls & _ & _ & Hs). destruct (Hs 0%nat ltac:(cbn; lia)) as (mb & f & r & _ & Hr).
        exists a', br. eexists. split; [exact E|]. split; [exact EP|exact Hr].
Qed.
