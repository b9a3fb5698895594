(** Worked pictures. *)
From Coq Require Import String ZArith Sorted.
From Verif Require Import Base BaseFacts Linalg SectionModel LoadModel UnitsModel ResultsModel VehicleModel VehicleFacts ElementSpec AnalysisSpec FoundSpec NonlinModel NonlinSpec NonlinFacts NonlinFacts2 NonlinFacts8 NonlinFacts9 NonlinFacts10 NonlinFacts11 NonlinFacts12 NonlinFacts13 PlotModel NlPlotModel NlPlotSpec NlPlotFacts.
Open Scope R_scope.
Local Notation length := List.length.
Local Open Scope list_scope.

Lemma ex2_init : exists a, made a [1; 3] (EIOne (RConst 1)) ex2_rs (NList [3; 1]) None 0 10.
Proof. apply (init_ok [1; 3] (EIOne (RConst 1)) (NScalar 1) ex2_rs (NList [3; 1]) None 0 10); try (cbn; lia || exact I || reflexivity); [discriminate|repeat constructor; lra]. Qed.
(** Two hinges and a bent beam. *)
Lemma ex_shown : exists a r, made a [1; 3] (EIOne (RConst 1)) ex2_rs (NList [3; 1]) None 0 10 /\ capacities a /\ nl_analyze exact_rank a ex2_load (1/10) 1 1 = Ok r /\
  moved a (fun j => nr_u r (2 * j)%nat) /\ (exists e, In e (nr_events r) /\ ev_kind e = PlasticHinge) /\ resolve SI UNone = Ok SI.
Proof.
  destruct ex2_init as (a & H). destruct (ex2_run a H exact_rank 1 (fun hs => ex2_stands a H exact_rank hs exact_rank_ok)) as (r & E & C & U & Hi). exists a, r. split; [exact H|]. split; [apply (ex2_caps a H)|]. split; [exact E|]. split; [exists 1%nat; rewrite (ex2_nodes a H); split; [lia|]; cbn; rewrite U; lra|]. split; [|reflexivity].
  assert (I : In 0%nat (hinge_nodes (nr_events r))) by (apply Hi; left; reflexivity). unfold hinge_nodes in I. apply in_map_iff in I as (e & _ & I). apply filter_In in I as [I K]. exists e. split; [exact I|]. destruct (ev_kind e); [discriminate|reflexivity].
Qed.
(** A joint without any restraint. *)
Lemma ex_triangle rd : exists a r p, made a [1; 3] (EIOne (RConst 1)) ex2_rs (NList [3; 1]) None 0 10 /\ capacities a /\ nl_analyze rd a [] 1 0 0 = Ok r /\
  plot_beam_state SI (static_out a r) None UNone = Ok p /\ In 1 (pc_supports p) /\ nth 2 ex2_rs 0 = 0 /\ nth 3 ex2_rs 0 = 0 /\ start [1; 3] 1 = 1.
Proof.
  destruct ex2_init as (a & H). assert (Ca := ex2_caps a H). assert (E : nl_analyze rd a [] 1 0 0 = Ok (increments rd a (fun _ => 0) 1 0 0 nlstate0)) by reflexivity. eexists a, _.
  destruct (static_nodes rd a _ _ _ _ _ _ _ H Ca _ _ _ _ _ E) as (O & N). destruct (state_good a _ _ _ _ _ _ _ H SI SI UNone eq_refl (static_out a (increments rd a (fun _ => 0) 1 0 0 nlstate0)) None eq_refl eq_refl O N) as (p & Ep & _ & _ & _ & (J1 & J2) & _).
  exists p. split; [exact H|]. split; [exact Ca|]. split; [exact E|]. split; [exact Ep|]. assert (S1 : start [1; 3] 1 = 1) by (rewrite ex2_start by lia; reflexivity). split; [|repeat split; exact S1]. rewrite <- S1, <- (J2 1%nat) by (cbn; lia). apply nth_In. rewrite J1. cbn. lia.
Qed.
(** Axles in a run that did not collapse. *)
Lemma ex_axles rd : exists a r p, made a [4; 1] (EIOne (RConst 1)) ex_rs (NList [10; 1000]) None 0 10 /\ capacities a /\ nl_analyze rd a ex_load (1/10) 1 1 = Ok r /\
  nr_collapsed r = false /\ plot_beam_state SI (static_out a r) (Some truck) UNone = Ok p /\ In (1/10, 35) (pc_axles p).
Proof.
  destruct (ex_made 10) as (a & H). assert (P : 0 < 10) by lra. assert (Ca := ex_caps 10 a P H). destruct (ex_elastic 10 a P H rd 1 ltac:(lra)) as (r & E & C & Lm & _). exists a, r.
  destruct (static_nodes rd a _ _ _ _ _ _ _ H Ca _ _ _ _ _ E) as (O & N). destruct (state_good a _ _ _ _ _ _ _ H SI SI UNone eq_refl (static_out a r) (Some truck) eq_refl eq_refl O N) as (p & Ep & _ & _ & _ & _ & Ax & _).
  exists p. repeat (split; [assumption|]). apply Ax. exists 0%nat, 0. cbn [no_lambda static_out]. rewrite Lm, (ex_total _ _ _ _ _ H). repeat split; try lra. 
Qed.
