(** Property theorems about the equation of three moments (C94). *)
From Coq Require Import Lia ZArith.
From Verif Require Import Base BaseFacts Linalg SectionModel LoadModel LoadSpec ElementModel ElementSpec ConstSectFacts UtilsModel BeamModel
  AnalysisModel AnalysisSpec AnalysisFacts3 ResultsModel ResultsSpec DetFacts2 ExactSpec ExactFacts3 ThreeSpec ThreeFacts ThreeExample.
Open Scope R_scope.

(** Full claim: all beams of prismatic members under all loads.  Missing as in C64: pin-pin
    members and concentrated moments on shear-flexible members (analysed wrongly), imposed
    curvatures beyond quadratic.

    C94: at every joint that is not held against rotation and where neither member is released,
    the moments of an analysis satisfy the equation of three moments, with the rotations of the
    two simple spans, settlements and shear flexibility. *)
Theorem C94_equation_partial : forall gl ill a npts check a' o m mb1 mb2 ls ei1 ei2 ga1 ga2 e1 e2 l1 r1 l2 r2, gauss_rule gl ->
  members (an_beam a) (an_n a) prismatic -> exact_loads (an_beam a) (an_n a) -> analyze_core gl ill a npts check = (a', Ok o) ->
  (S m < an_n a)%nat -> member_at (an_beam a) m = Ok mb1 -> member_at (an_beam a) (S m) = Ok mb2 -> parsed_loads (an_beam a) = Ok ls ->
  mb_EI mb1 = RConst ei1 -> mb_GAv mb1 = option_map RConst ga1 -> mb_EI mb2 = RConst ei2 -> mb_GAv mb2 = option_map RConst ga2 ->
  ~ released (mb_type mb1) 3 -> ~ released (mb_type mb2) 1 ->
  prescribed (an_beam a) (2 * m + 3) = None -> restraint (an_beam a) (2 * m + 3) = 0 ->
  member_forces gl (an_beam a) (o_d o) m = Ok e1 -> member_forces gl (an_beam a) (o_d o) (S m) = Ok e2 ->
  simple_span (mb_L mb1) ei1 ga1 (imposed (loads_of ls m)) (actions (mb_L mb1) (loads_of ls m)) l1 r1 ->
  simple_span (mb_L mb2) ei2 ga2 (imposed (loads_of ls (S m))) (actions (mb_L mb2) (loads_of ls (S m))) l2 r2 ->
  e2 1%nat = - e1 3%nat /\
  three_moments (mb_L mb1) ei1 ga1 (mb_L mb2) ei2 ga2 (- e1 1%nat) (e1 3%nat) (e2 3%nat) (o_d o (2 * m)%nat) (o_d o (2 * m + 2)%nat) (o_d o (2 * m + 4)%nat) r1 l2.
Proof. exact (fun gl ill a npts check a' o m mb1 mb2 ls ei1 ei2 ga1 ga2 e1 e2 l1 r1 l2 r2 G => analysis_equation gl G ill a npts check a' o m mb1 mb2 ls ei1 ei2 ga1 ga2 e1 e2 l1 r1 l2 r2). Qed.
Print Assumptions C94_equation_partial.
(** The rotations of a simple span under uniform and point loads are the textbook ones. *)
Theorem C94_simple_spans : forall L ei lds, 0 < L -> 0 < ei -> List.Forall (ordinary L) lds ->
  simple_span L ei None (imposed lds) (actions L lds) (lsum (map (turn_left L ei) lds)) (lsum (map (turn_right L ei) lds)).
Proof. exact ordinary_simple. Qed.
Print Assumptions C94_simple_spans.
(** Two spans on three supports: the moment over the inner one. *)
Theorem C94_two_spans : forall gl ill a npts check a' o mb1 mb2 ls ei1 ei2 e1 e2, gauss_rule gl ->
  members (an_beam a) (an_n a) prismatic -> exact_loads (an_beam a) (an_n a) -> analyze_core gl ill a npts check = (a', Ok o) ->
  an_n a = 2%nat -> member_at (an_beam a) 0 = Ok mb1 -> member_at (an_beam a) 1 = Ok mb2 -> parsed_loads (an_beam a) = Ok ls ->
  mb_EI mb1 = RConst ei1 -> mb_GAv mb1 = None -> mb_EI mb2 = RConst ei2 -> mb_GAv mb2 = None -> mb_type mb1 = 1%nat -> mb_type mb2 = 1%nat ->
  (forall i, In i [1; 3; 5]%nat -> prescribed (an_beam a) i = None /\ restraint (an_beam a) i = 0) ->
  (forall i, In i [0; 2; 4]%nat -> prescribed (an_beam a) i = None /\ restraint (an_beam a) i < 0) ->
  List.Forall (ordinary (mb_L mb1)) (loads_of ls 0) -> List.Forall (ordinary (mb_L mb2)) (loads_of ls 1) ->
  member_forces gl (an_beam a) (o_d o) 0 = Ok e1 -> member_forces gl (an_beam a) (o_d o) 1 = Ok e2 ->
  e1 1%nat = 0 /\ e2 3%nat = 0 /\ e2 1%nat = - e1 3%nat /\
  e1 3%nat = - (3 * (lsum (map (turn_right (mb_L mb1) ei1) (loads_of ls 0)) - lsum (map (turn_left (mb_L mb2) ei2) (loads_of ls 1))) / (mb_L mb1 / ei1 + mb_L mb2 / ei2)).
Proof. exact (fun gl ill a npts check a' o mb1 mb2 ls ei1 ei2 e1 e2 G => analysis_two_spans gl G ill a npts check a' o mb1 mb2 ls ei1 ei2 e1 e2). Qed.
Print Assumptions C94_two_spans.

(** A uniform load on the first span, a point load on the second. *)
Example C94_nonvacuous : forall ill, analysis_init three_ctor = Ok three /\ members three_beam 2 prismatic /\ exact_loads three_beam 2 /\ gauss_rule sample_gl /\
  exists a' o e1 e2, analyze_core sample_gl ill three None false = (a', Ok o) /\ member_forces sample_gl three_beam (o_d o) 0 = Ok e1 /\ member_forces sample_gl three_beam (o_d o) 1 = Ok e2 /\
  e1 1%nat = 0 /\ e1 3%nat = - (34/3) /\ e2 1%nat = 34/3 /\ e2 3%nat = 0.
Proof. intros ill. split; [exact three_init|]. split; [exact three_prismatic|]. split; [exact three_loads|]. split; [exact gauss2_rule|]. exact (three_result ill). Qed.
