(** C81: a beam described in other units ([UnitChangeSpec]) gives the same results in those
    units, for members without foundation whose rigidities are positive numbers or vary along
    the whole member by one polynomial.  Not proved ([_partial]): sections of several pieces and
    members on foundations. *)
From Coq Require Import String.
From Verif Require Import Base BaseFacts Linalg SectionModel LoadModel ElementModel UtilsModel BeamModel AnalysisModel AnalysisSpec
  ResultsModel UnitChangeSpec UnitChangeFacts UnitChangeFacts2 UnitChangeFacts5 UnitChangeExample.
Open Scope R_scope.
Open Scope list_scope.

(** The constructor: from arguments in the new units it builds the beam in the new units, or
    raises the same exception. *)
Theorem C81_constructor_partial : forall u c, proper u -> plain_ctor c ->
  analysis_init (ctor_units u c) = match analysis_init c with Ok a => Ok (analysis_units u a) | Err e => Err e end /\
  forall a, analysis_init c = Ok a -> plain (an_beam a).
Proof. intros u c Hu. exact (init_units u Hu c). Qed.
Print Assumptions C81_constructor_partial.

(** [analyze] without the stability check: the results in the new units, or the same
    exception.  Numbers of stations and shear points are those of the old beam. *)
Theorem C81_analysis_partial : forall u gl ill a sps npts, proper u -> plain (an_beam a) ->
  match snd (analyze gl ill a sps npts false), snd (analyze gl ill (analysis_units u a) (fun i => map (len u) (sps i)) npts false) with
  | Ok r, Ok r' => results_units u (an_beam a) (an_n a) r r'
  | Err e, Err e' => e = e'
  | _, _ => False
  end.
Proof. intros u gl ill a sps npts Hu. exact (analyze_units u Hu gl ill a sps npts). Qed.
Print Assumptions C81_analysis_partial.

(** With any use of the check: whenever both calls return. *)
Theorem C81_checked_partial : forall u gl ill a sps npts check check' r r', proper u -> plain (an_beam a) ->
  snd (analyze gl ill a sps npts check) = Ok r ->
  snd (analyze gl ill (analysis_units u a) (fun i => map (len u) (sps i)) npts check') = Ok r' ->
  results_units u (an_beam a) (an_n a) r r'.
Proof. intros u gl ill a sps npts check check' r r' Hu. exact (checked_units u Hu gl ill a sps npts check check' r r'). Qed.
Print Assumptions C81_checked_partial.

(** Values read at a place along the beam, and the deflection curve. *)
Theorem C81_readings_partial : forall u gl ill a sps npts check check' r r', proper u -> plain (an_beam a) ->
  snd (analyze gl ill a sps npts check) = Ok r ->
  snd (analyze gl ill (analysis_units u a) (fun i => map (len u) (sps i)) npts check') = Ok r' ->
  (forall x, read_at (len u x) (r_x (br_all r')) (r_M (br_all r')) = mom u (read_at x (r_x (br_all r)) (r_M (br_all r)))) /\
  (forall x, read_at (len u x) (r_x (br_all r')) (r_V (br_all r')) = frc u (read_at x (r_x (br_all r)) (r_V (br_all r)))) /\
  deflection_curve r' = (map (len u) (fst (deflection_curve r)), map (len u) (snd (deflection_curve r))).
Proof. intros u gl ill a sps npts check check' r r' Hu. exact (readings_units u Hu gl ill a sps npts check check' r r'). Qed.
Print Assumptions C81_readings_partial.

(** A rotation has no unit, but the one read at the left end of the beam is not the same in
    newtons and millimetres: there the closing station is read, which no rigidity divides. *)
Theorem C81_left_rotation_refuted : forall gl ill, exists c a r r', plain_ctor c /\ analysis_init c = Ok a /\
  snd (analyze gl ill a (fun _ => []) None true) = Ok r /\ snd (analyze gl ill (analysis_units nn a) (fun _ => []) None true) = Ok r' /\
  read_at 0 (r_x (br_all r)) (r_R (br_all r)) <> 0 /\
  read_at 0 (r_x (br_all r')) (r_R (br_all r')) = 1e9 * read_at 0 (r_x (br_all r)) (r_R (br_all r)).
Proof. exact pf_left_end. Qed.
Print Assumptions C81_left_rotation_refuted.

(** The stability check compares eigenvalues that have different units: with exact
    eigenvalues it accepts a cantilever in one unit of length and rejects it in another. *)
Theorem C81_check_refuted : forall gl ill, exact_test ill -> exists u c a r, proper u /\ plain_ctor c /\ analysis_init c = Ok a /\
  snd (analyze gl ill a (fun _ => []) None true) = Ok r /\ snd (analyze gl ill (analysis_units u a) (fun _ => []) None true) = Err ValueError.
Proof. exact cl_test_differs. Qed.
Print Assumptions C81_check_refuted.

(** The length of a section is compared with its span to within 1e-6 of the larger of one unit
    and the span: a section that is accepted in metres is rejected in millimetres. *)
Theorem C81_section_length_refuted : exists s c, (forall pf, add_segment pf sect_empty "const"%string [0; 0.5000009] (EScalar 3) None = Ok s) /\
  ct_L c = [0.5] /\ ct_EI c = EIAll (RSect s) /\
  (exists a, analysis_init c = Ok a) /\ analysis_init (ctor_units nn c) = Err ValueError.
Proof. exact lo_units_ex. Qed.
Print Assumptions C81_section_length_refuted.

(** Two spans, the first with a tapered section and shear flexible. *)
Example C81_tapered_nonvacuous : plain_ctor tp_ctor /\ exists a, analysis_init tp_ctor = Ok a /\ plain (an_beam a) /\
  b_EIs (an_beam a) = [RSect grows; RConst 4].
Proof. split; [exact tp_plain|exact tp_init]. Qed.

(** A span with a hinge at its left support, of 6 m under 2 kN/m, in newtons and millimetres;
    an exact stability test. *)
Example C81_nonvacuous : proper nn /\ (forall gl ill, plain_ctor (pf_ctor 6 2 3) /\ analysis_init (pf_ctor 6 2 3) = Ok (pf_an 6 2 3) /\
  plain (an_beam (pf_an 6 2 3)) /\ analysis_units nn (pf_an 6 2 3) = pf_an 6000 2 3e9 /\
  exists r r', snd (analyze gl ill (pf_an 6 2 3) (fun _ => []) None true) = Ok r /\ snd (analyze gl ill (pf_an 6000 2 3e9) (fun _ => []) None true) = Ok r') /\
  exists ill, exact_test ill.
Proof. split; [exact nn_proper|]. split; [exact pf_case|exact exact_exists]. Qed.
