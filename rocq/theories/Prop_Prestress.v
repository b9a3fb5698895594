(** Property theorems about the equivalent loads of a prestressing tendon (C46).  [drape] is
    the eccentricity of the tendon, [neglected F L] the moment of the actions below 1e-9 that
    the code leaves out. *)
From Coquelicot Require Import Coquelicot.
From Coq Require Import Lia Sorting.
From Verif Require Import Base BaseFacts SectionModel LoadModel LoadSpec ElementModel ElementSpec ConstSectFacts BeamModel AnalysisModel AnalysisSpec AnalysisFacts3
  FoundationModel ResultsModel ResultsSpec ResultsFacts PrestressModel PrestressSpec PrestressFacts PrestressFacts2 PrestressFacts3 PrestressFacts4 PrestressFacts5 PrestressFacts6.
Open Scope R_scope.

(** C46: in an analysed simply supported span carrying the equivalent loads of any profile,
    the moment at every station inside the span is minus force times eccentricity. *)
Theorem C46_simply_supported : forall gl ill a sps npts check a' br r mb LM p F k, gauss_rule gl -> an_n a = 1%nat ->
  equivalent_loads [mb_L mb] (b_R (an_beam a)) (FScalar F) [Some p] = Ok LM -> b_LM (an_beam a) = LM -> b_lengths (an_beam a) = [mb_L mb] ->
  (forall i, i = 0%nat \/ i = 2%nat -> restraint (an_beam a) i <> 0) ->
  (forall i, i = 1%nat \/ i = 3%nat -> restraint (an_beam a) i = 0 /\ prescribed (an_beam a) i = None) ->
  placed p (mb_L mb) None ->
  analyze gl ill a sps npts check = (a', Ok br) -> member_at (an_beam a) 0 = Ok mb -> sound_member mb ->
  nth_error (br_mem br) 0 = Some r -> (0 < k < length (r_x r) - 1)%nat ->
  0 < nth k (r_x r) 0 < mb_L mb ->
  Rabs (nth k (r_M r) 0 - - F * drape p (mb_L mb) None (nth k (r_x r) 0)) <= neglected F (mb_L mb).
Proof. exact simply_supported. Qed.
Print Assumptions C46_simply_supported.

Example C46_simply_supported_nonvacuous : forall ill, exists a' br r, analysis_init ss_ctor = Ok ss /\ an_n ss = 1%nat /\
  equivalent_loads [mb_L ss_mb] (b_R (an_beam ss)) (FScalar 1) [Some (Parabola 0 9 0 0 0)] = Ok (b_LM (an_beam ss)) /\ b_lengths (an_beam ss) = [mb_L ss_mb] /\
  (forall i, i = 0%nat \/ i = 2%nat -> restraint (an_beam ss) i <> 0) /\
  (forall i, i = 1%nat \/ i = 3%nat -> restraint (an_beam ss) i = 0 /\ prescribed (an_beam ss) i = None) /\
  placed (Parabola 0 9 0 0 0) (mb_L ss_mb) None /\
  analyze sample_gl ill ss (fun _ => []) None false = (a', Ok br) /\ member_at (an_beam ss) 0 = Ok ss_mb /\ sound_member ss_mb /\
  nth_error (br_mem br) 0 = Some r /\ length (r_x r) = 103%nat /\ drape (Parabola 0 9 0 0 0) 6 None 3 = 9.
Proof.
  intros ill. destruct (ss_results ill (fun _ => [])) as (a' & br & E & EP).
  destruct (analyze_split _ _ _ _ _ _ _ _ E) as (o & Ho & Hv & _).
  destruct (analyze_core_state _ _ _ _ _ _ _ Ho) as (EB & _). rewrite EB in Hv.
  destruct (member_analysis_spec _ _ _ _ _ _ _ Hv) as (ls' & Hls & Hlen & Hs).
  destruct (Hs 0%nat (le_n 1)) as (m & e & r0 & _ & Hr).
  assert (HG := analyze_grid _ _ _ _ _ _ _ _ 0%nat _ ss_mb E ltac:(rewrite EP; lia) eq_refl ltac:(cbn; lra) eq_refl Hr).
  exists a', br. eexists. split; [reflexivity|]. split; [reflexivity|].
  split; [apply parabola_udl; cbn [mb_L ss_mb]; try lra; rewrite Rabs_pos_eq; lra|]. split; [reflexivity|].
  split; [intros i [-> | ->]; cbn; lra|]. split; [intros i [-> | ->]; split; reflexivity|].
  split. { split; [cbn; lra|]. cbn. unfold unless0. destruct (Req_EM_T 0 0); [|lra]. split; constructor. }
  split; [exact E|]. split; [reflexivity|]. split; [exact ss_sound|]. split; [exact Hr|]. split.
  - rewrite (sg_count _ _ _ _ HG), EP. reflexivity.
  - unfold drape, le, lagrange. destruct (Rle_dec 3 0); [lra|]. destruct (Rle_dec (6 - 0) 3); [lra|]. field.
Qed.

(** ...in any span of an analysed continuous beam the moment differs from minus force times
    eccentricity by the straight line between its end values (the secondary moment)... *)
Theorem C46_analysed_span : forall gl ill a sps npts check a' br i r mb e f ps LM p t F k, gauss_rule gl ->
  equivalent_loads (b_lengths (an_beam a)) (b_R (an_beam a)) f ps = Ok LM -> b_LM (an_beam a) = LM ->
  nth_error ps i = Some (Some p) -> force_in f i F -> tip_of (b_R (an_beam a)) i t -> placed p (mb_L mb) t ->
  analyze gl ill a sps npts check = (a', Ok br) -> member_at (an_beam a) i = Ok mb -> sound_member mb ->
  nth_error (br_mem br) i = Some r -> member_forces gl (an_beam a) (br_D br) i = Ok e ->
  (0 < k < length (r_x r) - 1)%nat ->
  let x := nth k (r_x r) 0 - node_x (an_beam a) i in
  0 < x < mb_L mb ->
  let left_end := - e 1%nat + (if Nat.eqb i 0 then 0 else F * drape p (mb_L mb) t 0) in
  let right_end := e 3%nat + (if Nat.eqb (i + 1) (length (b_lengths (an_beam a))) then 0 else F * drape p (mb_L mb) t (mb_L mb)) in
  Rabs (nth k (r_M r) 0 + F * drape p (mb_L mb) t x - ((1 - x / mb_L mb) * left_end + x / mb_L mb * right_end)) <= neglected F (mb_L mb).
Proof. exact analysed_span. Qed.
Print Assumptions C46_analysed_span.

(** ...because that holds for every moment curve in equilibrium with the loads of the span,
    whatever the end moments. *)
Theorem C46_span_balance : forall Ls rs f ps LM ls i p t L F va ma mb V M x, equivalent_loads Ls rs f ps = Ok LM -> parse_LM LM = Ok ls ->
  nth_error Ls i = Some L -> force_in f i F -> nth_error ps i = Some (Some p) ->
  tip_of rs i t -> placed p L t ->
  cut_equilibrium L (actions L (loads_of ls i)) va ma mb V M -> 0 < x < L ->
  let left_end := - ma + (if Nat.eqb i 0 then 0 else F * drape p L t 0) in
  let right_end := mb + (if Nat.eqb (i + 1) (length Ls) then 0 else F * drape p L t L) in
  Rabs (M x + F * drape p L t x - ((1 - x / L) * left_end + x / L * right_end)) <= neglected F L.
Proof. exact span_balance. Qed.
Print Assumptions C46_span_balance.

(** On a cantilever the moment is minus force times eccentricity: free end on the left... *)
Theorem C46_left_cantilever : forall Ls rs f ps LM ls p L F V M x, equivalent_loads Ls rs f ps = Ok LM -> parse_LM LM = Ok ls ->
  nth_error Ls 0 = Some L -> force_in f 0 F -> nth_error ps 0 = Some (Some p) ->
  free_node rs 0 -> placed p L (Some TipLeft) -> forall mb,
  cut_equilibrium L (actions L (loads_of ls 0)) 0 0 mb V M -> 0 < x < L ->
  Rabs (M x + F * drape p L (Some TipLeft) x) <= neglected F L.
Proof. exact left_tip_balance. Qed.
Print Assumptions C46_left_cantilever.

(** ...or on the right. *)
Theorem C46_right_cantilever : forall Ls rs f ps LM ls i p t L F va ma V M x, equivalent_loads Ls rs f ps = Ok LM -> parse_LM LM = Ok ls ->
  (i + 1)%nat = length Ls -> nth_error Ls i = Some L -> force_in f i F -> nth_error ps i = Some (Some p) ->
  free_node rs (i + 1) -> tip_of rs i t -> placed p L t ->
  total_load L (actions L (loads_of ls i)) va ->
  cut_equilibrium L (actions L (loads_of ls i)) va ma 0 V M -> 0 < x < L ->
  Rabs (M x + F * drape p L t x) <= neglected F L.
Proof. exact right_tip_balance. Qed.
Print Assumptions C46_right_cantilever.

(** The loads of an unsupported span are self-equilibrating. *)
Theorem C46_self_equilibrium : forall L rs F p LM ls W0 W1, equivalent_loads [L] rs (FScalar F) [Some p] = Ok LM -> parse_LM LM = Ok ls ->
  free_node rs 0 -> free_node rs 1 -> placed p L (Some TipLeft) ->
  total_load L (actions L (loads_of ls 0)) W0 -> first_moment L (actions L (loads_of ls 0)) W1 ->
  Rabs W0 <= neglected F L /\ Rabs W1 <= neglected F L.
Proof. exact free_span_balance. Qed.
Print Assumptions C46_self_equilibrium.

(** A straight tendon below the centroid: simply supported span, cantilevers, free span. *)
Example C46_supports_nonvacuous : exists LM ls V M,
  (forall rs, In rs [[-1; 0; -1; 0]; [0; 0; -1; -1]; [-1; -1; 0; 0]; [0; 0; 0; 0]] ->
     equivalent_loads [10] rs (FScalar 5) [Some (Parabola 1 1 1 0 0)] = Ok LM) /\ parse_LM LM = Ok ls /\
  (forall t, placed (Parabola 1 1 1 0 0) 10 t) /\
  tip_of [-1; 0; -1; 0] 0 None /\ tip_of [-1; -1; 0; 0] 0 (Some TipRight) /\ free_node [0; 0; -1; -1] 0 /\ free_node [0; 0; 0; 0] 0 /\ free_node [0; 0; 0; 0] 1 /\
  cut_equilibrium 10 (actions 10 (loads_of ls 0)) 0 0 0 V M /\ M 3 = -5 /\
  total_load 10 (actions 10 (loads_of ls 0)) 0 /\ first_moment 10 (actions 10 (loads_of ls 0)) 0.
Proof.
  do 2 eexists. exists (fun _ => 0), (fun _ => -5). split.
  { intros rs [<-|[<-|[<-|[<-|[]]]]]; apply straight_any. }
  split; [exact ecc_parse|]. split; [exact ecc_placed|]. split; [cbn; unfold free_node; cbn; split; intros [? ?]; lra|].
  split; [cbn; unfold free_node; cbn; split; [intros [? ?]; lra|split; reflexivity]|].
  do 3 (split; [split; reflexivity|]). split; [exact ecc_cut|]. split; [reflexivity|]. exact ecc_balance.
Qed.

(** The documented closed forms: a parabola of sag [a] and a straight eccentric tendon. *)
Theorem C46_parabola : forall F a L r0 r1 r2 r3, 1e-9 < L -> 1e-9 < Rabs (8 * a / L ^ 2) -> r0 <> 0 -> r2 <> 0 ->
  equivalent_loads [L] [r0; r1; r2; r3] (FScalar F) [Some (Parabola 0 a 0 0 0)] = Ok [Row 1 1 [- (8) * F * a / L ^ 2]].
Proof. exact parabola_udl. Qed.
Print Assumptions C46_parabola.
Theorem C46_straight : forall F e L r0 r1 r2 r3, 1e-9 < L -> 1e-9 < Rabs e -> r0 <> 0 -> r2 <> 0 ->
  equivalent_loads [L] [r0; r1; r2; r3] (FScalar F) [Some (Parabola e e e 0 0)] = Ok [Row 1 4 [F * e; 0]; Row 1 4 [- F * e; L]].
Proof. exact straight_moments. Qed.
Print Assumptions C46_straight.
Example C46_parabola_nonvacuous : 1e-9 < 6 /\ 1e-9 < Rabs (8 * 9 / 6 ^ 2).
Proof. split; [lra|]. rewrite Rabs_pos_eq; lra. Qed.

(** The tendon is continuous; the line drawn for it is [drape] (up to 1e-9 after a joint). *)
Theorem C46_continuous : forall p L t, placed p L t -> forall x, continuity_pt (drape p L t) x.
Proof. exact drape_continuous. Qed.
Print Assumptions C46_continuous.
Theorem C46_drawn : forall p L t segs x, segments p L t = Ok segs -> placed p L t -> 0 <= x <= L ->
  (forall b, In b (breaks p L t) -> ~ (b < x <= b + 1e-9)) -> eval_e segs x = Ok (drape p L t x).
Proof. exact drawn_drape. Qed.
Print Assumptions C46_drawn.
Example C46_drawn_nonvacuous : exists segs, segments (Harp 0 1 0 4 1 0) 10 None = Ok segs /\ placed (Harp 0 1 0 4 1 0) 10 None /\
  (forall b, In b (breaks (Harp 0 1 0 4 1 0) 10 None) -> ~ (b < 3 <= b + 1e-9)) /\ drape (Harp 0 1 0 4 1 0) 10 None 3 = 2 / 3.
Proof.
  eexists. split; [|split; [|split]].
  - unfold segments, harp_segments. cbv zeta. rewrite !ltb_t by lra. cbn [andb negb]. reflexivity.
  - split; [lra|]. cbn. unfold unless0. destruct (Req_EM_T 1 0); [lra|]. destruct (Req_EM_T 0 0); [|lra]. cbn.
    split; repeat constructor; lra.
  - cbn. unfold unless0. destruct (Req_EM_T 1 0); [lra|]. destruct (Req_EM_T 0 0); [|lra]. cbn. intros b [<-|[<-|[]]]; lra.
  - unfold drape, le, chord. destruct (Rle_dec 3 1); [lra|]. destruct (Rle_dec 3 4); [|lra]. field.
Qed.

(** The compound parabola is smooth at its left contraflexure and at the low point, but at
    the right contraflexure only when [b = c] (or when it is flat)... *)
Theorem C46_compound_joins : forall el em er a b c L, 0 < a < c -> c < L - b < L ->
  let e := drape (CompoundParabola el em er a b c) L None in
  (exists s, is_derive e a s) /\ is_derive e c 0 /\ (ex_derive e (L - b) <-> em = er \/ b = c).
Proof. exact compound_joins. Qed.
Print Assumptions C46_compound_joins.
(** ...so that a point load appears there, against the documented matching slopes. *)
Theorem C46_compound_slope_refuted : exists LM, equivalent_loads [10] [-1; 0; -1; 0] (FScalar 8) [Some (CompoundParabola 0 1 0 2 2 4)] = Ok LM /\ In (Row 1 2 [1; 8]) LM.
Proof. exact compound_kink. Qed.
Print Assumptions C46_compound_slope_refuted.

(** With an unstressed first span the anchorage moment is applied at the end of the beam, not
    at the end of the tendon. *)
Theorem C46_unstressed_span_refuted : exists LM, equivalent_loads [10; 10] [-1; 0; -1; 0; -1; 0] (FScalar 5) [None; Some (Parabola 1 1 1 0 0)] = Ok LM /\
  In (Row 1 4 [5 * 1; 0]) LM /\ (forall args, In (Row 2 4 args) LM -> args <> [5 * 1; 0]).
Proof.
  eexists. split; [exact unstressed_first|]. split; [left; reflexivity|]. intros args [H|[H|[]]] E; [discriminate|].
  rewrite E in H. injection H as H1 H2. lra.
Qed.
Print Assumptions C46_unstressed_span_refuted.

(** With no stressed span the call succeeds unless an end of the beam is free. *)
Theorem C46_no_tendon_refuted : forall F, equivalent_loads [10] [-1; -1; 0; 0] (FScalar F) [None] = Err NameError /\
  equivalent_loads [10] [-1; -1; -1; 0] (FScalar F) [None] = Ok [].
Proof. exact all_unstressed. Qed.
Print Assumptions C46_no_tendon_refuted.

(** A profile whose points are not in order is refused, and no other.  Full claim: all spans.
    Missing: the parabola on a cantilever... *)
Theorem C46_refused_partial : forall p L t, (match p, t with Parabola _ _ _ _ _, Some _ => False | _, _ => True end) ->
  (in_order p L t -> exists segs, segments p L t = Ok segs) /\
  (~ in_order p L t -> segments p L t = Err ValueError \/ segments p L t = Err NotImplementedError).
Proof. exact order_checked. Qed.
Print Assumptions C46_refused_partial.
Example C46_refused_nonvacuous : in_order (DoubleHarp 0 1 1 0 3 7 0 0) 10 None /\ ~ in_order (DoubleHarp 0 1 1 0 7 3 0 0) 10 None.
Proof. cbn. split; lra. Qed.

(** ...where a straight part longer than the span gives a curve that runs backwards. *)
Theorem C46_tip_unchecked_refuted : exists segs s, segments (Parabola 0 0 1 12 0) 10 (Some TipRight) = Ok segs /\ In s segs /\ sg_x2 s < sg_x1 s.
Proof. exact tip_unchecked. Qed.
Print Assumptions C46_tip_unchecked_refuted.
