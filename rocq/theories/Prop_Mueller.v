(** C85: reactions and deflected shapes (the principle of Mueller-Breslau). *)
From Coq Require Import ZArith Lra Lia String.
From Verif Require Import Base BaseFacts Linalg SectionModel LoadModel LoadSpec FoundationModel ElementModel ElementSpec UtilsModel BeamModel BeamSpec AnalysisModel AnalysisSpec AnalysisFacts3 ConstSectFacts
  ResultsModel ResultsSpec ExactSpec VehicleModel BridgeModel BridgeSpec InfModel InfSpec InfFacts4 InfFacts5 MuellerSpec MuellerFacts MuellerFacts2.
Open Scope R_scope.
Local Notation length := List.length.
Local Open Scope list_scope.

(** Full claim: all beams.  Missing: varying sections and foundations, pin-pin members (analysed
    wrongly, C04_pin_pin_refuted) and concentrated moments on shear-flexible members (likewise,
    C07_moment_load_refuted).

    The reaction to any loads at a support, times the displacement given to that support in an
    analysis of the unloaded beam, is the work of the loads on the shape the beam then takes. *)
Theorem C85_reaction_partial : forall gl ill a A j delta check check' oA oB y th W, gauss_rule gl ->
  no_settlement (an_beam a) -> settles_supports (an_beam a) -> plain_members a -> forces_only (set_loads (an_beam a) A) (an_n a) ->
  (j < an_ndof a)%nat -> restraint (an_beam a) j < 0 ->
  run gl ill a A check = Ok oA -> run_settled gl ill a [] (lift (an_ndof a) j delta) check' = Ok oB ->
  (forall m, (m < an_n a)%nat -> takes_shape (set_loads (an_beam a) []) (o_d oB) m (y m) (th m)) ->
  beam_resultant (set_loads (an_beam a) A) (an_n a) y th W ->
  reported (an_beam a) oA j * delta = W.
Proof. exact (fun gl ill a A j delta check check' oA oB y th W G => mueller gl ill a G A j delta check check' oA oB y th W). Qed.
Print Assumptions C85_reaction_partial.

(** For a point load this is the deflection at the load... *)
Theorem C85_point_load_partial : forall gl ill a i P x j delta check check' oA oB y th, gauss_rule gl ->
  no_settlement (an_beam a) -> settles_supports (an_beam a) -> plain_members a -> (i < an_n a)%nat -> 0 <= x <= span_length (an_beam a) i ->
  (j < an_ndof a)%nat -> restraint (an_beam a) j < 0 ->
  run gl ill a [Row (Z.of_nat i + 1) 2 [P; x; 0]] check = Ok oA -> run_settled gl ill a [] (lift (an_ndof a) j delta) check' = Ok oB ->
  (forall m, (m < an_n a)%nat -> takes_shape (set_loads (an_beam a) []) (o_d oB) m (y m) (th m)) ->
  reported (an_beam a) oA j * delta = P * y i x.
Proof. exact (fun gl ill a i P x j delta check check' oA oB y th G => point_load gl ill a G i P x j delta check check' oA oB y th). Qed.
Print Assumptions C85_point_load_partial.

(** ...so an influence line of a reaction (or of a reaction moment) is the shape the beam takes
    when that support is displaced (or turned) by one: its ordinates are the deflections there,
    times the load value the lines were created with. *)
Theorem C85_influence_partial : forall gl ill s step lv s1 ints poi off eff s2 xs eta nd delta check oB y th, gauss_rule gl ->
  il_valid s -> (forall x, step = Some x -> 0 < x) -> lv <> 0 ->
  plain_restraints (an_beam (il_a s)) -> settles_supports (an_beam (il_a s)) -> plain_members (il_a s) ->
  (effect_of eff = EffR /\ off = 0%nat \/ effect_of eff = EffMR /\ off = 1%nat) ->
  create_ils gl ill s step lv = (s1, Ok tt) -> get_il gl ill ints s1 poi eff = (s2, Ok (xs, eta)) ->
  read_support (an_beam (il_a s)) off poi nd ->
  run_settled gl ill (il_a s) [] (lift (an_ndof (il_a s)) (2 * nd + off) delta) check = Ok oB ->
  (forall m, (m < an_n (il_a s))%nat -> takes_shape (set_loads (an_beam (il_a s)) []) (o_d oB) m (y m) (th m)) ->
  exists new, xs = il_pos s ++ new /\ il_steps (an_beam (il_a s)) (step_of (an_beam (il_a s)) step) new /\ length new = length eta /\
    forall k i x, (k < length new)%nat -> (i < an_n (il_a s))%nat -> nth k new 0 = node_at (an_beam (il_a s)) i + x ->
      0 <= x < span_length (an_beam (il_a s)) i \/ x = span_length (an_beam (il_a s)) i /\ i = (an_n (il_a s) - 1)%nat -> nth k eta 0 * delta = lv * y i x.
Proof. exact ordinate_shape. Qed.
Print Assumptions C85_influence_partial.
(** (Influence-line objects have no settlements.) *)
Theorem C85_unsettled : forall L EI rs types s, il_init L EI rs types = Ok s -> settles_supports (an_beam (il_a s)).
Proof. exact il_unsettled. Qed.
Print Assumptions C85_unsettled.

(** The beam does take such a shape. *)
Theorem C85_shape : forall gl ill a j delta check oB, gauss_rule gl -> plain_members a ->
  run_settled gl ill a [] (lift (an_ndof a) j delta) check = Ok oB ->
  exists s : nat -> (R -> R) * (R -> R), forall m, (m < an_n a)%nat -> takes_shape (set_loads (an_beam a) []) (o_d oB) m (fst (s m)) (snd (s m)).
Proof. exact (fun gl ill a j delta check oB G => shapes_exist gl ill a G j delta check oB). Qed.
Print Assumptions C85_shape.

(** Two spans, the second flexible in shear, on a clamp, a roller (lifted by 1) and a spring, under
    a point load of 5. *)
Example C85_nonvacuous : forall ill, plain_members sheared /\ no_settlement (an_beam sheared) /\ settles_supports (an_beam sheared) /\ restraint (an_beam sheared) 2 < 0 /\
  exists oA oB (s : nat -> (R -> R) * (R -> R)), run sample_gl ill sheared [Row 2 2 [5; 2; 0]] false = Ok oA /\ run_settled sample_gl ill sheared [] (lift (an_ndof sheared) 2 1) false = Ok oB /\
    (forall m, (m < 2)%nat -> takes_shape (set_loads (an_beam sheared) []) (o_d oB) m (fst (s m)) (snd (s m))) /\
    reported (an_beam sheared) oA 2 = 5 * fst (s 1%nat) 2.
Proof.
  intros ill. split; [exact sheared_plain|]. destruct sheared_unsettled as (ND & SS). split; [exact ND|]. split; [exact SS|]. split; [cbn; lra|].
  destruct (sheared_point_runs ill) as (oA & HA). destruct (sheared_lifts ill) as (oB & HB). change 6%nat with (an_ndof sheared) in HB.
  destruct (C85_shape _ _ _ _ _ _ _ gauss2_rule sheared_plain HB) as (s & Hs). exists oA, oB, s. repeat (split; [assumption|]).
  assert (Q := C85_point_load_partial sample_gl ill sheared 1 5 2 2 1 false false oA oB (fun m => fst (s m)) (fun m => snd (s m)) gauss2_rule ND SS sheared_plain ltac:(cbn; lia) ltac:(unfold span_length; cbn; lra)
    ltac:(cbn; lia) ltac:(cbn; lra) HA HB Hs). lra.
Qed.
(** An encastre span of 6: the influence line of the left reaction. *)
Example C85_influence_nonvacuous : forall ill, exists s1 s2 xs eta oB (s : nat -> (R -> R) * (R -> R)),
  create_ils sample_gl ill il0 (Some 1) 1 = (s1, Ok tt) /\ get_il sample_gl ill true s1 0 "R" = (s2, Ok (xs, eta)) /\
  run_settled sample_gl ill (il_a il0) [] (lift 4 0 1) false = Ok oB /\
  takes_shape (set_loads (an_beam (il_a il0)) []) (o_d oB) 0 (fst (s 0%nat)) (snd (s 0%nat)) /\
  forall k, (k < length xs)%nat -> nth k xs 0 < 6 -> 0 <= nth k xs 0 -> nth k eta 0 = fst (s 0%nat) (nth k xs 0).
Proof.
  intros ill. destruct (il0_creates sample_gl ill (Some 1) 1 (step_some 1 Rlt_0_1)) as (s1 & H1).
  destruct (read_completes sample_gl ill il0 (Some 1) 1 s1 true 0 "R" il0_valid (step_some 1 Rlt_0_1) il0_plain (il0_readable _) H1) as (xs & eta & HG).
  destruct (il0_lifts ill) as (oB & HB). destruct (C85_shape _ _ (il_a il0) 0 1 false oB gauss2_rule il0_prismatic HB) as (s & Hs).
  assert (RD : read_support (an_beam (il_a il0)) 0 0 0).
  { split; [split; [cbn; lia|reflexivity]|]. intros j [Hj _]. replace (node_at (an_beam (il_a il0)) 0 - 0) with 0 by (unfold node_at, lsum; cbn; ring). rewrite Rabs_R0. split; [apply Rabs_pos|lia]. }
  destruct (C85_influence_partial sample_gl ill il0 (Some 1) 1 s1 true 0 0 "R" s1 xs eta 0 1 false oB (fun m => fst (s m)) (fun m => snd (s m)) gauss2_rule il0_valid (step_some 1 Rlt_0_1) R1_neq_R0 il0_plain
    (C85_unsettled _ _ _ _ _ il0_init) il0_prismatic (or_introl (conj eq_refl eq_refl)) H1 HG RD HB Hs) as (new & EX & _ & _ & Q).
  cbn [il0 il_pos app] in EX. subst new. exists s1, s1, xs, eta, oB, s. repeat (split; [assumption|]). split; [apply Hs; cbn; lia|].
  intros k Hk L6 L0. specialize (Q k 0%nat (nth k xs 0) Hk ltac:(cbn; lia) ltac:(unfold node_at, lsum; cbn; ring) ltac:(left; unfold span_length; cbn; lra)). lra.
Qed.
