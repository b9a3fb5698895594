(** Property theorems about influence lines (C39). *)
From Coq Require Import ZArith Lra Lia String.
From Verif Require Import Base BaseFacts Linalg SectionModel LoadModel LoadSpec FoundationModel ElementModel UtilsModel BeamModel BeamSpec AnalysisModel AnalysisSpec ResultsModel ResultsSpec
  VehicleModel BridgeModel BridgeSpec InfModel InfSpec InfFacts4 InfFacts5.
Open Scope R_scope.
Local Notation length := List.length.
Local Open Scope list_scope.

(** C39: an influence-line object of a beam of positive spans is valid... *)
Theorem C39_constructed : forall L EI rs types s, il_init L EI rs types = Ok s -> (1 <= b_nspans (an_beam (il_a s)))%nat -> Forall (Rlt 0) (b_lengths (an_beam (il_a s))) ->
  il_valid s /\ il_res s = [] /\ il_pos s = [] /\ b_R (an_beam (il_a s)) = rs.
Proof. exact init_valid. Qed.
Print Assumptions C39_constructed.

(** ...and the ordinates of every influence line it gives afterwards predict the effect of any
    set of point loads at its positions, which run over the beam in the steps asked for.  The
    object stays valid, so this holds for every sequence of calls; only the positions of
    earlier creations remain in front of the list. *)
Theorem C39_superposition : forall gl ill s step lv s1 ints poi eff s2 xs eta,
  il_valid s -> (forall x, step = Some x -> 0 < x) -> lv <> 0 ->
  match effect_of eff with EffR | EffMR => plain_restraints (an_beam (il_a s)) | _ => True end ->
  create_ils gl ill s step lv = (s1, Ok tt) -> get_il gl ill ints s1 poi eff = (s2, Ok (xs, eta)) ->
  il_valid s1 /\ s2 = s1 /\ exists new, xs = il_pos s ++ new /\ il_steps (an_beam (il_a s)) (step_of (an_beam (il_a s)) step) new /\
    predicts gl ill (il_a s) lv poi (effect_of eff) new eta.
Proof. exact superposition. Qed.
Print Assumptions C39_superposition.

(** Without a creation, a unit load is marched over the beam in a hundred steps. *)
Theorem C39_default : forall gl ill s ints poi eff s2 xs eta, il_valid s -> il_res s = [] ->
  match effect_of eff with EffR | EffMR => plain_restraints (an_beam (il_a s)) | _ => True end ->
  get_il gl ill ints s poi eff = (s2, Ok (xs, eta)) ->
  il_valid s2 /\ exists new, xs = il_pos s ++ new /\ il_steps (an_beam (il_a s)) (deck_length (an_beam (il_a s)) / 100) new /\
    predicts gl ill (il_a s) 1 poi (effect_of eff) new eta.
Proof. exact default_superposition. Qed.
Print Assumptions C39_default.

(** The effect read is the one named in the call. *)
Theorem C39_names : forall s e, effect_of s = e <-> effect_named s e.
Proof. exact effect_named_iff. Qed.
Print Assumptions C39_names.

(** The effect predicted is the only one of that name at that point. *)
Theorem C39_effect_unique : forall b r p eff v v', deck b -> effect_value b r p eff v -> effect_value b r p eff v' -> v = v'.
Proof. exact effect_unique. Qed.
Print Assumptions C39_effect_unique.

(** Influence lines exist wherever the beam can be analysed under one point load; those of
    shear and moment at every point, those of reactions if there is a support of that kind. *)
Theorem C39_creates : forall gl ill s step lv, il_valid s -> (forall x, step = Some x -> 0 < x) ->
  (forall i P x, exists r, analysed_with gl ill (il_a s) (fun _ => []) [Row i 2 [P; x; 0]] = Ok r) ->
  exists s1, create_ils gl ill s step lv = (s1, Ok tt).
Proof. exact create_completes. Qed.
Print Assumptions C39_creates.
Theorem C39_reads : forall gl ill s step lv s1 ints poi eff, il_valid s -> (forall x, step = Some x -> 0 < x) -> plain_restraints (an_beam (il_a s)) ->
  readable (an_beam (il_a s)) ints (effect_of eff) -> create_ils gl ill s step lv = (s1, Ok tt) -> exists xs eta, get_il gl ill ints s1 poi eff = (s1, Ok (xs, eta)).
Proof. exact read_completes. Qed.
Print Assumptions C39_reads.

(** Refuted: creating influence lines again leaves the positions of the first creation, so that
    positions and ordinates no longer correspond. *)
Theorem C39_recreated_refuted : forall gl ill, exists s s1 s2 xs eta, il_valid s /\ il_pos s = [] /\
  create_ils gl ill s (Some 1) 1 = (s1, Ok tt) /\ create_ils gl ill s1 (Some 1) 1 = (s2, Ok tt) /\ get_il gl ill true s2 3 "M" = (s2, Ok (xs, eta)) /\ (length eta < length xs)%nat.
Proof. exact again. Qed.
Print Assumptions C39_recreated_refuted.
(** Finding: with the restraints in a float array, as [np.array] gives them next to a spring
    stiffness, no influence line of a reaction can be read. *)
Theorem C39_float_restraints : forall gl ill s step lv s1 poi eff, il_valid s -> (forall x, step = Some x -> 0 < x) -> plain_restraints (an_beam (il_a s)) ->
  effect_of eff = EffR \/ effect_of eff = EffMR -> readable (an_beam (il_a s)) true (effect_of eff) ->
  create_ils gl ill s step lv = (s1, Ok tt) -> get_il gl ill false s1 poi eff = (s1, Err IndexError).
Proof. exact floats_refused. Qed.
Print Assumptions C39_float_restraints.

(** An encastre span of 6, influence lines in steps of 1, a load of 5 at 2 and one of 7 at 4:
    every effect can be read and is predicted. *)
Example C39_nonvacuous : forall gl ill poi eff, il_init [6] (EIAll (RConst 2)) [-1; -1; -1; -1] [EtNum [1%Z]] = Ok il0 /\ il_valid il0 /\
  (forall e, readable (an_beam (il_a il0)) true e) /\ plain_restraints (an_beam (il_a il0)) /\
  exists s1 xs eta, create_ils gl ill il0 (Some 1) 1 = (s1, Ok tt) /\ get_il gl ill true s1 poi eff = (s1, Ok (xs, eta)) /\
    length xs = 7%nat /\ loads_at (an_beam (il_a il0)) xs [(2%nat, 5); (4%nat, 7)] [Row 1 2 [5; 2; 0]; Row 1 2 [7; 4; 0]] /\
    exists r v, analysed_with gl ill (il_a il0) (fun _ => []) [Row 1 2 [5; 2; 0]; Row 1 2 [7; 4; 0]] = Ok r /\
      effect_value (an_beam (il_a il0)) r poi (effect_of eff) v /\ v = 5 * nth 2 eta 0 + 7 * nth 4 eta 0.
Proof.
  intros gl ill poi eff. split; [exact il0_init|]. split; [exact il0_valid|]. split; [exact il0_readable|]. split; [exact il0_plain|].
  destruct (il0_creates gl ill (Some 1) 1 (step_some 1 Rlt_0_1)) as (s1 & H1).
  destruct (C39_reads gl ill il0 (Some 1) 1 s1 true poi eff il0_valid (step_some 1 Rlt_0_1) il0_plain (il0_readable _) H1) as (xs & eta & HG).
  assert (PR : match effect_of eff with EffR | EffMR => plain_restraints (an_beam (il_a il0)) | _ => True end) by (destruct (effect_of eff); exact I || exact il0_plain).
  destruct (C39_superposition gl ill il0 (Some 1) 1 s1 true poi eff s1 xs eta il0_valid (step_some 1 Rlt_0_1) R1_neq_R0 PR H1 HG) as (_ & _ & new & E & (k & EN & HK) & P & Q).
  cbn [il0 il_pos app] in E. subst new. exists s1, xs, eta. split; [exact H1|]. split; [exact HG|].
  assert (K6 : k = 6%nat).
  { assert (D6 : deck_length (an_beam (il_a il0)) = 6) by (unfold deck_length, node_at, lsum; cbn; ring). unfold step_of, given in HK. rewrite D6 in HK. 
    assert (B : 5 < INR k < 7) by (unfold Rabs in HK; destruct (Rcase_abs _) in HK; lra). destruct B as [B1 B2]. replace 5 with (INR 5) in B1 by (cbn; ring). replace 7 with (INR 7) in B2 by (cbn; ring). apply INR_lt in B1, B2. lia. }
  subst k. unfold positions, step_of, given in EN. cbn [seq map INR] in EN.
  split; [rewrite EN; reflexivity|].
  assert (LA : loads_at (an_beam (il_a il0)) xs [(2%nat, 5); (4%nat, 7)] [Row 1 2 [5; 2; 0]; Row 1 2 [7; 4; 0]]).
  { constructor; [|constructor; [|constructor]]; (split; [rewrite EN; cbn; lia|]); rewrite EN; cbn [fst snd nth].
    - replace (0 + (1 + 1) * 1) with 2 by ring. apply il0_axle. lra.
    - replace (0 + (1 + 1 + 1 + 1) * 1) with 4 by ring. apply il0_axle. lra. }
  split; [exact LA|]. destruct (Q _ _ LA) as (r & v & HR & HV & HS). exists r, v. split; [exact HR|]. split; [exact HV|].
  unfold lsum in HS. cbn [map fold_right fst snd] in HS. lra.
Qed.
