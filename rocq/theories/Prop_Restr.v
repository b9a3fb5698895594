(** A negative restraint value means the same whatever the number. *)
From Coq Require Import ZArith String.
From Verif Require Import Base Linalg SectionModel LoadModel UtilsModel ElementModel BeamModel BeamSpec AnalysisModel AnalysisSpec ResultsModel ResultsFacts BridgeModel RenderModel InfModel NonlinModel ModalModel ModalSpec ModalFacts3 InfFacts5 RestrSpec RestrFacts RestrFacts2 RestrExample.
Local Notation length := List.length.
Open Scope R_scope.

(** Static analysis: replacing negative restraint values by other negative values changes
    nothing but the stored list: same displacements, reactions and member results, same
    refusals... *)
Theorem C92_static : forall gl ill a rs' sps npts check, same_restraints (b_R (an_beam a)) rs' ->
  analyze gl ill (edit_restraints a rs') sps npts check = (let (a1, r) := analyze gl ill a sps npts check in (edit_restraints a1 rs', r)).
Proof. exact analyze_same. Qed.
Print Assumptions C92_static.
(** ...same verdict on stability, same support positions for the rules that look at supports. *)
Theorem C92_stable : forall gl ill a rs', same_restraints (b_R (an_beam a)) rs' ->
  is_stable gl ill (edit_restraints a rs') = (let (a1, r) := is_stable gl ill a in (edit_restraints a1 rs', r)).
Proof. exact stable_same. Qed.
Print Assumptions C92_stable.
Theorem C92_supports : forall b rs' v, same_restraints (b_R b) rs' -> vertical_support_xs (with_R b rs' v) = vertical_support_xs b.
Proof. exact supports_same. Qed.
Print Assumptions C92_supports.
(** Influence lines of shear and moment are the same too. *)
Theorem C92_lines : forall gl ill ints s rs' poi eff, same_restraints (b_R (an_beam (il_a s))) rs' -> effect_of eff = EffV \/ effect_of eff = EffM ->
  get_il gl ill ints (edit_il s rs') poi eff = (let (s1, r) := get_il gl ill ints s poi eff in (edit_il s1 rs', r)).
Proof. exact lines_same. Qed.
Print Assumptions C92_lines.

(** Refuted for influence lines of reactions: with no value equal to -1 none can be read, and
    on a single built-in span whose left vertical restraint is another negative number the line
    given for the right reaction is that of the left fixing moment, the second of the four
    reactions. *)
Theorem C92_reaction_lines_refuted : forall gl ill ints s poi eff, il_res s <> [] -> (forall r, In r (b_R (an_beam (il_a s))) -> r <> -1) ->
  (exists ik, station_index (an_beam (il_a s)) (il_res s) poi = Ok ik) -> effect_of eff = EffR -> snd (get_il gl ill ints s poi eff) = Err ValueError.
Proof. exact no_reaction_line. Qed.
Print Assumptions C92_reaction_lines_refuted.
Theorem C92_wrong_reaction_refuted : forall gl ill s L r0 eff pos eta, 0 < L -> unusual r0 -> il_res s <> [] ->
  b_lengths (an_beam (il_a s)) = [L] -> b_R (an_beam (il_a s)) = [r0; -1; -1; -1] -> effect_of eff = EffR ->
  snd (get_il gl ill true s L eff) = Ok (pos, eta) -> Forall2 (fun r x => nth_error (br_R r) 1 = Some x) (il_res s) eta.
Proof. exact wrong_line. Qed.
Print Assumptions C92_wrong_reaction_refuted.
(** Refuted for vibrations: such supports are taken as free, every DOF of the mesh takes part. *)
Theorem C92_modal_refuted : forall b mass nseg EIs Ls ms, vibrating b mass nseg EIs Ls ms -> Forall unusual (b_R b) ->
  forall eigh, eigh_sound eigh -> forall n_modes r, solve_modal eigh b mass n_modes nseg = Ok r -> length (mo_omega r) = Nat.min n_modes (dofs b nseg).
Proof. exact unusual_modes. Qed.
Print Assumptions C92_modal_refuted.
(** Refuted for plastic analysis: without a -1 the beam is not supported at all; collapse is
    reported at load factor zero, without a hinge and with no moments, under any load. *)
Theorem C92_plastic_refuted : forall rank Ls EI rs Mp My q h a LM lmax re ms r, (forall x, In x rs -> x <> -1) -> 0 < lmax -> (0 < ms)%nat ->
  nba_init Ls EI rs Mp My q h = Ok a -> nl_analyze rank a LM lmax re ms = Ok r ->
  nr_collapsed r = true /\ nr_lambda r = 0 /\ nr_events r = [] /\ (forall j, nr_moments r j = 0).
Proof. exact collapse_at_once. Qed.
Print Assumptions C92_plastic_refuted.
(** Refuted for drawings: no support is drawn. *)
Theorem C92_drawn_refuted : forall xs rs, Forall unusual rs -> length rs = (2 * length xs)%nat -> infer_supports xs rs = Ok [].
Proof. exact nothing_drawn. Qed.
Print Assumptions C92_drawn_refuted.

(** The built-in span of 6 with codes -1, and with -2 at the left end: the same analysis; its
    influence lines can be created and the line of the right reaction read. *)
Example C92_nonvacuous : forall gl ill sps, same_restraints (b_R (an_beam ff)) [-2; -1; -1; -1] /\ unusual (-2) /\
  (exists a1 br, analyze gl ill (edit_restraints ff [-2; -1; -1; -1]) sps None false = (a1, Ok br)) /\
  il_init [6] (EIAll (RConst 2)) [-2; -1; -1; -1] [EtNum [1%Z]] = Ok il2 /\
  exists s1 pos eta, create_ils gl ill il2 (Some 1) 1 = (s1, Ok tt) /\ il_res s1 <> [] /\
    b_lengths (an_beam (il_a s1)) = [6] /\ b_R (an_beam (il_a s1)) = [-2; -1; -1; -1] /\ snd (get_il gl ill true s1 6 "R") = Ok (pos, eta).
Proof. exact restr_case. Qed.
(** A vibrating span and a plastic one with such codes only. *)
Example C92_modal_nonvacuous : vibrating (with_R fixed_beam [-2; -2; -2; -2] 0) (MScalar 420) 2 [1] [2] [420] /\ Forall unusual (b_R (with_R fixed_beam [-2; -2; -2; -2] 0)) /\
  dofs (with_R fixed_beam [-2; -2; -2; -2] 0) 2 = 6%nat /\ motions fixed_beam 2 = 2%nat.
Proof. exact modal_case. Qed.
Example C92_plastic_nonvacuous : forall rank, exists a r, nba_init [4] (EIOne (RConst 1)) [-2; -2; -2; -2] (NScalar 1) None 0 1 = Ok a /\
  (forall x, In x [-2; -2; -2; -2] -> x <> -1) /\ nl_analyze rank a [Row 1 1 [5]] 2 1 10 = Ok r.
Proof. exact nl_case. Qed.
