(** C101: displacements prescribed where no rigid support is. *)
From Verif Require Import Base LoadModel LoadSpec ElementModel ElementSpec ConstSectFacts UtilsModel BeamModel BeamSpec AnalysisModel AnalysisSpec AnalysisFacts3 JackSpec JackFacts.
Open Scope R_scope.

(** C101: a prescribed displacement is met at every degree of freedom, whatever its restraint. *)
Theorem C101_placed : forall gl ill a npts check a' o i v, analyze_core gl ill a npts check = (a', Ok o) ->
  (i < an_ndof a)%nat -> prescribed (an_beam a) i = Some v -> o_d o i = v.
Proof. exact placed. Qed.
Print Assumptions C101_placed.

(** The reported reactions and spring forces, and forces [F] where a displacement is prescribed
    without a rigid support, hold every node and balance the loads.  Full claim: without [F].
    At the places of [F] the force of the spring alone is reported, and nothing without a
    spring... *)
Theorem C101_balance_partial : forall gl ill a npts check a' o, analyze_core gl ill a npts check = (a', Ok o) ->
  exists ef F, (forall m, (m < an_n a)%nat -> member_state gl (an_beam a) (o_d o) m (ef m)) /\
    (forall i, ~ jacked (an_beam a) i -> F i = 0) /\
    (forall i, (i < an_ndof a)%nat -> reported (an_beam a) o i + F i = nodal_sum (an_n a) ef i) /\
    (forall i, (i < an_ndof a)%nat -> jacked (an_beam a) i -> reported (an_beam a) o i = spring_force (an_beam a) i (o_d o i)) /\
    (gauss_rule gl -> loads_on_members (an_beam a) (an_n a) ->
      (members (an_beam a) (an_n a) sound_member -> forall W, beam_load (an_beam a) (an_n a) W -> rsum (an_n a + 1) (fun j => reported (an_beam a) o (2 * j) + F (2 * j)%nat) = W) /\
      (members (an_beam a) (an_n a) (fun mb => sound_member mb /\ mb_type mb <> 4%nat) -> forall W, beam_moment (an_beam a) (an_n a) W ->
        rsum (an_n a + 1) (fun j => node_x (an_beam a) j * (reported (an_beam a) o (2 * j) + F (2 * j)%nat) + (reported (an_beam a) o (2 * j + 1) + F (2 * j + 1)%nat)) = W)).
Proof. exact jacks. Qed.
Print Assumptions C101_balance_partial.

(** ...so the reported reactions of an unloaded cantilever whose tip is lifted by one unit add
    up to -3, not to its load.  It also meets the hypotheses of the theorems above. *)
Theorem C101_lifted_tip_refuted : forall ill, exists o, analysis_init lift_ctor = Ok lift /\ members lift_beam 1 sound_member /\ loads_on_members lift_beam 1 /\
  snd (analyze_core sample_gl ill lift None true) = Ok o /\ jacked lift_beam 2 /\ beam_load lift_beam 1 0 /\ rsum 2 (fun j => reported lift_beam o (2 * j)) = -3.
Proof. exact lift_refuted. Qed.
Print Assumptions C101_lifted_tip_refuted.
Example C101_nonvacuous : gauss_rule sample_gl /\ prescribed (an_beam lift) 2 = Some 1 /\ restraint (an_beam lift) 2 = 0.
Proof. split; [exact gauss2_rule|]. split; reflexivity. Qed.
