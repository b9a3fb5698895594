(** C52, C63: statically determinate beams. *)
From Coquelicot Require Import Coquelicot.
From Coq Require Import Lia.
From Verif Require Import Base BaseFacts Linalg SectionModel ConstSectFacts LoadModel LoadSpec ElementModel ElementSpec ElementFacts UtilsModel BeamModel
  AnalysisModel AnalysisSpec AnalysisFacts3 ReleaseFacts ResultsModel ResultsSpec DetSpec DetFacts DetFacts2.
Open Scope R_scope.

(** C52: imposed curvatures (and settlements) cause no end forces and no reactions on a
    statically determinate beam... *)
Theorem C52_no_forces_partial : forall gl ill a npts check a' o, gauss_rule gl ->
  determinate (an_beam a) (an_n a) -> only_imposed (an_beam a) (an_n a) ->
  members (an_beam a) (an_n a) (fun mb => sound_member mb /\ mb_type mb <> 4%nat) -> loads_on_members (an_beam a) (an_n a) ->
  analyze_core gl ill a npts check = (a', Ok o) ->
  (forall m e, (m < an_n a)%nat -> member_forces gl (an_beam a) (o_d o) m = Ok e -> forall p, (p < 4)%nat -> e p = 0) /\
  (settles_supports (an_beam a) -> forall i, (i < an_ndof a)%nat -> reported (an_beam a) o i = 0).
Proof. exact (fun gl ill a npts check a' o G => no_forces gl G ill a npts check a' o). Qed.
Print Assumptions C52_no_forces_partial.

(** ...and the tables show no shear and no bending moment anywhere. *)
Theorem C52_no_diagrams_partial : forall gl ill a sps npts check a' br i r, gauss_rule gl ->
  determinate (an_beam a) (an_n a) -> only_imposed (an_beam a) (an_n a) ->
  members (an_beam a) (an_n a) (fun mb => sound_member mb /\ mb_type mb <> 4%nat) -> an_n a = b_nspans (an_beam a) ->
  analyze gl ill a sps npts check = (a', Ok br) -> (0 < an_npts a')%nat -> nth_error (br_mem br) i = Some r ->
  Forall (fun v => v = 0) (r_V r) /\ Forall (fun v => v = 0) (r_M r).
Proof. exact (fun gl ill a sps npts check a' br i r G => no_diagrams gl G ill a sps npts check a' br i r). Qed.
Print Assumptions C52_no_diagrams_partial.

(** Missing: pin-pin members, for which it is false. *)
Theorem C52_pin_pin_refuted : exists c a o, analysis_init c = Ok a /\ members (an_beam a) (an_n a) sound_member /\ determinate (an_beam a) (an_n a) /\
  only_imposed (an_beam a) (an_n a) /\ settles_supports (an_beam a) /\ snd (analyze_core sample_gl (fun _ _ => false) a None true) = Ok o /\ reported (an_beam a) o 0 <> 0.
Proof. exact pinned_forces. Qed.
Print Assumptions C52_pin_pin_refuted.

(** One-span beams on two supports, and cantilevers, are determinate; so is a beam with a hinge. *)
Theorem C52_one_span : forall b mb, member_at b 0 = Ok mb -> 0 < mb_L mb ->
  (~ supported b 1 /\ ~ supported b 3) \/ (~ supported b 2 /\ ~ supported b 3) \/ (~ supported b 0 /\ ~ supported b 1) \/
  (~ supported b 0 /\ ~ supported b 3) \/ (~ supported b 1 /\ ~ supported b 2) ->
  determinate b 1.
Proof. exact one_span. Qed.
Print Assumptions C52_one_span.
Example C52_hinged : determinate hinged_beam 2.
Proof. exact hinged_det. Qed.

(** A simple span with a parabolic curvature and a settlement of one support. *)
Example C52_determinate_nonvacuous : forall ill, exists a' br,
  analysis_init (curved_ctor 2 (Some [None; None; Some (1/10); None]) bent_rows) = Ok (curved 2 (Some (1/10)) bent_rows) /\
  analyze sample_gl ill (curved 2 (Some (1/10)) bent_rows) (fun _ => []) None false = (a', Ok br) /\ an_npts a' = 100%nat /\
  gauss_rule sample_gl /\ determinate (curved_beam 2 (Some (1/10)) bent_rows) 1 /\ only_imposed (curved_beam 2 (Some (1/10)) bent_rows) 1 /\
  members (curved_beam 2 (Some (1/10)) bent_rows) 1 (fun mb => sound_member mb /\ mb_type mb <> 4%nat) /\ settles_supports (curved_beam 2 (Some (1/10)) bent_rows).
Proof.
  intros ill. destruct (bent_refs sample_gl 2) as ((r & Er) & cs & Ec).
  destruct (curved_results sample_gl ill (fun _ => []) 2 (Some (1/10)) bent_rows [(0%Z, LIC [1; 2; 3] (Some (RConst 2)))] r cs Rlt_0_2 gauss2_rule eq_refl Er Ec) as (a' & br & E & P).
  exists a', br. split; [reflexivity|]. split; [exact E|]. split; [exact P|]. split; [exact gauss2_rule|]. split; [apply curved_det|].
  split; [intros ls m Q Hm; replace m with 0%nat by lia; inversion Q; reflexivity|]. split; [apply curved_members, Rlt_0_2|apply curved_settles].
Qed.

(** C63: on a statically determinate beam end forces and reactions depend on the loads only,
    not on rigidities, support stiffnesses, settlements or imposed curvatures.  Missing: pin-pin
    members (C52_pin_pin_refuted). *)
Theorem C63_determinate_forces_partial : forall gl ill a1 a2 n1 n2 c1 c2 a1' a2' o1 o2, gauss_rule gl ->
  an_n a1 = an_n a2 -> same_statics (an_beam a1) (an_beam a2) (an_n a1) -> determinate (an_beam a1) (an_n a1) ->
  members (an_beam a1) (an_n a1) (fun mb => sound_member mb /\ mb_type mb <> 4%nat) -> members (an_beam a2) (an_n a2) (fun mb => sound_member mb /\ mb_type mb <> 4%nat) ->
  loads_on_members (an_beam a1) (an_n a1) -> loads_on_members (an_beam a2) (an_n a2) ->
  analyze_core gl ill a1 n1 c1 = (a1', Ok o1) -> analyze_core gl ill a2 n2 c2 = (a2', Ok o2) ->
  (forall m e1 e2, (m < an_n a1)%nat -> member_forces gl (an_beam a1) (o_d o1) m = Ok e1 -> member_forces gl (an_beam a2) (o_d o2) m = Ok e2 ->
     forall p, (p < 4)%nat -> e1 p = e2 p) /\
  (settles_supports (an_beam a1) -> settles_supports (an_beam a2) -> forall i, (i < an_ndof a1)%nat -> reported (an_beam a1) o1 i = reported (an_beam a2) o2 i).
Proof. exact (fun gl ill a1 a2 n1 n2 c1 c2 a1' a2' o1 o2 G => two_analyses gl G ill a1 a2 n1 n2 c1 c2 a1' a2' o1 o2). Qed.
Print Assumptions C63_determinate_forces_partial.

Example C63_nonvacuous : forall ill, exists o1 o2, let a1 := curved 2 None plain_rows in let a2 := curved 7 (Some 1) mixed_rows in
  snd (analyze_core sample_gl ill a1 None false) = Ok o1 /\ snd (analyze_core sample_gl ill a2 None false) = Ok o2 /\
  same_statics (an_beam a1) (an_beam a2) 1 /\ determinate (an_beam a1) 1 /\ loads_on_members (an_beam a1) 1 /\ loads_on_members (an_beam a2) 1 /\
  settles_supports (an_beam a1) /\ settles_supports (an_beam a2).
Proof.
  intros ill. assert (H7 : 0 < 7) by lra. destruct (mixed_refs sample_gl 7) as (r & Er).
  destruct (curved_core 2 None Rlt_0_2 sample_gl ill plain_rows [(0%Z, LPL 7 2)] _ gauss2_rule eq_refl eq_refl) as (o1 & E1).
  destruct (curved_core 7 (Some 1) H7 sample_gl ill mixed_rows [(0%Z, LPL 7 2); (0%Z, LIC [1; 2; 3] (Some (RConst 7)))] r gauss2_rule eq_refl Er) as (o2 & E2).
  exists o1, o2. cbv zeta. split; [exact E1|]. split; [exact E2|]. split; [|split; [apply curved_det|split; [|split; [|split; apply curved_settles]]]].
  - constructor.
    + intros m mb1 mb2 _ M1 M2. destruct (curved_member _ _ _ _ _ M1) as [_ ->]. destruct (curved_member _ _ _ _ _ M2) as [_ ->]. split; reflexivity.
    + intros i Hi. cbn [an_beam curved]. rewrite !curved_support by exact Hi. reflexivity.
    + intros ls1 ls2 m P1 P2 Hm. replace m with 0%nat by lia. inversion P1. inversion P2. reflexivity.
  - intros ls m P Hm. replace m with 0%nat by lia. inversion P. constructor; [cbn; lra|constructor].
  - intros ls m P Hm. replace m with 0%nat by lia. inversion P. constructor; [cbn; lra|]. constructor; [exact I|constructor].
Qed.
