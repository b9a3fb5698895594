(** Property theorems about member stiffness (C05, C06, C07, C08). *)
From Coquelicot Require Import Coquelicot.
From Coq Require Import String.
From Verif Require Import Base BaseFacts SectionModel FlexModel LoadModel LoadSpec ReleaseFacts
  FoundationModel ElementModel ElementSpec ElementFacts ElementFacts2 TimoFacts ConstSectFacts ElementFacts3.
Open Scope R_scope.

(** C05 (full claim: FP, PF and PP, stiffness and loads).  A member with one moment release,
    in any formulation and under any list of loads, is the fixed member with that rotation
    let go.  Missing: the load vector of PP members, which is wrong (see C04_pin_pin_refuted). *)
Theorem C05_release_is_condensation_partial : forall gl m t lds k kr e v,
  gauss_rule gl -> sound_member m -> (t = 2 \/ t = 3)%nat ->
  span_k gl (set_type m 1) = Ok k -> span_k gl (set_type m t) = Ok kr ->
  span_ref gl (set_type m 1) lds = Ok e -> span_ref gl (set_type m t) lds = Ok v ->
  let_go t k e kr v.
Proof. exact span_let_go. Qed.
Print Assumptions C05_release_is_condensation_partial.

(** The stiffness part holds for all four types... *)
Theorem C05_stiffness_is_condensation : forall gl m t k kr,
  gauss_rule gl -> sound_member m -> (1 <= t <= 4)%nat ->
  span_k gl (set_type m 1) = Ok k -> span_k gl (set_type m t) = Ok kr ->
  let_go t k (fun _ => 0) kr (fun _ => 0).
Proof. exact span_k_let_go. Qed.
Print Assumptions C05_stiffness_is_condensation.

(** ...and a pin-pin member has no stiffness at all. *)
Theorem C05_pin_pin_no_stiffness : forall gl m k,
  gauss_rule gl -> sound_member m -> mb_type m = 4%nat ->
  span_k gl m = Ok k -> forall i j, (i < 4)%nat -> (j < 4)%nat -> k i j = 0.
Proof. exact span_k_PP. Qed.
Print Assumptions C05_pin_pin_no_stiffness.

Example C05_nonvacuous : sound_member two_piece /\
  (exists k, span_k (fun _ => gauss2) (set_type two_piece 1) = Ok k) /\
  (exists e, span_ref (fun _ => gauss2) (set_type two_piece 1) [LPL 2 1; LUDL 3] = Ok e).
Proof. split; [exact two_piece_sound|]. split; eexists; reflexivity. Qed.

(** C06: every member formulation without elastic foundation. *)
Theorem C06_member_mechanics : forall gl m k,
  gauss_rule gl -> sound_member m -> span_k gl m = Ok k ->
  symmetric4 k /\
  (forall d, self_balanced (mb_L m) (end_forces k d)) /\
  (forall d, rigid_motion (mb_L m) d -> eq4 (end_forces k d) (fun _ => 0)) /\
  (forall d, 0 <= energy k d) /\
  (mb_type m = 1%nat -> forall d, energy k d = 0 <-> rigid_motion (mb_L m) d).
Proof. exact span_k_mechanics. Qed.
Print Assumptions C06_member_mechanics.

(** Hypotheses met by a two-piece section member with a release. *)
Example C06_nonvacuous : gauss_rule (fun _ => gauss2) /\ exists s k,
  build_const (fun _ _ _ => []) 7 [0; 2; 5] = Ok s /\
  sound_member {| mb_L := 5; mb_EI := RSect s; mb_GAv := None; mb_kf := None; mb_type := 2 |} /\
  span_k (fun _ => gauss2) {| mb_L := 5; mb_EI := RSect s; mb_GAv := None; mb_kf := None; mb_type := 2 |} = Ok k.
Proof. exact (conj gauss2_rule section_example). Qed.

(** C07: closed-form stiffness = inverse of the shear-augmented flexibility, condensed. *)
Theorem C07_stiffness_inverts_flexibility : forall gl e g L t k, 0 < L -> 0 < e -> 0 < g ->
  span_k gl {| mb_L := L; mb_EI := RConst e; mb_GAv := Some (RConst g); mb_kf := None; mb_type := t |} = Ok k ->
  exists k', k_timoshenko gl (RConst e) (RConst g) L t = Ok k' /\
    forall i j, (i < 4)%nat -> (j < 4)%nat -> k i j = k' i j.
Proof. exact timo_stiffness_flexibility. Qed.
Print Assumptions C07_stiffness_inverts_flexibility.

(** The flexibility is the end rotations (from the chord) of the simply supported member
    under end moments, with bending and shear deformation. *)
Theorem C07_flexibility_is_end_rotations : forall gl e g L F Ma Mb, 0 < L -> 0 < e -> 0 < g ->
  timo_flexibility gl (RConst e) (RConst g) L = Ok F ->
  chord_rotation L e g (f_V (mamb_diag Ma Mb L)) (f_M (mamb_diag Ma Mb L))
    (m00 F * Ma + m01 F * Mb) (m10 F * Ma + m11 F * Mb).
Proof. exact timo_flex_rotations. Qed.
Print Assumptions C07_flexibility_is_end_rotations.

(** Fixed-end forces (full claim: all loads).  Proved for UDL, point, partial and
    trapezoidal loads: they clamp the shear-flexible member.  Missing: concentrated
    moments, refuted below. *)
Theorem C07_fixed_end_forces_partial : forall gl ld EI GAv L v d,
  0 < L -> 0 < EI -> 0 < GAv -> transverse ld -> within_member L ld ->
  diag_of ld L = Some d -> ref_timoshenko gl ld (RConst EI) (RConst GAv) L 1 = Ok v ->
  let D := diag_add (mamb_diag (v 1%nat) (v 3%nat) L) d in
  shear_clamped L EI GAv (action_of L ld) (v 0%nat) (v 1%nat) (v 2%nat) (v 3%nat) (f_V D) (f_M D).
Proof. exact timo_clamped. Qed.
Print Assumptions C07_fixed_end_forces_partial.

Example C07_nonvacuous : exists v d, within_member 4 (LTrap 1 3 1 (Some 2)) /\
  diag_of (LTrap 1 3 1 (Some 2)) 4 = Some d /\
  ref_timoshenko (fun _ => gauss2) (LTrap 1 3 1 (Some 2)) (RConst 5) (RConst 6) 4 1 = Ok v.
Proof. do 2 eexists. split; [cbn; repeat split; try lra|]. split; reflexivity. Qed.

(** Finding: for a concentrated moment the reported forces do not clamp the member. *)
Theorem C07_moment_load_refuted : forall gl, exists v,
  ref_timoshenko gl (LML 8 1) (RConst 1) (RConst 3) 2 1 = Ok v /\
  forall V M, ~ shear_clamped 2 1 3 (action_of 2 (LML 8 1)) (v 0%nat) (v 1%nat) (v 2%nat) (v 3%nat) V M.
Proof. exact timo_moment_wrong. Qed.
Print Assumptions C07_moment_load_refuted.

(** Euler-Bernoulli limits of stiffness and fixed-end forces. *)
Theorem C07_stiffness_limit : forall EI L i j, 0 < L -> (i < 4)%nat -> (j < 4)%nat ->
  is_lim (fun g => k_FF_timo EI g L i j) p_infty (k_FF EI L i j).
Proof. exact k_FF_timo_limit. Qed.
Print Assumptions C07_stiffness_limit.

Theorem C07_fixed_end_limit : forall gl ld EI L c i, 0 < L -> (i < 4)%nat -> get_cnl gl ld L = Ok c ->
  exists f, (forall g, ref_timoshenko gl ld (RConst EI) (RConst g) L 1 = Ok (f g)) /\
    is_lim (fun g => f g i) p_infty (cnl_vec c i).
Proof. exact timo_ref_limit. Qed.
Print Assumptions C07_fixed_end_limit.

(** C08: scalar rigidities, or any subdivision into constant pieces, give one stiffness. *)
Theorem C08_constant_section_is_scalar : forall gl L v e g g' t,
  gauss_rule gl -> exact_degree_2 (gl 2%nat) -> 0 < L -> 0 < v -> (1 <= t <= 4)%nat ->
  describes L v e ->
  match g with None => g' = None | Some g0 => 0 < g0 /\ exists h, g' = Some h /\ describes L g0 h end ->
  exists k k',
    span_k gl {| mb_L := L; mb_EI := RConst v; mb_GAv := option_map RConst g; mb_kf := None; mb_type := t |} = Ok k /\
    span_k gl {| mb_L := L; mb_EI := e; mb_GAv := g'; mb_kf := None; mb_type := t |} = Ok k' /\
    forall i j, (i < 4)%nat -> (j < 4)%nat -> k i j = k' i j.
Proof. exact const_section_stiffness. Qed.
Print Assumptions C08_constant_section_is_scalar.

Theorem C08_every_subdivision_builds : forall pf v L xs, 0 < v -> 0 < L -> stations L xs ->
  exists s, build_const pf v xs = Ok s /\ s_pieces s = map (cpiece v) (pairs xs).
Proof. exact build_const_pieces. Qed.
Print Assumptions C08_every_subdivision_builds.

Example C08_nonvacuous : gauss_rule (fun _ => gauss2) /\ exact_degree_2 gauss2.
Proof. exact (conj gauss2_rule gauss2_exact). Qed.
