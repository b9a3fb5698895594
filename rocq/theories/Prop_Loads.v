(** Property theorems about load classes and load matrices
    (C01, C02, C03, C04, C17, C52, C53).  Proofs are in the *Facts files. *)
From Coquelicot Require Import Coquelicot.
From Verif Require Import Base BaseFacts SectionModel FlexModel LoadModel LoadSpec LoadFacts
  DiagFacts ClampFacts LMFacts ReleaseFacts.
Open Scope R_scope.

(** C01.  Any load on the member: the reported fixed-end forces balance total load and
    first moment of the load (integrals of the intensity over the member, so an
    overhanging part does not count). *)
Theorem C01_fixed_end_forces_balance : forall gl ld L e,
  0 < L -> on_member L ld -> get_cnl gl ld L = Ok e -> balances L (action_of L ld) e.
Proof. exact get_cnl_balances. Qed.
Print Assumptions C01_fixed_end_forces_balance.

(** C01, existence: no closed-form load placed on the member is rejected. *)
Theorem C01_fixed_end_forces_defined : forall gl ld L,
  on_member L ld -> match ld with LIC _ _ => False | _ => True end ->
  exists e, get_cnl gl ld L = Ok e.
Proof. exact get_cnl_ok. Qed.
Print Assumptions C01_fixed_end_forces_defined.

Example C01_nonvacuous :
  on_member 10 (LTrap 3 (-1) 4 (Some 20)) /\ on_member 10 (LPUDL 2 7 9) /\ on_member 10 (LPL 5 10).
Proof. cbn. lra. Qed.

(** C02, as virtual work: every fixed-end force is the work of the load on the Hermite
    shape of a unit end displacement of the clamped member. *)
Theorem C02_fixed_end_forces_virtual_work : forall gl ld L e,
  0 < L -> on_member L ld ->
  match ld with LMaMb _ _ | LIC _ _ => False | _ => True end ->
  get_cnl gl ld L = Ok e -> fixed_end_forces L (action_of L ld) e.
Proof. exact get_cnl_fef. Qed.
Print Assumptions C02_fixed_end_forces_virtual_work.

(** C02: the load diagram plus the diagram of the reported end moments is the solution
    of the clamped-clamped member. *)
Theorem C02_fixed_end_moments_clamp : forall gl ld L e d,
  0 < L -> within_member L ld ->
  match ld with LMaMb _ _ | LIC _ _ => False | _ => True end ->
  get_cnl gl ld L = Ok e -> diag_of ld L = Some d ->
  clamped L (action_of L ld) e (diag_add (mamb_diag (c_Ma e) (c_Mb e) L) d).
Proof. exact get_cnl_clamped. Qed.
Print Assumptions C02_fixed_end_moments_clamp.

Example C02_nonvacuous : exists e d,
  within_member 10 (LTrap 3 (-1) 4 (Some 20)) /\
  get_cnl (fun _ => []) (LTrap 3 (-1) 4 (Some 20)) 10 = Ok e /\
  diag_of (LTrap 3 (-1) 4 (Some 20)) 10 = Some d.
Proof. do 2 eexists. cbn. repeat split; lra. Qed.

(** C03: the tabulated diagrams of a load sample functions solving the simply supported
    member (each cut in equilibrium, slope and deflection by integration, no support
    deflection)... *)
Theorem C03_diagrams_solve_simple_span : forall ld L d,
  0 < L -> within_member L ld -> diag_of ld L = Some d ->
  simple_span L (action_of L ld) (fst (end_moments ld)) (snd (end_moments ld)) d.
Proof. exact diag_span. Qed.
Print Assumptions C03_diagrams_solve_simple_span.

(** ...V falls at the rate of the load and M has slope V away from the load's edges... *)
Theorem C03_diagram_rates : forall ld L d x,
  0 < L -> within_member L ld -> diag_of ld L = Some d ->
  0 < x < L -> ~ In x (load_edges L ld) ->
  is_derive (f_V d) x (- intensity (action_of L ld) x) /\ is_derive (f_M d) x (f_V d x).
Proof. exact diag_rates. Qed.
Print Assumptions C03_diagram_rates.

(** ...and what the load returns for any station list is that table. *)
Theorem C03_results_tabulate : forall ld L d xs,
  diag_of ld L = Some d -> tabulates d xs (get_mbr_results ld xs L).
Proof. exact mbr_results_tabulates. Qed.
Print Assumptions C03_results_tabulate.

Example C03_nonvacuous : exists d, within_member 10 (LPUDL 2 3 7) /\
  diag_of (LPUDL 2 3 7) 10 = Some d /\ ~ In 5 (load_edges 10 (LPUDL 2 3 7)).
Proof. eexists. cbn. repeat split; try lra; intros [E|[E|[]]]; lra. Qed.

(** C04 (full claim: all four member types).  Proved here for FF, FP, PF: the released
    forces balance the same load; and for all types the released ends carry no moment.
    Missing: the balance of the PP type, which is false — see [C04_pin_pin_refuted]. *)
Theorem C04_releases_balance_partial : forall L A e et,
  0 < L -> (et = 1 \/ et = 2 \/ et = 3)%nat ->
  balances L A e -> balances L A (release e L et).
Proof. exact release_balances. Qed.
Print Assumptions C04_releases_balance_partial.

Theorem C04_released_ends_carry_no_moment : forall L e,
  c_Mb (release e L 2) = 0 /\ c_Ma (release e L 3) = 0 /\
  c_Ma (release e L 4) = 0 /\ c_Mb (release e L 4) = 0.
Proof. exact release_moments. Qed.
Print Assumptions C04_released_ends_carry_no_moment.

(** The PP release balances the load exactly when the fixed-end moments cancel
    (symmetric loading). *)
Theorem C04_pin_pin_balances_iff : forall L A e,
  0 < L -> balances L A e ->
  (balances L A (release e L 4) <-> c_Ma e + c_Mb e = 0).
Proof. exact release_PP_balances_iff. Qed.
Print Assumptions C04_pin_pin_balances_iff.

(** Finding: a point load at the third of a pin-pin member is not balanced. *)
Theorem C04_pin_pin_refuted : exists ld L gl r,
  on_member L ld /\ load_get_ref gl ld L 4 = Ok r /\ ~ balances L (action_of L ld) r.
Proof.
  exists (LPL 27 1), 3, (fun _ => []). eexists. split; [cbn; lra|]. split; [reflexivity|].
  rewrite release_PP_balances_iff; [|lra|].
  - cbn. rewrite Rmax_left by lra. lra.
  - apply (get_cnl_balances (fun _ => [])); cbn; lra || reflexivity.
Qed.
Print Assumptions C04_pin_pin_refuted.

Example C04_nonvacuous : balances 3 (action_of 3 (LPL 27 1)) (pl_cnl 27 1 3).
Proof. apply (get_cnl_balances (fun _ => [])); cbn; lra || reflexivity. Qed.

(** C17: factoring a documented load matrix succeeds, keeps it documented, and parses to
    the same loads, in order, with scaled magnitudes. *)
Theorem C17_factor_then_parse : forall LM g, Forall wf_row LM ->
  exists ps LM', parse_LM LM = Ok ps /\ factor_LM LM g = Ok LM' /\ Forall wf_row LM' /\
    parse_LM LM' = Ok (map (fun p => (fst p, scale_load g (snd p))) ps) /\
    length ps = length LM.
Proof. exact factor_parse. Qed.
Print Assumptions C17_factor_then_parse.

Theorem C17_scale_one : forall ld, scale_load 1 ld = ld.
Proof. exact scale_load_1. Qed.
Print Assumptions C17_scale_one.

Theorem C17_factor_twice : forall LM g h LM1 LM2, Forall wf_row LM ->
  factor_LM LM g = Ok LM1 -> factor_LM LM1 h = Ok LM2 -> factor_LM LM (h * g) = Ok LM2.
Proof. exact factor_LM_twice. Qed.
Print Assumptions C17_factor_twice.

Theorem C17_factor_concat : forall LM1 LM2 g L1 L2,
  factor_LM LM1 g = Ok L1 -> factor_LM LM2 g = Ok L2 ->
  factor_LM (add_LM LM1 LM2) g = Ok (add_LM L1 L2).
Proof. exact factor_LM_app. Qed.
Print Assumptions C17_factor_concat.

Theorem C17_parse_concat : forall LM1 LM2 p1 p2,
  parse_LM LM1 = Ok p1 -> parse_LM LM2 = Ok p2 -> parse_LM (add_LM LM1 LM2) = Ok (p1 ++ p2).
Proof. exact parse_LM_app. Qed.
Print Assumptions C17_parse_concat.

(** Scaling a load scales its (released) fixed-end forces. *)
Theorem C17_scaled_load_scales_forces : forall gl g ld L et,
  load_get_ref gl (scale_load g ld) L et = (do c <- load_get_ref gl ld L et; Ok (cnl_scale g c)).
Proof. exact load_get_ref_scale. Qed.
Print Assumptions C17_scaled_load_scales_forces.

Example C17_nonvacuous : Forall wf_row
  [Row 1 1 [5]; Row 2 2 [3; 1]; Row 1 3 [4; 1; 2]; Row 1 4 [7; 2]; Row 2 5 [1; 2; 0; 4]; Row 1 6 [1; 2; 3]].
Proof. repeat constructor; cbn; lia. Qed.

(** C52: end moments reported for an imposed curvature up to quadratic restrain both end
    rotations (and the relative end deflection) of a prismatic member. *)
Theorem C52_imposed_curvature_restrained : forall gl k0 k1 k2 EI L e, 0 < L -> 0 < EI ->
  get_cnl gl (LIC [k0; k1; k2] (Some (RConst EI))) L = Ok e ->
  let M := f_M (mamb_diag (c_Ma e) (c_Mb e) L) in
  is_RInt (fun x => M x / EI + (k0 + k1 * x + k2 * x^2)) 0 L 0 /\
  is_RInt (fun x => (L - x) * (M x / EI + (k0 + k1 * x + k2 * x^2))) 0 L 0.
Proof. exact ic_restrains. Qed.
Print Assumptions C52_imposed_curvature_restrained.

Example C52_nonvacuous : exists e, get_cnl (fun _ => []) (LIC [1; 2; 3] (Some (RConst 5))) 4 = Ok e.
Proof. eexists. reflexivity. Qed.

(** C53 (full claim: overhang of partial and trapezoidal loads has no effect on forces or
    diagrams).  Proved: trapezoids (forces and diagrams), partial UDL forces.
    Missing: partial UDL diagrams and partial UDL starting beyond the span (refuted below). *)
Theorem C53_trapezoid_overhang_partial : forall gl w1 w2 a c L xs, 0 < L -> 0 <= a < L -> L < a + c ->
  let clipped := LTrap w1 (w1 + (w2 - w1) * ((L - a) / c)) a (Some (L - a)) in
  get_cnl gl (LTrap w1 w2 a (Some c)) L = get_cnl gl clipped L /\
  get_mbr_results (LTrap w1 w2 a (Some c)) xs L = get_mbr_results clipped xs L.
Proof.
  intros gl w1 w2 a c L xs HL Ha Hc. cbn. unfold trap_cnl, trap_diag.
  rewrite (trap_overhang w1 w2 a c L HL Ha Hc). split; reflexivity.
Qed.
Print Assumptions C53_trapezoid_overhang_partial.

Theorem C53_trapezoid_off_span : forall gl w1 w2 a c L xs, L <= a ->
  get_cnl gl (LTrap w1 w2 a c) L = Ok cnl_zero /\
  r_D (get_mbr_results (LTrap w1 w2 a c) xs L) = map (fun _ => 0) xs.
Proof.
  intros. cbn. unfold trap_cnl, trap_diag. rewrite trap_off by assumption.
  rewrite (proj2 (Rleb_true 0 0)) by lra. split; reflexivity.
Qed.
Print Assumptions C53_trapezoid_off_span.

Theorem C53_partial_udl_forces_partial : forall w a c L, 0 < L -> 0 <= a <= L -> L < a + c ->
  pudl_cnl w a c L = pudl_cnl w a (L - a) L.
Proof. exact pudl_overhang. Qed.
Print Assumptions C53_partial_udl_forces_partial.

(** Finding: a partial UDL starting beyond the span is not ignored, it raises. *)
Theorem C53_partial_udl_off_span_refuted : exists w a c L,
  0 < L /\ L < a /\ 0 < c /\ pudl_cnl w a c L = Err AttributeError.
Proof. exists 1, 2, 1, 1. repeat split; try lra. apply pudl_off. lra. Qed.
Print Assumptions C53_partial_udl_off_span_refuted.

(** Finding: the diagrams of an overhanging partial UDL are those of the unclipped load. *)
Theorem C53_partial_udl_diagram_refuted : exists w a c L x,
  0 < L /\ 0 <= a <= L /\ L < a + c /\ 0 < x < L /\
  f_M (pudl_diag w a c L) x <> f_M (pudl_diag w a (L - a) L) x.
Proof.
  exists 1, 0, 4, 2, 1. repeat split; try lra. cbn.
  rewrite !MB_min. rewrite (Rmin_left 0), (Rmin_right (4+0)), (Rmin_right (2 - 0 + 0)) by lra. lra.
Qed.
Print Assumptions C53_partial_udl_diagram_refuted.
