(** C41, C42: members on an elastic foundation, and the element matrices. *)
From Coquelicot Require Import Coquelicot.
From Verif Require Import Base SectionModel LoadModel FoundationModel ElementModel ElementSpec AnalysisSpec FoundSpec ModalModel FoundFacts FoundFacts2 FoundFacts3 FoundFacts4.
Open Scope R_scope.

(** C41: whatever the end displacements and loads, the condensed stiffness and load vector
    give the end forces of the full mesh with its interior nodes in equilibrium... *)
Theorem C41_condensed : forall gl m EI kf, winkler m EI kf ->
  forall lds k r rs, span_k gl m = Ok k -> span_ref gl m lds = Ok r -> mesh_loads gl m EI kf lds rs ->
  forall dr d, on_mesh m EI kf rs dr d ->
  forall i, (i < 4)%nat -> mesh_end_forces m EI kf rs d i = end_forces k dr i + r i.
Proof. exact condensed. Qed.
Print Assumptions C41_condensed.

(** ...such a state of the mesh exists and is the only one... *)
Theorem C41_mesh_state : forall m EI kf, winkler m EI kf -> forall rs dr,
  exists d, on_mesh m EI kf rs dr d /\
    forall d', on_mesh m EI kf rs dr d' -> forall i, (i < 2 * (mesh_size m EI kf + 1))%nat -> d' i = d i.
Proof. exact mesh_exists. Qed.
Print Assumptions C41_mesh_state.

(** ...and is what the results are recovered from. *)
Theorem C41_recovered : forall gl m EI kf lds dr d rs,
  fe_dmesh gl (the_mesh m EI kf) dr lds = Ok d -> mesh_loads gl m EI kf lds rs -> on_mesh m EI kf rs dr d.
Proof. exact dmesh_state. Qed.
Print Assumptions C41_recovered.

(** The condensation never fails, whatever the positive properties and the accepted loads. *)
Theorem C41_total : forall gl m EI kf, winkler m EI kf ->
  (exists k, span_k gl m = Ok k) /\
  forall lds, Forall (bed_load (mb_L m)) lds ->
    (exists rs, mesh_loads gl m EI kf lds rs) /\ (exists r, span_ref gl m lds = Ok r) /\
    forall dr, exists d, fe_dmesh gl (the_mesh m EI kf) dr lds = Ok d.
Proof. exact bed_total. Qed.
Print Assumptions C41_total.

Theorem C41_symmetric : forall gl m EI kf, winkler m EI kf -> forall k, span_k gl m = Ok k -> symmetric4 k.
Proof. exact k_sym. Qed.
Print Assumptions C41_symmetric.

(** Its energy is that of the unloaded mesh in equilibrium, the least of all mesh
    displacements with the same ends, and positive. *)
Theorem C41_energy : forall gl m EI kf, winkler m EI kf -> forall k, span_k gl m = Ok k ->
  forall dr d, on_mesh m EI kf (repeat cnl_zero (mesh_size m EI kf)) dr d -> energy k dr = mesh_energy m EI kf d.
Proof. exact k_energy. Qed.
Print Assumptions C41_energy.
Theorem C41_least_energy : forall gl m EI kf, winkler m EI kf -> forall k, span_k gl m = Ok k ->
  forall dr d, follows (mesh_size m EI kf) dr d -> energy k dr <= mesh_energy m EI kf d.
Proof. exact k_least. Qed.
Print Assumptions C41_least_energy.
Theorem C41_positive : forall gl m EI kf, winkler m EI kf -> forall k, span_k gl m = Ok k ->
  forall dr, nonzero4 dr -> 0 < energy k dr.
Proof. exact k_pos. Qed.
Print Assumptions C41_positive.

Theorem C41_mesh_size : forall m EI kf, (8 <= mesh_size m EI kf <= 400)%nat.
Proof. exact size_range. Qed.
Print Assumptions C41_mesh_size.

Definition bed_member : member := {| mb_L := 10; mb_EI := RConst 5000; mb_GAv := None; mb_kf := Some 300; mb_type := 1 |}.
Example C41_nonvacuous : winkler bed_member 5000 300 /\ Forall (bed_load (mb_L bed_member)) [LUDL 3; LPL 7 10; LPUDL 2 1 4] /\ nonzero4 (vec4 0 0 1 0).
Proof.
  split; [|split].
  - unfold winkler. cbn. repeat apply conj; try reflexivity; lra.
  - repeat constructor; cbn; lra.
  - exists 2%nat. split; [lia|]. cbn. lra.
Qed.

(** C42: the cubic with given end deflections and slopes is unique... *)
Theorem C42_shape : forall L d, 0 < L -> exists u, cubic_between L d u /\ forall w, cubic_between L d w -> forall x, w x = u x.
Proof. exact shape_exists. Qed.
Print Assumptions C42_shape.

(** ...and the matrices are the integrals of products of such cubics or their curvatures. *)
Theorem C42_stiffness : forall EI L d e u w, 0 < L -> cubic_between L d u -> cubic_between L e w ->
  is_RInt (fun x => EI * Derive_n u 2 x * Derive_n w 2 x) 0 L (form (k_ebeam EI L) d e) /\
  is_RInt (fun x => EI * Derive_n u 2 x * Derive_n w 2 x) 0 L (form (k_modal EI L) d e).
Proof. exact (fun EI L d e u w HL Hu Hw => conj (bending_integral EI L d e u w HL Hu Hw) (bending_integral EI L d e u w HL Hu Hw)). Qed.
Print Assumptions C42_stiffness.
Theorem C42_foundation : forall kf L d e u w, 0 < L -> cubic_between L d u -> cubic_between L e w ->
  is_RInt (fun x => kf * u x * w x) 0 L (form (k_found kf L) d e).
Proof. exact found_integral. Qed.
Print Assumptions C42_foundation.
Theorem C42_mass : forall mb L d e u w, 0 < L -> cubic_between L d u -> cubic_between L e w ->
  is_RInt (fun x => mb * u x * w x) 0 L (form (m_consistent mb L) d e).
Proof. exact found_integral. Qed.
Print Assumptions C42_mass.

Theorem C42_symmetric : forall c L, symmetric4 (k_ebeam c L) /\ symmetric4 (k_modal c L) /\ symmetric4 (k_found c L) /\ symmetric4 (m_consistent c L).
Proof. exact (fun c L => conj (bend_sym c L) (conj (bend_sym c L) (conj (found_sym c L) (found_sym c L)))). Qed.
Print Assumptions C42_symmetric.

(** Kinetic and subgrade energy are positive for every motion; bending energy is never
    negative, and zero exactly for rigid motions. *)
Theorem C42_positive : forall c L d, 0 < c -> 0 < L -> nonzero4 d -> 0 < energy (k_found c L) d /\ 0 < energy (m_consistent c L) d.
Proof. exact (fun c L d Hc HL Hd => conj (found_pos c L d Hc HL Hd) (found_pos c L d Hc HL Hd)). Qed.
Print Assumptions C42_positive.
Theorem C42_bending : forall EI L d, 0 < EI -> 0 < L ->
  0 <= energy (k_ebeam EI L) d /\ (energy (k_ebeam EI L) d = 0 <-> rigid_motion L d) /\
  0 <= energy (k_modal EI L) d /\ (energy (k_modal EI L) d = 0 <-> rigid_motion L d).
Proof. exact (fun EI L d HE HL => conj (bend_nonneg EI L d HE HL) (conj (bend_zero EI L d HE HL) (conj (bend_nonneg EI L d HE HL) (bend_zero EI L d HE HL)))). Qed.
Print Assumptions C42_bending.

Example C42_nonvacuous : cubic_between 2 (vec4 0 0 8 12) (fun x => x ^ 3) /\ nonzero4 (vec4 0 0 8 12).
Proof.
  split; [|exists 2%nat; cbn; split; [lia|lra]]. assert (D : forall x, Derive (fun x => x ^ 3) x = 3 * x ^ 2) by (intros x; apply is_derive_unique; auto_derive; [exact I|ring]).
  split; [exists 0, 0, 0, 1; intros x; ring|]. rewrite !D. cbn. repeat apply conj; ring.
Qed.
