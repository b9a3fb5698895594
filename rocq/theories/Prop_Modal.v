(** C43: natural frequencies and modes. *)
From Coquelicot Require Import Coquelicot.
From Verif Require Import Base SectionModel BeamModel ElementSpec AnalysisSpec FoundSpec ModalModel ModalSpec ModalFacts2 ModalFacts3.
Open Scope R_scope.

(** Whatever vibrates freely has a real frequency, zero only for a mechanism. *)
Theorem C43_real : forall b mass nseg EIs Ls ms, vibrating b mass nseg EIs Ls ms ->
  forall u w2, vibrates b nseg EIs Ls ms u w2 -> nonzero (dofs b nseg) u -> 0 <= w2 /\ (w2 = 0 <-> mechanism b nseg Ls u).
Proof. exact vib_nonneg. Qed.
Print Assumptions C43_real.
Theorem C43_distinct : forall b mass nseg EIs Ls ms, vibrating b mass nseg EIs Ls ms ->
  forall u v w1 w2, vibrates b nseg EIs Ls ms u w1 -> vibrates b nseg EIs Ls ms v w2 -> w1 <> w2 ->
  inertia_work b nseg ms Ls u v 0 /\ elastic_work b nseg EIs Ls u v 0.
Proof. exact vib_orthogonal. Qed.
Print Assumptions C43_distinct.

(** What is reported vibrates freely... *)
Theorem C43_modes : forall b mass nseg EIs Ls ms, vibrating b mass nseg EIs Ls ms ->
  forall eigh, eigh_sound eigh -> forall n_modes r, solve_modal eigh b mass n_modes nseg = Ok r ->
  forall k, (k < length (mo_omega r))%nat ->
  0 <= nth k (mo_omega r) 0 /\ nonzero (dofs b nseg) (column (mo_phi r) k) /\ vibrates b nseg EIs Ls ms (column (mo_phi r) k) (nth k (mo_omega r) 0 ^ 2).
Proof. exact modes_vibrate. Qed.
Print Assumptions C43_modes.
(** ...orthonormal in mass and stiffness, also for repeated frequencies... *)
Theorem C43_normal : forall b mass nseg EIs Ls ms, vibrating b mass nseg EIs Ls ms ->
  forall eigh, eigh_sound eigh -> forall n_modes r, solve_modal eigh b mass n_modes nseg = Ok r ->
  forall k l, (k < length (mo_omega r))%nat -> (l < length (mo_omega r))%nat ->
  inertia_work b nseg ms Ls (column (mo_phi r) k) (column (mo_phi r) l) (if Nat.eqb k l then 1 else 0) /\
  elastic_work b nseg EIs Ls (column (mo_phi r) k) (column (mo_phi r) l) (if Nat.eqb k l then nth k (mo_omega r) 0 ^ 2 else 0).
Proof. exact modes_normal. Qed.
Print Assumptions C43_normal.
(** ...in the asked number, or as many as the mesh has motions, ascending... *)
Theorem C43_count : forall b mass nseg EIs Ls ms, vibrating b mass nseg EIs Ls ms ->
  forall eigh, eigh_sound eigh -> forall n_modes r, solve_modal eigh b mass n_modes nseg = Ok r ->
  length (mo_omega r) = Nat.min n_modes (motions b nseg) /\ length (mo_phi r) = Nat.min n_modes (motions b nseg).
Proof. exact modes_count. Qed.
Print Assumptions C43_count.
Theorem C43_ascending : forall b mass nseg EIs Ls ms, vibrating b mass nseg EIs Ls ms ->
  forall eigh, eigh_sound eigh -> forall n_modes r, solve_modal eigh b mass n_modes nseg = Ok r ->
  forall k l, (k <= l < length (mo_omega r))%nat -> nth k (mo_omega r) 0 <= nth l (mo_omega r) 0.
Proof. exact modes_ascend. Qed.
Print Assumptions C43_ascending.
(** ...and none lower is missed. *)
Theorem C43_complete : forall b mass nseg EIs Ls ms, vibrating b mass nseg EIs Ls ms ->
  forall eigh, eigh_sound eigh -> forall n_modes r, solve_modal eigh b mass n_modes nseg = Ok r ->
  forall u w2, vibrates b nseg EIs Ls ms u w2 -> nonzero (dofs b nseg) u ->
  (exists k, (k < length (mo_omega r))%nat /\ w2 = nth k (mo_omega r) 0 ^ 2) \/
  (length (mo_omega r) = n_modes /\ forall k, (k < length (mo_omega r))%nat -> nth k (mo_omega r) 0 ^ 2 <= w2).
Proof. exact modes_complete. Qed.
Print Assumptions C43_complete.
(** Rayleigh: among motions orthogonal to the earlier modes each mode has the least ratio of
    elastic to inertia work. *)
Theorem C43_least : forall b mass nseg EIs Ls ms, vibrating b mass nseg EIs Ls ms ->
  forall eigh, eigh_sound eigh -> forall n_modes r, solve_modal eigh b mass n_modes nseg = Ok r ->
  forall j u E I, (j < length (mo_omega r))%nat -> admissible b nseg u ->
  (forall k, (k < j)%nat -> inertia_work b nseg ms Ls u (column (mo_phi r) k) 0) ->
  elastic_work b nseg EIs Ls u u E -> inertia_work b nseg ms Ls u u I -> nth j (mo_omega r) 0 ^ 2 * I <= E.
Proof. exact modes_lowest. Qed.
Print Assumptions C43_least.

(** The coordinates of the mesh nodes and the shape returned for plotting. *)
Theorem C43_nodes : forall b mass nseg EIs Ls ms, vibrating b mass nseg EIs Ls ms ->
  forall eigh, eigh_sound eigh -> forall n_modes r, solve_modal eigh b mass n_modes nseg = Ok r ->
  length (mo_x r) = (elements b nseg + 1)%nat /\ mo_ndof r = dofs b nseg /\
  forall i s, (i < b_nspans b)%nat -> (s <= nseg)%nat ->
    nth (i * nseg + s) (mo_x r) 0 = rsum i (fun j => nth j Ls 0) + INR s * (nth i Ls 0 / INR nseg).
Proof. exact modes_x. Qed.
Print Assumptions C43_nodes.
Theorem C43_shape : forall r k phi, nth_error (mo_phi r) k = Some phi -> (2 <= mo_ndof r)%nat ->
  exists v, mode_shape r k = Ok (mo_x r, v) /\ drawn phi (mo_ndof r / 2) v.
Proof. exact shape_drawn. Qed.
Print Assumptions C43_shape.

(** Only prismatic, fixed-fixed spans without shear flexibility are accepted, with a mass for
    each span. *)
Theorem C43_accepted : forall eigh b mass n_modes nseg r, solve_modal eigh b mass n_modes nseg = Ok r ->
  (forall i, (i < b_nspans b)%nat -> (exists EI, nth_error (b_EIs b) i = Some (RConst EI)) /\ nth_error (b_GAv b) i = Some None /\ nth_error (b_types b) i = Some 1%nat) /\
  (forall l, mass = MList l -> length l = b_nspans b).
Proof. exact accepted. Qed.
Print Assumptions C43_accepted.

(** The foundation, prescribed displacements and loads play no part... *)
Theorem C43_ignores : forall eigh b b' mass n_modes nseg, same_structure b b' ->
  solve_modal eigh b' mass n_modes nseg = solve_modal eigh b mass n_modes nseg.
Proof. exact modal_same. Qed.
Print Assumptions C43_ignores.
(** ...so on a Winkler foundation (positive moduli [kfs], the work of its pressure computed like that of inertia) no reported mode satisfies the balance of
    elastic, subgrade and inertia work. *)
Theorem C43_foundation_refuted : forall b mass nseg EIs Ls ms kfs eigh n_modes r k E I B,
  vibrating b mass nseg EIs Ls ms -> b_kf b = map Some kfs -> vibrating b (MList kfs) nseg EIs Ls kfs -> eigh_sound eigh ->
  solve_modal eigh b mass n_modes nseg = Ok r -> (k < length (mo_omega r))%nat ->
  elastic_work b nseg EIs Ls (column (mo_phi r) k) (column (mo_phi r) k) E -> inertia_work b nseg ms Ls (column (mo_phi r) k) (column (mo_phi r) k) I ->
  inertia_work b nseg kfs Ls (column (mo_phi r) k) (column (mo_phi r) k) B -> E + B <> nth k (mo_omega r) 0 ^ 2 * I.
Proof. exact (fun b mass nseg EIs Ls ms kfs eigh n_modes r k E I B V _ => bed_unbalanced b mass nseg EIs Ls ms kfs eigh n_modes r k E I B V). Qed.
Print Assumptions C43_foundation_refuted.

Example C43_nonvacuous : vibrating fixed_beam (MScalar 420) 2 [1] [2] [420] /\ eigh_sound diagonal_eigh /\
  motions fixed_beam 2 = 2%nat /\ exists r, solve_modal diagonal_eigh fixed_beam (MScalar 420) 10 2 = Ok r.
Proof. exact (conj fixed_vibrates (conj diagonal_sound fixed_modes)). Qed.
Example C43_foundation_nonvacuous : vibrating bedded_beam (MScalar 420) 2 [1] [2] [420] /\ b_kf bedded_beam = map Some [300] /\
  vibrating bedded_beam (MList [300]) 2 [1] [2] [300] /\ exists r, solve_modal diagonal_eigh bedded_beam (MScalar 420) 10 2 = Ok r.
Proof. exact bedded_case. Qed.
