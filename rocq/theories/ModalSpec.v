(** Independent specification of free vibration. *)
From Coquelicot Require Import Coquelicot.
From Verif Require Import Base SectionModel BeamModel ElementSpec AnalysisSpec FoundSpec ModalModel.
Open Scope R_scope.

(** What scipy documents of [eigh(A, M)]: all eigenvalues in ascending order, with
    eigenvectors orthonormal with respect to [M]. *)
Definition dot (n : nat) (A : mat) (u v : vec) : R := rsum n (fun i => rsum n (fun j => A i j * u j) * v i).
Definition symmetric (n : nat) (A : mat) : Prop := forall i j, (i < n)%nat -> (j < n)%nat -> A i j = A j i.
Definition nonzero (n : nat) (u : vec) : Prop := exists i, (i < n)%nat /\ u i <> 0.
Definition positive_definite (n : nat) (A : mat) : Prop := forall u, nonzero n u -> 0 < dot n A u u.
Definition column (vs : list vec) (k : nat) : vec := nth k vs (fun _ => 0).
Record eigensystem (n : nat) (A M : mat) (w : list R) (vs : list vec) : Prop := {
  es_values : length w = n;
  es_vectors : length vs = n;
  es_ascending : forall k l, (k <= l < n)%nat -> nth k w 0 <= nth l w 0;
  es_equation : forall k i, (k < n)%nat -> (i < n)%nat ->
    rsum n (fun j => A i j * column vs k j) = nth k w 0 * rsum n (fun j => M i j * column vs k j);
  es_normal : forall k l, (k < n)%nat -> (l < n)%nat -> dot n M (column vs k) (column vs l) = if Nat.eqb k l then 1 else 0 }.
Definition eigh_sound (eigh : nat -> mat -> mat -> result (list R * list vec)) : Prop :=
  forall n A M w vs, eigh n A M = Ok (w, vs) -> symmetric n A -> symmetric n M -> positive_definite n M -> eigensystem n A M w vs.

(** A beam that can vibrate: prismatic fixed-fixed spans with positive rigidity, length and
    mass, a restraint code per span-end DOF, and at least one sub-element per span. *)
Record vibrating (b : beam) (mass : massarg) (nseg : nat) (EIs Ls ms : list R) : Prop := {
  vb_spans : (1 <= b_nspans b)%nat;
  vb_seg : (1 <= nseg)%nat;
  vb_lists : length EIs = b_nspans b /\ length Ls = b_nspans b /\ length ms = b_nspans b;
  vb_span : forall i, (i < b_nspans b)%nat ->
    nth_error (b_EIs b) i = Some (RConst (nth i EIs 0)) /\ nth_error (b_GAv b) i = Some None /\ nth_error (b_types b) i = Some 1%nat /\
    nth_error (b_lengths b) i = Some (nth i Ls 0) /\ 0 < nth i EIs 0 /\ 0 < nth i Ls 0 /\ 0 < nth i ms 0;
  vb_mass : match mass with MScalar m => forall i, (i < b_nspans b)%nat -> nth i ms 0 = m | MList l => ms = l end;
  vb_supports : (2 * (b_nspans b + 1) <= length (b_R b))%nat }.

(** The mesh: [nseg] equal sub-elements in each span. *)
Definition elements (b : beam) (nseg : nat) : nat := (b_nspans b * nseg)%nat.
Definition dofs (b : beam) (nseg : nat) : nat := (2 * (elements b nseg + 1))%nat.
Definition element_length (Ls : list R) (nseg e : nat) : R := nth (e / nseg) Ls 0 / INR nseg.
Definition of_span (l : list R) (nseg e : nat) : R := nth (e / nseg) l 0.
(** The mesh DOF of the span-end DOF [q] (deflection and rotation of span ends in order). *)
Definition support_dof (nseg q : nat) : nat := (2 * ((q / 2) * nseg) + q mod 2)%nat.
Definition restraint (b : beam) (q : nat) : R := nth q (b_R b) 0.
Definition spring (r : R) : R := if Rlt_dec 0 r then r else 0.

(** Motions that respect the rigid supports. *)
Definition admissible (b : beam) (nseg : nat) (u : vec) : Prop :=
  forall q, (q < 2 * (b_nspans b + 1))%nat -> restraint b q = -1 -> u (support_dof nseg q) = 0.

(** Virtual work of the elastic forces (bending and springs) and of the inertia forces, of
    motions that are cubic in each sub-element. *)
Definition elastic_work (b : beam) (nseg : nat) (EIs Ls : list R) (u w : vec) (W : R) : Prop :=
  exists us ws Is,
    (forall e, (e < elements b nseg)%nat ->
       cubic_between (element_length Ls nseg e) (ends u e) (us e) /\ cubic_between (element_length Ls nseg e) (ends w e) (ws e) /\
       is_RInt (fun x => of_span EIs nseg e * Derive_n (us e) 2 x * Derive_n (ws e) 2 x) 0 (element_length Ls nseg e) (Is e)) /\
    W = rsum (elements b nseg) Is
        + rsum (2 * (b_nspans b + 1)) (fun q => spring (restraint b q) * u (support_dof nseg q) * w (support_dof nseg q)).
Definition inertia_work (b : beam) (nseg : nat) (ms Ls : list R) (u w : vec) (W : R) : Prop :=
  exists us ws Is,
    (forall e, (e < elements b nseg)%nat ->
       cubic_between (element_length Ls nseg e) (ends u e) (us e) /\ cubic_between (element_length Ls nseg e) (ends w e) (ws e) /\
       is_RInt (fun x => of_span ms nseg e * us e x * ws e x) 0 (element_length Ls nseg e) (Is e)) /\
    W = rsum (elements b nseg) Is.

(** [u] vibrates freely with squared circular frequency [w2]: on every admissible virtual
    motion the elastic forces do [w2] times the work of the inertia forces. *)
Definition vibrates (b : beam) (nseg : nat) (EIs Ls ms : list R) (u : vec) (w2 : R) : Prop :=
  admissible b nseg u /\
  forall w E I, admissible b nseg w -> elastic_work b nseg EIs Ls u w E -> inertia_work b nseg ms Ls u w I -> E = w2 * I.

(** A mechanism: the beam moves rigidly in every sub-element and stretches no spring. *)
Definition mechanism (b : beam) (nseg : nat) (Ls : list R) (u : vec) : Prop :=
  (forall e, (e < elements b nseg)%nat -> rigid_motion (element_length Ls nseg e) (ends u e)) /\
  (forall q, (q < 2 * (b_nspans b + 1))%nat -> 0 < restraint b q -> u (support_dof nseg q) = 0).

(** Degrees of freedom left by the rigid supports. *)
Definition rigid_supports (b : beam) : nat := length (filter (fun q => if Req_EM_T (restraint b q) (-1) then true else false) (seq 0 (2 * (b_nspans b + 1)))).
Definition motions (b : beam) (nseg : nat) : nat := (dofs b nseg - rigid_supports b)%nat.

(** A mode shape as drawn: the deflections at the [m] nodes up to a common factor; unless they
    are all zero, none exceeds 1 in size and the first of size 1 is +1. *)
Record drawn (phi : vec) (m : nat) (v : list R) : Prop := {
  dr_length : length v = m;
  dr_shape : exists c, c <> 0 /\ forall j, (j < m)%nat -> nth j v 0 = c * phi (2 * j)%nat;
  dr_scale : (exists j, (j < m)%nat /\ phi (2 * j)%nat <> 0) ->
    (forall j, (j < m)%nat -> Rabs (nth j v 0) <= 1) /\
    exists p, (p < m)%nat /\ nth p v 0 = 1 /\ forall j, (j < p)%nat -> Rabs (nth j v 0) < 1 }.

(** Beams that differ at most in foundation, prescribed displacements and loads. *)
Definition same_structure (b b' : beam) : Prop :=
  b_lengths b' = b_lengths b /\ b_EIs b' = b_EIs b /\ b_GAv b' = b_GAv b /\ b_types b' = b_types b /\ b_nspans b' = b_nspans b /\ b_R b' = b_R b.
