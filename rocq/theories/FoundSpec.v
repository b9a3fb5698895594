(** Independent specification of the foundation member: cubic shapes, and the subdivided mesh. *)
From Coquelicot Require Import Coquelicot.
From Verif Require Import Base SectionModel LoadModel FoundationModel ElementModel ElementSpec AnalysisSpec.
Open Scope R_scope.

(** The cubic deflection with the given end deflections and slopes. *)
Definition cubic_between (L : R) (d : vec) (u : R -> R) : Prop :=
  (exists a0 a1 a2 a3, forall x, u x = a0 + a1 * x + a2 * x ^ 2 + a3 * x ^ 3) /\
  u 0 = d 0%nat /\ Derive u 0 = d 1%nat /\ u L = d 2%nat /\ Derive u L = d 3%nat.

(** Work of the end forces caused by [e] on the end displacements [d]. *)
Definition form (k : mat) (d e : vec) : R := rsum 4 (fun i => d i * end_forces k e i).

Definition nonzero4 (d : vec) : Prop := exists i, (i < 4)%nat /\ d i <> 0.

(** End force [p] of sub-element [e] of a mesh of equal elements: stiffness times its end
    displacements plus the forces of its loads. *)
Definition sub_force (ke : mat) (refs : nat -> vec) (d : vec) (e p : nat) : R :=
  end_forces ke (ends d e) p + refs e p.

(** The mesh of [n] elements under the end displacements [dr]: its ends follow [dr] and the
    end forces of the elements meeting at each interior node cancel. *)
Definition mesh_state (n : nat) (ke : mat) (refs : nat -> vec) (dr d : vec) : Prop :=
  d 0%nat = dr 0%nat /\ d 1%nat = dr 1%nat /\ d (2 * n)%nat = dr 2%nat /\ d (2 * n + 1)%nat = dr 3%nat /\
  forall j p, (1 <= j < n)%nat -> (p < 2)%nat ->
    sub_force ke refs d (j - 1) (2 + p) + sub_force ke refs d j p = 0.

(** The forces at the two ends of the mesh. *)
Definition mesh_ends (n : nat) (ke : mat) (refs : nat -> vec) (d : vec) : vec :=
  vec4 (sub_force ke refs d 0 0) (sub_force ke refs d 0 1)
       (sub_force ke refs d (n - 1) 2) (sub_force ke refs d (n - 1) 3).

(** A member on an elastic foundation that the code accepts, with positive properties. *)
Definition winkler (m : member) (EI kf : R) : Prop :=
  mb_kf m = Some kf /\ 0 < kf /\ mb_EI m = RConst EI /\ 0 < EI /\ mb_GAv m = None /\ mb_type m = 1%nat /\ 0 < mb_L m.
(** The mesh of such a member: the number of equal sub-elements and the stiffness of each,
    bending plus subgrade. *)
Definition mesh_size (m : member) (EI kf : R) : nat := auto_subdivisions (mb_L m) EI kf.
Definition mesh_step (m : member) (EI kf : R) : R := mb_L m / INR (mesh_size m EI kf).
Definition bed_stiffness (EI kf h : R) : mat := fun i j => k_ebeam EI h i j + k_found kf h i j.
Definition the_mesh (m : member) (EI kf : R) : felem :=
  {| fe_L := mb_L m; fe_EI := EI; fe_kf := kf; fe_n := mesh_size m EI kf |}.
(** The forces of the member's loads on the clamped sub-elements. *)
Definition mesh_loads (gl : nat -> list (R * R)) (m : member) (EI kf : R) (lds : list load) (rs : list cnl) : Prop :=
  length rs = mesh_size m EI kf /\
  forall e, (e < mesh_size m EI kf)%nat -> exists sl, sub_loads (the_mesh m EI kf) lds e = Ok sl /\
    sum_refs gl sl (mesh_step m EI kf) 1 = Ok (nth e rs cnl_zero).
Definition on_mesh (m : member) (EI kf : R) (rs : list cnl) (dr d : vec) : Prop :=
  mesh_state (mesh_size m EI kf) (bed_stiffness EI kf (mesh_step m EI kf)) (fun e => cnl_vec (nth e rs cnl_zero)) dr d.
Definition mesh_end_forces (m : member) (EI kf : R) (rs : list cnl) (d : vec) : vec :=
  mesh_ends (mesh_size m EI kf) (bed_stiffness EI kf (mesh_step m EI kf)) (fun e => cnl_vec (nth e rs cnl_zero)) d.
(** Energy of the whole mesh, and mesh displacements that follow the member ends. *)
Definition mesh_energy (m : member) (EI kf : R) (d : vec) : R :=
  rsum (mesh_size m EI kf) (fun e => energy (bed_stiffness EI kf (mesh_step m EI kf)) (ends d e)).
Definition follows (n : nat) (dr d : vec) : Prop :=
  d 0%nat = dr 0%nat /\ d 1%nat = dr 1%nat /\ d (2 * n)%nat = dr 2%nat /\ d (2 * n + 1)%nat = dr 3%nat.
(** Loads that can act on a foundation member: uniform, or placed on the member. *)
Definition bed_load (L : R) (ld : load) : Prop :=
  match ld with LUDL _ => True | LPL _ a => 0 <= a <= L | LPUDL _ _ _ => True | _ => False end.
