(** Independent specification of the loads, the equilibrium and the results of a member on an
    elastic foundation, and of the deflected shape. *)
From Coquelicot Require Import Coquelicot.
From Coq Require Import Permutation.
From Verif Require Import Base SectionModel LoadModel LoadSpec FoundationModel ElementModel ElementSpec AnalysisSpec FoundSpec ResultsModel ResultsSpec.
Open Scope R_scope.

(** The action [A] on a member is cut into the actions [parts e] on [n] sub-elements of
    length [h], each in its own coordinate. *)
Definition cut_into (n : nat) (h : R) (A : action) (parts : nat -> action) : Prop :=
  (forall e x, (e < n)%nat -> 0 < x < h -> intensity (parts e) x = intensity A (INR e * h + x)) /\
  Permutation (forces A) (flat_map (fun e => map (fun pa => (fst pa, INR e * h + snd pa)) (forces (parts e))) (seq 0 n)) /\
  moments A = [] /\ forall e, (e < n)%nat -> moments (parts e) = [].

(** A position that is a mesh node, or further from every mesh node than the tolerances of
    the load splitting. *)
Definition clear_of_nodes (n : nat) (h : R) (x : R) : Prop :=
  (exists j, (j <= n)%nat /\ x = INR j * h) \/
  forall j, (j <= n)%nat -> 1e-8 + 1e-5 * (INR j * h) < Rabs (x - INR j * h) /\ 1e-12 * (INR n * h) < Rabs (x - INR j * h).
(** Loads on the foundation member that the mesh represents exactly. *)
Definition meshed_load (n : nat) (h : R) (ld : load) : Prop :=
  match ld with
  | LUDL _ => True
  | LPL _ a => 0 <= a <= INR n * h
  | LPUDL _ a c => 1e-12 * (INR n * h) < c /\ clear_of_nodes n h a /\ clear_of_nodes n h (a + c)
  | _ => False
  end.

(** The deflected shape of the mesh: on each sub-element the cubic through the mesh
    displacements. *)
Definition mesh_shape (n : nat) (h : R) (d : vec) (w : R -> R) : Prop :=
  forall e, (e < n)%nat -> exists u, cubic_between h (ends d e) u /\ forall x, 0 < x < h -> w (INR e * h + x) = u x.

(** The action together with the subgrade reaction [kf * w] (down where the beam rises). *)
Definition with_subgrade (kf : R) (w : R -> R) (A : action) : action :=
  {| intensity := fun x => intensity A x + kf * w x; forces := forces A; moments := moments A |}.
Definition as_cnl (e : vec) : cnl := {| c_Va := e 0%nat; c_Ma := e 1%nat; c_Vb := e 2%nat; c_Mb := e 3%nat |}.

(** A sub-element by itself: a prismatic member fixed at both ends. *)
Definition sub_member (h EI : R) : member :=
  {| mb_L := h; mb_EI := RConst EI; mb_GAv := None; mb_kf := None; mb_type := 1 |}.
(** Stations per sub-element (before the two closing ones): at least two intervals. *)
Definition sub_intervals (npts n : nat) : nat := Nat.max 2 (round_div npts n).

(** The results of one sub-element starting at [x0], with bending end forces [f], mesh
    displacements [dd] and loads [sl]. *)
Record block (x0 h EI : R) (ns : nat) (f dd : vec) (sl : list load) (r : mres) : Prop := {
  bl_grid : station_grid x0 (x0 + h) (ns + 3) (r_x r);
  bl_even : forall k, (k <= ns)%nat -> nth (k + 1) (r_x r) 0 = x0 + h * (INR k / INR ns);
  bl_diagrams : exists V M, member_curves x0 r V M /\ cut_equilibrium h (actions h sl) (f 0%nat) (f 1%nat) (f 3%nat) V M;
  bl_shape : recovered (sub_member h EI) sl x0 (dd 0%nat) (dd 1%nat) (dd 2%nat) r;
  bl_closing : nth 0 (r_D r) 0 = 0 /\ nth (ns + 2) (r_D r) 0 = 0 }.

(** One member's part of the deflected shape: coordinates from one node to the next, the
    deflections belonging to them, starting at the displacement of the left node. *)
Record curve_piece (x0 x1 d0 : R) (xs ds : list R) : Prop := {
  cp_pairs : length ds = length xs;
  cp_order : increasing xs;
  cp_start : nth 0 xs 0 = x0;
  cp_end : last xs 0 = x1;
  cp_node : nth 0 ds 0 = d0 }.
