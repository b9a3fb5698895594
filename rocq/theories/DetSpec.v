(** Independent specification of statically determinate beams. *)
From Verif Require Import Base SectionModel LoadModel LoadSpec ElementModel ElementSpec UtilsModel BeamModel AnalysisModel AnalysisSpec.
Open Scope R_scope.

(** End forces that an unloaded beam could carry: every member in equilibrium by itself, no
    moment at its released ends, and the members meeting at a DOF that is not supported in
    balance there. *)
Definition self_stress (b : beam) (n : nat) (ef : nat -> vec) : Prop :=
  (forall m mb, (m < n)%nat -> member_at b m = Ok mb ->
     self_balanced (mb_L mb) (ef m) /\ forall p, released (mb_type mb) p -> ef m p = 0) /\
  forall i, (i < 2 * (n + 1))%nat -> ~ supported b i -> nodal_sum n ef i = 0.
(** Statically determinate: there are none but zero. *)
Definition determinate (b : beam) (n : nat) : Prop :=
  forall ef, self_stress b n ef -> forall m p, (m < n)%nat -> (p < 4)%nat -> ef m p = 0.

Definition imposed_curvature (ld : load) : bool := match ld with LIC _ _ => true | _ => false end.
(** The forces acting on span [m]: its loads other than imposed curvatures. *)
Definition acting (ls : list (Z * load)) (m : nat) : list load := filter (fun ld => negb (imposed_curvature ld)) (loads_of ls m).

(** No loads other than imposed curvatures. *)
Definition only_imposed (b : beam) (n : nat) : Prop :=
  forall ls m, parsed_loads b = Ok ls -> (m < n)%nat -> acting ls m = [].

(** Two beams of the same layout carrying the same loads; rigidities, support stiffnesses,
    settlements and imposed curvatures may differ. *)
Record same_statics (b1 b2 : beam) (n : nat) : Prop := {
  st_layout : forall m mb1 mb2, (m < n)%nat -> member_at b1 m = Ok mb1 -> member_at b2 m = Ok mb2 ->
    mb_L mb1 = mb_L mb2 /\ mb_type mb1 = mb_type mb2;
  st_supports : forall i, (i < 2 * (n + 1))%nat -> (supported b1 i <-> supported b2 i);
  st_loads : forall ls1 ls2 m, parsed_loads b1 = Ok ls1 -> parsed_loads b2 = Ok ls2 -> (m < n)%nat -> acting ls1 m = acting ls2 m }.
