(** Independent specification of the accuracy of recovered rotations and deflections. *)
From Verif Require Import Base SectionModel LoadModel LoadSpec ElementModel ElementSpec UtilsModel BeamModel AnalysisModel AnalysisSpec ResultsModel ResultsSpec ExactSpec.
Open Scope R_scope.

(** Member [m] of the beam is bent between nodes displaced by [D] with end forces [f]: its
    sections rotate by [th] and its axis deflects by [y] (as functions of the distance from
    the left node). *)
Definition member_shape (b : beam) (D : vec) (m : nat) (f : vec) (th y : R -> R) : Prop :=
  exists mb ls ei ga V M, member_at b m = Ok mb /\ parsed_loads b = Ok ls /\
    mb_EI mb = RConst ei /\ mb_GAv mb = option_map RConst ga /\
    bent_member (mb_L mb) ei ga (imposed (loads_of ls m)) (actions (mb_L mb) (loads_of ls m)) f V M th y /\
    joined (mb_type mb) (ends D m) f (mb_L mb) th y.

(** At all stations but the two closing ones the tabulated rotation and deflection of a member
    (left node at [x0]) are within [e] of [th] and [y]. *)
Definition tables_within (e x0 : R) (th y : R -> R) (r : mres) : Prop :=
  forall k, (0 < k < length (r_x r) - 1)%nat ->
    Rabs (nth k (r_R r) 0 - th (nth k (r_x r) 0 - x0)) <= e /\
    Rabs (nth k (r_D r) 0 - y (nth k (r_x r) 0 - x0)) <= e.

(** Members without shear flexibility and without concentrated moments. *)
Definition slender (b : beam) (m : nat) : Prop :=
  forall mb ls, member_at b m = Ok mb -> parsed_loads b = Ok ls ->
    mb_GAv mb = None /\ Forall (fun ld => match ld with LML _ _ => False | _ => True end) (loads_of ls m).
