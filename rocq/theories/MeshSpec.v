(** Independent specification of a beam with an extra node in one of its spans. *)
From Coquelicot Require Import Coquelicot.
From Coq Require Import Permutation.
From Verif Require Import Base SectionModel LoadModel LoadSpec ElementModel ElementSpec UtilsModel BeamModel AnalysisModel AnalysisSpec ResultsSpec ExactSpec.
Open Scope R_scope.

(** [l1] on [0, x] and [l2] on [0, L - x] are together the loads [lds] on [0, L]: the same
    intensities, concentrated loads and imposed curvatures at the same places.  A concentrated
    load at [x] itself may be listed with either part. *)
Definition moved (x : R) (p : R * R) : R * R := (fst p, x + snd p).
Record loads_cut (L x : R) (lds l1 l2 : list load) : Prop := {
  lc_left : forall t, 0 < t < x -> intensity (actions x l1) t = intensity (actions L lds) t;
  lc_right : forall t, 0 < t < L - x -> intensity (actions (L - x) l2) t = intensity (actions L lds) (x + t);
  lc_forces : Permutation (forces (actions L lds)) (forces (actions x l1) ++ map (moved x) (forces (actions (L - x) l2)));
  lc_moments : Permutation (moments (actions L lds)) (moments (actions x l1) ++ map (moved x) (moments (actions (L - x) l2)));
  lc_bow_left : forall t, 0 < t < x -> imposed l1 t = imposed lds t;
  lc_bow_right : forall t, 0 < t < L - x -> imposed l2 t = imposed lds (x + t) }.

(** The two parts of a member: same section, continuous with each other at the new node, the
    outer ends as before (type 2 is released at its right end, type 3 at its left end). *)
Definition left_part (mb : member) (x : R) : member :=
  {| mb_L := x; mb_EI := mb_EI mb; mb_GAv := mb_GAv mb; mb_kf := mb_kf mb; mb_type := if Nat.eqb (mb_type mb) 3 then 3%nat else 1%nat |}.
Definition right_part (mb : member) (x : R) : member :=
  {| mb_L := mb_L mb - x; mb_EI := mb_EI mb; mb_GAv := mb_GAv mb; mb_kf := mb_kf mb; mb_type := if Nat.eqb (mb_type mb) 2 then 2%nat else 1%nat |}.

(** Number in the beam with the extra node (after node [k]) of member [m] and of DOF [i]. *)
Definition new_member (k m : nat) : nat := if Nat.leb m k then m else S m.
Definition new_dof (k i : nat) : nat := if Nat.leb i (2 * k + 1) then i else (i + 2)%nat.

(** [b'] is [b], of [n] spans, with a free node inserted at [x] in span [k]. *)
Record node_inserted (b b' : beam) (n k : nat) (x : R) : Prop := {
  ni_span : (k < n)%nat;
  ni_members : forall m mb, (m < n)%nat -> m <> k -> member_at b m = Ok mb -> member_at b' (new_member k m) = Ok mb;
  ni_parts : forall mb, member_at b k = Ok mb -> 0 < x < mb_L mb /\ member_at b' k = Ok (left_part mb x) /\ member_at b' (S k) = Ok (right_part mb x);
  ni_loads : forall ls, parsed_loads b = Ok ls -> exists ls', parsed_loads b' = Ok ls' /\
    (forall m, (m < n)%nat -> m <> k -> loads_of ls' (new_member k m) = loads_of ls m) /\
    (forall mb, member_at b k = Ok mb -> loads_cut (mb_L mb) x (loads_of ls k) (loads_of ls' k) (loads_of ls' (S k)));
  ni_supports : forall i, (i < 2 * (n + 1))%nat -> restraint b' (new_dof k i) = restraint b i /\ prescribed b' (new_dof k i) = prescribed b i;
  ni_free : forall i, i = (2 * k + 2)%nat \/ i = (2 * k + 3)%nat -> restraint b' i = 0 /\ prescribed b' i = None }.

(** Span [m], bent between the nodes displaced by [D] with end forces [f], deflects by [u] and
    turns by [r] at [x]. *)
Definition moves_at (b : beam) (D : vec) (m : nat) (f : vec) (x u r : R) : Prop :=
  exists mb ls ei ga V M th y, member_at b m = Ok mb /\ parsed_loads b = Ok ls /\
    mb_EI mb = RConst ei /\ mb_GAv mb = option_map RConst ga /\
    bent_member (mb_L mb) ei ga (imposed (loads_of ls m)) (actions (mb_L mb) (loads_of ls m)) f V M th y /\
    joined (mb_type mb) (ends D m) f (mb_L mb) th y /\ y x = u /\ th x = r.
