(** Independent specification of a beam seen from its other side. *)
From Coquelicot Require Import Coquelicot.
From Coq Require Import Permutation.
From Verif Require Import Base SectionModel LoadModel LoadSpec ElementModel ElementSpec UtilsModel BeamModel AnalysisModel AnalysisSpec ResultsSpec.
Open Scope R_scope.

(** The loads [l'] on a span of length [L] are the loads [l] seen from the other side:
    intensities, forces and imposed curvatures at mirrored places, moments of opposite sense. *)
Record loads_mirrored (L : R) (l l' : list load) : Prop := {
  lm_intensity : forall t, 0 < t < L -> intensity (actions L l') t = intensity (actions L l) (L - t);
  lm_forces : Permutation (forces (actions L l')) (map (fun p => (fst p, L - snd p)) (forces (actions L l)));
  lm_moments : Permutation (moments (actions L l')) (map (fun p => (- fst p, L - snd p)) (moments (actions L l)));
  lm_bow : forall t, 0 < t < L -> imposed l' t = imposed l (L - t) }.

(** A member seen from the other side: types 2 and 3 (released right, left) change places. *)
Definition mirror_type (et : nat) : nat := match et with 2 => 3 | 3 => 2 | t => t end%nat.
Definition mirror_member (mb : member) : member :=
  {| mb_L := mb_L mb; mb_EI := mb_EI mb; mb_GAv := mb_GAv mb; mb_kf := mb_kf mb; mb_type := mirror_type (mb_type mb) |}.

(** Rotations (odd DOFs) change sense. *)
Definition sense (i : nat) : R := if Nat.even i then 1 else -1.
(** Place of span [m] and of DOF [i] in the mirrored beam of [n] spans. *)
Definition mirror_span (n m : nat) : nat := (n - 1 - m)%nat.
Definition mirror_dof (n i : nat) : nat := (2 * (n - i / 2) + i mod 2)%nat.
(** Place of end DOF [p] of a member. *)
Definition mirror_end (p : nat) : nat := match p with 0 => 2 | 1 => 3 | 2 => 0 | _ => 1 end%nat.

Record mirrored (b b' : beam) (n : nat) : Prop := {
  mi_members : forall m mb, (m < n)%nat -> member_at b m = Ok mb -> member_at b' (mirror_span n m) = Ok (mirror_member mb);
  mi_loads : forall ls, parsed_loads b = Ok ls -> exists ls', parsed_loads b' = Ok ls' /\
    forall m mb, (m < n)%nat -> member_at b m = Ok mb -> loads_mirrored (mb_L mb) (loads_of ls m) (loads_of ls' (mirror_span n m));
  mi_supports : forall i, (i < 2 * (n + 1))%nat -> restraint b' (mirror_dof n i) = restraint b i /\
    prescribed b' (mirror_dof n i) = option_map (Rmult (sense i)) (prescribed b i) }.
