(** Independent specification of the principle of Mueller-Breslau: reactions and deflected
    shapes. *)
From Coquelicot Require Import Coquelicot.
From Verif Require Import Base SectionModel LoadModel LoadSpec ElementModel ElementSpec UtilsModel BeamModel AnalysisModel AnalysisSpec ResultsSpec ExactSpec.
Open Scope R_scope.

(** Prescribed displacements: [delta] at the degree of freedom [j] of [N], none elsewhere. *)
Definition lift (N j : nat) (delta : R) : list (option R) :=
  map (fun i => if Nat.eqb i j then Some delta else None) (seq 0 N).

(** Member [m] of the beam, between nodes displaced by [D], takes the deflected shape [y] with
    the rotations [th] of its sections (a beam bent according to the theory, see ExactSpec). *)
Definition takes_shape (b : beam) (D : vec) (m : nat) (y th : R -> R) : Prop :=
  exists mb ls ei ga f V M, member_at b m = Ok mb /\ parsed_loads b = Ok ls /\ mb_EI mb = RConst ei /\ mb_GAv mb = option_map RConst ga /\
    bent_member (mb_L mb) ei ga (imposed (loads_of ls m)) (actions (mb_L mb) (loads_of ls m)) f V M th y /\
    joined (mb_type mb) (ends D m) f (mb_L mb) th y.

(** Forces on the members, at admissible positions: neither imposed curvatures nor end moments,
    and concentrated moments on members without shear flexibility only. *)
Definition force_load (mb : member) (ld : load) : Prop := match ld with LMaMb _ _ | LIC _ _ => False | LML _ _ => mb_GAv mb = None | _ => True end.
Definition forces_only (b : beam) (n : nat) : Prop :=
  forall m mb ls, (m < n)%nat -> member_at b m = Ok mb -> parsed_loads b = Ok ls -> Forall (fun ld => on_member (mb_L mb) ld /\ force_load mb ld) (loads_of ls m).
(** Members described by numbers, with or without shear flexibility. *)
Definition plain_members (a : analysis) : Prop := members (an_beam a) (an_n a) prismatic.
