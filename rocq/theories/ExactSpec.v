(** Independent specification of the beam problem of engineering beam theory, without reference
    to stiffnesses or fixed-end forces. *)
From Coquelicot Require Import Coquelicot.
From Verif Require Import Base SectionModel LoadModel LoadSpec ElementModel ElementSpec UtilsModel BeamModel AnalysisModel AnalysisSpec ResultsSpec.
Open Scope R_scope.

(** Shear strain caused by the shear force [v]; [None] is a member without shear flexibility. *)
Definition shear_angle (ga : option R) (v : R) : R := match ga with None => 0 | Some g => v / g end.

(** A member [0, L] of rigidity [ei] (and shear rigidity [ga]) with imposed curvature [kap],
    under the action [A] and the end forces [f] (V_a, M_a, V_b, M_b, up and anticlockwise):
    shear [V] and moment [M] are in equilibrium at every cut, the rotation [th] of the sections
    changes by the integral of the curvature, the deflection [y] by that of the slope. *)
Record bent_member (L ei : R) (ga : option R) (kap : R -> R) (A : action) (f : vec) (V M th y : R -> R) : Prop := {
  bm_cuts : cut_equilibrium L A (f 0%nat) (f 1%nat) (f 3%nat) V M;
  bm_total : total_load L A (f 0%nat + f 2%nat);
  bm_rotation : forall x, 0 <= x <= L -> is_RInt (fun t => M t / ei + kap t) 0 x (th x - th 0);
  bm_deflection : forall x, 0 <= x <= L -> is_RInt (fun t => th t - shear_angle ga (V t)) 0 x (y x - y 0) }.

(** The ends of the member move with the nodes (displacements [d]); a released end rotates
    freely and carries no moment. *)
Record joined (et : nat) (d f : vec) (L : R) (th y : R -> R) : Prop := {
  jn_left : y 0 = d 0%nat;
  jn_right : y L = d 2%nat;
  jn_turn_left : ~ released et 1 -> th 0 = d 1%nat;
  jn_turn_right : ~ released et 3 -> th L = d 3%nat;
  jn_free : forall p, released et p -> f p = 0 }.

(** Nodes: prescribed displacements and fixed supports are met, all other DOFs are in
    equilibrium with the support springs. *)
Definition nodes_hold (b : beam) (n : nat) (D : vec) (ef : nat -> vec) : Prop :=
  forall i, (i < 2 * (n + 1))%nat ->
    match prescribed b i with
    | Some v => D i = v
    | None => if Rlt_dec (restraint b i) 0 then D i = 0
              else nodal_sum n ef i = spring_force b i (D i)
    end.

(** Member [m] of the beam is bent between nodes displaced by [D], with end forces [f], shear
    [V] and moment [M]. *)
Definition member_bends (b : beam) (D : vec) (m : nat) (f : vec) (V M : R -> R) : Prop :=
  exists mb ls ei ga th y, member_at b m = Ok mb /\ parsed_loads b = Ok ls /\
    mb_EI mb = RConst ei /\ mb_GAv mb = option_map RConst ga /\
    bent_member (mb_L mb) ei ga (imposed (loads_of ls m)) (actions (mb_L mb) (loads_of ls m)) f V M th y /\
    joined (mb_type mb) (ends D m) f (mb_L mb) th y.

(** Nodal displacements [D] and member end forces [ef] of the bent beam. *)
Definition bent_beam (b : beam) (n : nat) (D : vec) (ef : nat -> vec) : Prop :=
  (forall m, (m < n)%nat -> exists V M, member_bends b D m (ef m) V M) /\ nodes_hold b n D ef.

(** Members described by numbers, not on a foundation, fixed at one end at least. *)
Record prismatic (mb : member) : Prop := {
  pr_L : 0 < mb_L mb;
  pr_EI : exists ei, mb_EI mb = RConst ei /\ 0 < ei;
  pr_GAv : mb_GAv mb = None \/ exists g, mb_GAv mb = Some (RConst g) /\ 0 < g;
  pr_kf : mb_kf mb = None;
  pr_type : (1 <= mb_type mb <= 3)%nat }.
(** Loads entirely on the member; concentrated moments on members without shear flexibility
    only, imposed curvatures up to quadratic. *)
Definition exact_load (mb : member) (ld : load) : Prop :=
  within_member (mb_L mb) ld /\
  match ld with
  | LML _ _ => mb_GAv mb = None
  | LIC k _ => (length k <= 3)%nat
  | LMaMb _ _ => False
  | _ => True
  end.
Definition exact_loads (b : beam) (n : nat) : Prop :=
  forall m mb ls, (m < n)%nat -> member_at b m = Ok mb -> parsed_loads b = Ok ls -> Forall (exact_load mb) (loads_of ls m).
