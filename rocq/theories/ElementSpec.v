(** Independent specification of member behaviour: end displacements and end forces are
    ordered (v_a, theta_a, v_b, theta_b) and (V_a, M_a, V_b, M_b), up and anticlockwise. *)
From Coquelicot Require Import Coquelicot.
From Coq Require Import String.
From Verif Require Import Base SectionModel LoadModel LoadSpec ElementModel.
Open Scope R_scope.

(** End forces caused by end displacements. *)
Definition end_forces (k : mat) (d : vec) : vec := mulmv 4 k d.

Definition eq4 (u v : vec) : Prop := forall i, (i < 4)%nat -> u i = v i.

Definition symmetric4 (k : mat) : Prop :=
  forall i j, (i < 4)%nat -> (j < 4)%nat -> k i j = k j i.

(** Force and moment equilibrium of a member without load. *)
Definition self_balanced (L : R) (f : vec) : Prop :=
  f 0%nat + f 2%nat = 0 /\ f 1%nat + f 3%nat + L * f 2%nat = 0.

(** Translation [c] and rotation [t] of the straight member as a rigid body. *)
Definition rigid_motion (L : R) (d : vec) : Prop :=
  exists c t, eq4 d (vec4 c t (c + t * L) t).

(** Twice the strain energy. *)
Definition energy (k : mat) (d : vec) : R := rsum 4 (fun i => d i * end_forces k d i).

(** End rotations released by a member type (1 FF, 2 FP, 3 PF, 4 PP). *)
Definition released (et i : nat) : Prop :=
  match et with
  | 2%nat => i = 3%nat
  | 3%nat => i = 1%nat
  | 4%nat => i = 1%nat \/ i = 3%nat
  | _ => False
  end.

(** [(kr, r)] is the member [(k, e)] (stiffness, end forces of the load) with the released
    rotations let go: under any end displacements [d] there is a position of the released
    rotations that carries no moment, and every such position gives the forces [kr d + r]. *)
Definition let_go (et : nat) (k : mat) (e : vec) (kr : mat) (r : vec) : Prop :=
  forall d,
    (exists d', (forall i, (i < 4)%nat -> ~ released et i -> d' i = d i) /\
       (forall i, (i < 4)%nat -> released et i -> end_forces k d' i + e i = 0)) /\
    (forall d', (forall i, (i < 4)%nat -> ~ released et i -> d' i = d i) ->
       (forall i, (i < 4)%nat -> released et i -> end_forces k d' i + e i = 0) ->
       eq4 (fun i => end_forces k d' i + e i) (fun i => end_forces kr d i + r i)).

(** Legendre-Gauss rules: nodes inside (-1,1), positive weights. *)
Definition gauss_rule (gl : nat -> list (R * R)) : Prop :=
  forall n, Forall (fun xw => -1 < fst xw < 1 /\ 0 < snd xw) (gl n).

(** A rigidity that is positive wherever its description covers the member. *)
Definition positive_rigidity (e : rigid) : Prop :=
  match e with
  | RConst c => 0 < c
  | RSect s =>
      Forall (fun p => p_x0 p < p_x1 p) (s_pieces s) /\
      forall p x v, In p (s_pieces s) -> p_x0 p <= x <= p_x1 p -> sect_eval s x = Ok v -> 0 < v
  end.

(** A member without foundation, positive length and rigidities, one of the four types. *)
Record sound_member (m : member) : Prop := {
  sm_L : 0 < mb_L m;
  sm_EI : positive_rigidity (mb_EI m);
  sm_GAv : forall g, mb_GAv m = Some g -> positive_rigidity g;
  sm_kf : mb_kf m = None;
  sm_type : (1 <= mb_type m <= 4)%nat }.

Definition set_type (m : member) (t : nat) : member :=
  {| mb_L := mb_L m; mb_EI := mb_EI m; mb_GAv := mb_GAv m; mb_kf := mb_kf m; mb_type := t |}.

(** Clamped member with bending and shear flexibility: the section rotates by the
    integral of M/EI, the axis slopes by that rotation minus V/GAv, both ends have neither
    rotation nor deflection, and every cut is in equilibrium. *)
Definition shear_clamped (L EI GAv : R) (A : action) (Va Ma Vb Mb : R) (V M : R -> R) : Prop :=
  (forall x, 0 <= x <= L -> away_from x (forces A) ->
     exists I, is_RInt (intensity A) 0 x I /\
       V x = Va - I - left_of x (fun _ => 1) (forces A)) /\
  (forall x, 0 <= x <= L -> away_from x (moments A) ->
     exists I, is_RInt (fun t => (x - t) * intensity A t) 0 x I /\
       M x = - Ma + Va * x - I - left_of x (fun a => x - a) (forces A)
             - left_of x (fun _ => 1) (moments A)) /\
  balances L A {| c_Va := Va; c_Ma := Ma; c_Vb := Vb; c_Mb := Mb |} /\
  exists psi, (forall x, 0 <= x <= L -> is_RInt (fun t => M t / EI) 0 x (psi x)) /\
    psi L = 0 /\ is_RInt (fun t => psi t - V t / GAv) 0 L 0.

(** Numerical integration rule exact for quadratics on [-1,1] (true of the two-point
    Gauss rule at +-1/sqrt 3). *)
Definition exact_degree_2 (rule : list (R * R)) : Prop :=
  lsum (map snd rule) = 2 /\
  lsum (map (fun xw => snd xw * fst xw) rule) = 0 /\
  lsum (map (fun xw => snd xw * (fst xw)^2) rule) = 2 / 3.

(** Strictly increasing stations from 0 to [L]. *)
Definition stations (L : R) (xs : list R) : Prop :=
  hd 0 xs = 0 /\ last xs 0 = L /\ strictly_incr xs = true.

(** The user builds a section with one constant segment of rigidity [v] per interval. *)
Definition build_const (pf : list R -> list R -> nat -> list R) (v : R) (xs : list R) : result sect :=
  foldM (fun s ab => add_segment pf s "const"%string [fst ab; snd ab] (EScalar v) None)
        (pairs xs) sect_empty.

(** [e] describes the constant rigidity [v] on a member of length [L]: as a number, or as a
    section of constant pieces. *)
Definition describes (L v : R) (e : rigid) : Prop :=
  e = RConst v \/
  exists pf xs s, stations L xs /\ build_const pf v xs = Ok s /\ e = RSect s.

(** End rotations from the chord of a simply supported shear-flexible member with
    diagrams V and M: section rotation from ta by the integral of M/EI, axis slope that
    rotation minus V/GAv, no relative end deflection. *)
Definition chord_rotation (L e g : R) (V M : R -> R) (ta tb : R) : Prop :=
  exists psi, (forall x, 0 <= x <= L -> is_RInt (fun t => M t / e) 0 x (psi x - ta)) /\
    psi L = tb /\ is_RInt (fun t => psi t - V t / g) 0 L 0.
