(** Independent specification of what a load is and of the clamped member, in terms of
    integrals of the load intensity.  No definition of the model is used except the
    record types of loads and end forces. *)
From Coquelicot Require Import Coquelicot.
From Verif Require Import Base SectionModel LoadModel.
Open Scope R_scope.

(** A load is a distributed intensity (downwards), point forces (downwards) and point
    moments (anticlockwise), the last two given as (magnitude, position). *)
Record action := {
  intensity : R -> R;
  forces : list (R * R);
  moments : list (R * R) }.

Definition no_action : action :=
  {| intensity := fun _ => 0; forces := []; moments := [] |}.

(** What each load class stands for on a member [0, L] (class docstrings of load.py).
    A trapezoid without explicit cover extends to the end of the member. *)
Definition action_of (L : R) (ld : load) : action :=
  match ld with
  | LUDL w => {| intensity := fun _ => w; forces := []; moments := [] |}
  | LPL P a => {| intensity := fun _ => 0; forces := [(P, a)]; moments := [] |}
  | LPUDL w a c =>
      {| intensity := fun x => if Rlt_dec x a then 0 else if Rlt_dec (a + c) x then 0 else w;
         forces := []; moments := [] |}
  | LTrap w1 w2 a co =>
      let c := match co with Some c => c | None => L - a end in
      {| intensity := fun x => if Rlt_dec x a then 0 else if Rlt_dec (a + c) x then 0
                               else w1 + (w2 - w1) * ((x - a) / c);
         forces := []; moments := [] |}
  | LMaMb _ _ => no_action
  | LML m a => {| intensity := fun _ => 0; forces := []; moments := [(m, a)] |}
  | LIC _ _ => no_action
  end.

(** Weighted resultant of an action over [0, L]: [g] weighs transverse load, [g'] (its
    slope) weighs point moments with the sign of a virtual displacement. *)
Definition resultant (L : R) (A : action) (g dg : R -> R) (W : R) : Prop :=
  exists I, is_RInt (fun x => g x * intensity A x) 0 L I /\
    W = I + lsum (map (fun pa => fst pa * g (snd pa)) (forces A))
          - lsum (map (fun ma => fst ma * dg (snd ma)) (moments A)).

(** Total transverse load. *)
Definition total_load (L : R) (A : action) (W : R) : Prop :=
  resultant L A (fun _ => 1) (fun _ => 0) W.

(** First moment of the load about the left end (clockwise), a point moment counting with
    its own value. *)
Definition first_moment (L : R) (A : action) (W : R) : Prop :=
  resultant L A (fun x => x) (fun _ => 1) W.

(** End forces (up, anticlockwise) in equilibrium with the action. *)
Definition balances (L : R) (A : action) (e : cnl) : Prop :=
  total_load L A (c_Va e + c_Vb e) /\
  first_moment L A (c_Ma e + c_Mb e + L * c_Vb e).

(** Unit-displacement shapes of the clamped-clamped member (cubic Hermite). *)
Definition N1 L x := 1 - 3 * (x / L)^2 + 2 * (x / L)^3.
Definition N2 L x := x * (1 - x / L)^2.
Definition N3 L x := 3 * (x / L)^2 - 2 * (x / L)^3.
Definition N4 L x := x * ((x / L)^2 - x / L).
Definition dN1 L x := - 6 * (x / L) / L + 6 * (x / L)^2 / L.
Definition dN2 L x := 1 - 4 * (x / L) + 3 * (x / L)^2.
Definition dN3 L x := 6 * (x / L) / L - 6 * (x / L)^2 / L.
Definition dN4 L x := 3 * (x / L)^2 - 2 * (x / L).

(** Fixed-end forces by virtual work: each is the work of the load on the corresponding
    unit-displacement shape. *)
Definition fixed_end_forces (L : R) (A : action) (e : cnl) : Prop :=
  resultant L A (N1 L) (dN1 L) (c_Va e) /\
  resultant L A (N2 L) (dN2 L) (c_Ma e) /\
  resultant L A (N3 L) (dN3 L) (c_Vb e) /\
  resultant L A (N4 L) (dN4 L) (c_Mb e).

(** Loads that the documentation allows on a member of length [L]: positions on the
    member; partial loads start on the member and have a non-negative cover, and may
    overhang the right end. *)
Definition on_member (L : R) (ld : load) : Prop :=
  match ld with
  | LUDL _ | LMaMb _ _ | LIC _ _ => True
  | LPL _ a | LML _ a => 0 <= a <= L
  | LPUDL _ a c => 0 <= a <= L /\ 0 <= c
  | LTrap _ _ a co => 0 <= a <= L /\ match co with Some c => 0 <= c | None => True end
  end.

(** ** The simply supported member under a load and end moments *)

(** Sum of [g position * magnitude] over the entries placed strictly left of [x]. *)
Definition left_of (x : R) (g : R -> R) (l : list (R * R)) : R :=
  lsum (map (fun pa => if Rlt_dec (snd pa) x then fst pa * g (snd pa) else 0) l).

Definition away_from (x : R) (l : list (R * R)) : Prop := forall pa, In pa l -> snd pa <> x.

(** [d] is the response of the member [0,L], simply supported, unit flexural rigidity,
    under the action [A] and the end moments [ma], [mb]: every cut is in equilibrium,
    slope integrates moment, deflection integrates slope, supports do not deflect. *)
Record simple_span (L : R) (A : action) (ma mb : R) (d : diag) : Prop := {
  ss_shear : forall x, 0 <= x <= L -> away_from x (forces A) ->
    exists I, is_RInt (intensity A) 0 x I /\
      f_V d x = f_V d 0 - I - left_of x (fun _ => 1) (forces A);
  ss_moment : forall x, 0 <= x <= L -> away_from x (moments A) ->
    exists I, is_RInt (fun t => (x - t) * intensity A t) 0 x I /\
      f_M d x = - ma + f_V d 0 * x - I - left_of x (fun a => x - a) (forces A)
                - left_of x (fun _ => 1) (moments A);
  ss_far_end :
    exists I, is_RInt (fun t => (L - t) * intensity A t) 0 L I /\
      mb = - ma + f_V d 0 * L - I - lsum (map (fun pa => fst pa * (L - snd pa)) (forces A))
           - lsum (map fst (moments A));
  ss_slope : forall x, away_from x (moments A) -> is_derive (f_R d) x (f_M d x);
  ss_slope_cont : forall x, continuous (f_R d) x;
  ss_deflection : forall x, is_derive (f_D d) x (f_R d x);
  ss_left : f_D d 0 = 0;
  ss_right : f_D d L = 0 }.

(** Clamped-clamped member: the same with zero slope at both ends and end shears
    [Va], [Vb] equal to the support reactions. *)
Record clamped (L : R) (A : action) (e : cnl) (d : diag) : Prop := {
  cl_span : simple_span L A (c_Ma e) (c_Mb e) d;
  cl_left : f_R d 0 = 0;
  cl_right : f_R d L = 0;
  cl_Va : f_V d 0 = c_Va e;
  cl_Vb : total_load L A (c_Va e + c_Vb e) }.

(** Superposition of two diagrams. *)
Definition diag_add (d1 d2 : diag) : diag :=
  {| f_V := fun x => f_V d1 x + f_V d2 x; f_M := fun x => f_M d1 x + f_M d2 x;
     f_R := fun x => f_R d1 x + f_R d2 x; f_D := fun x => f_D d1 x + f_D d2 x |}.

(** [m] tabulates the diagram [d] at the stations [xs], with V and M closed to zero at the
    first and last station (so that plots close on the axis). *)
Definition tabulates (d : diag) (xs : list R) (m : mres) : Prop :=
  let n := length xs in
  r_x m = xs /\
  length (r_V m) = n /\ length (r_M m) = n /\ length (r_R m) = n /\ length (r_D m) = n /\
  (forall i, (0 < i < n - 1)%nat ->
     nth i (r_V m) 0 = f_V d (nth i xs 0) /\ nth i (r_M m) 0 = f_M d (nth i xs 0)) /\
  (forall i, (i < n)%nat ->
     nth i (r_R m) 0 = f_R d (nth i xs 0) /\ nth i (r_D m) 0 = f_D d (nth i xs 0)) /\
  nth 0 (r_V m) 0 = 0 /\ nth (n - 1) (r_V m) 0 = 0 /\
  nth 0 (r_M m) 0 = 0 /\ nth (n - 1) (r_M m) 0 = 0.

(** As [on_member], with partial loads entirely on the member. *)
Definition within_member (L : R) (ld : load) : Prop :=
  on_member L ld /\ match ld with LPUDL _ a c => a + c <= L | _ => True end.

(** End moments a load class applies by itself (only [LMaMb] does). *)
Definition end_moments (ld : load) : R * R :=
  match ld with LMaMb Ma Mb => (Ma, Mb) | _ => (0, 0) end.

(** Points where the intensity of the load is discontinuous. *)
Definition load_edges (L : R) (ld : load) : list R :=
  match ld with
  | LPUDL _ a c => [a; a + c]
  | LTrap _ _ a co => [a; match co with Some c => Rmin (a + c) L | None => L end]
  | LPL _ a | LML _ a => [a]
  | _ => []
  end.

(** ** Scaling *)
(** A load with its magnitude(s) multiplied by [g]; positions and covers unchanged. *)
Definition scale_load (g : R) (ld : load) : load :=
  match ld with
  | LUDL w => LUDL (g * w)
  | LPL P a => LPL (g * P) a
  | LPUDL w a c => LPUDL (g * w) a c
  | LTrap w1 w2 a c => LTrap (g * w1) (g * w2) a c
  | LMaMb Ma Mb => LMaMb (g * Ma) (g * Mb)
  | LML m a => LML (g * m) a
  | LIC k EI => LIC (map (Rmult g) k) EI
  end.

(** A documented load row: one of the six types with at least its mandatory entries. *)
Definition wf_row (r : row) : Prop :=
  match r with
  | Row s t args =>
      (t = 1%Z /\ 1 <= length args \/ t = 2%Z /\ 2 <= length args \/ t = 3%Z /\ 3 <= length args
       \/ t = 4%Z /\ 2 <= length args \/ t = 5%Z /\ 2 <= length args
       \/ t = 6%Z /\ 1 <= length args)%nat
  | _ => False
  end.
