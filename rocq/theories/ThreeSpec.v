(** The equation of three moments. *)
From Coquelicot Require Import Coquelicot.
From Verif Require Import Base SectionModel LoadModel LoadSpec ElementModel ElementSpec UtilsModel BeamModel AnalysisModel AnalysisSpec ResultsSpec ExactSpec.
Open Scope R_scope.

(** A span on two simple supports that do not move, under the action [A] and the imposed
    curvature [kap]: its ends carry no moment and turn by [left] and [right] (anticlockwise). *)
Definition simple_span (L ei : R) (ga : option R) (kap : R -> R) (A : action) (left right : R) : Prop :=
  exists f V M th y, bent_member L ei ga kap A f V M th y /\ f 1%nat = 0 /\ f 3%nat = 0 /\ y 0 = 0 /\ y L = 0 /\ th 0 = left /\ th L = right.
(** One of 1/GAv, or 0 without shear flexibility. *)
Definition shear_flex (ga : option R) : R := match ga with None => 0 | Some g => / g end.

(** Clapeyron's equation for two spans that meet at a joint: bending moments [X0], [X1], [X2]
    (sagging) at the three nodes, whose deflections are [y0], [y1], [y2]; as simple spans the
    left one would turn by [q1] at the joint and the right one by [p2]. *)
Definition three_moments (L1 ei1 : R) (ga1 : option R) (L2 ei2 : R) (ga2 : option R) (X0 X1 X2 y0 y1 y2 q1 p2 : R) : Prop :=
  X0 * (L1 / ei1 - 6 * shear_flex ga1 / L1) + X1 * (2 * (L1 / ei1 + L2 / ei2) + 6 * shear_flex ga1 / L1 + 6 * shear_flex ga2 / L2)
    + X2 * (L2 / ei2 - 6 * shear_flex ga2 / L2)
  = 6 * (p2 - q1) + 6 * ((y2 - y1) / L2 - (y1 - y0) / L1).

(** The textbook rotations of a simple span under uniform loads and point loads, downwards. *)
Definition turn_left (L ei : R) (ld : load) : R :=
  match ld with
  | LUDL w => - (w * L ^ 3 / (24 * ei))
  | LPL P a => - (P * a * (L - a) * (L + (L - a)) / (6 * L * ei))
  | _ => 0
  end.
Definition turn_right (L ei : R) (ld : load) : R :=
  match ld with
  | LUDL w => w * L ^ 3 / (24 * ei)
  | LPL P a => P * a * (L - a) * (L + a) / (6 * L * ei)
  | _ => 0
  end.
Definition ordinary (L : R) (ld : load) : Prop := match ld with LUDL _ => True | LPL _ a => 0 <= a <= L | _ => False end.
