(** Independent specification of the tendon: the eccentricity of each documented profile
    (positive below the centroid) as a function of the span coordinate. *)
From Coq Require Import Sorting.
From Verif Require Import Base LoadModel LoadSpec PrestressModel.
Open Scope R_scope.

(** Chord and parabola through given points. *)
Definition chord (x1 e1 x2 e2 x : R) : R := e1 + (e2 - e1) * ((x - x1) / (x2 - x1)).
Definition lagrange (x1 e1 x2 e2 x3 e3 x : R) : R :=
  e1 * ((x - x2) * (x - x3)) / ((x1 - x2) * (x1 - x3)) +
  e2 * ((x - x1) * (x - x3)) / ((x2 - x1) * (x2 - x3)) +
  e3 * ((x - x1) * (x - x2)) / ((x3 - x1) * (x3 - x2)).
(** Parabola with its vertex at [(xv, ev)] through [(x1, e1)]. *)
Definition vertex (xv ev x1 e1 x : R) : R := ev + (e1 - ev) * ((x - xv) / (x1 - xv)) ^ 2.

Definition le (x y : R) {A} (a b : A) : A := if Rle_dec x y then a else b.

(** Eccentricity of the tendon at [x] in a span of length [L] whose free end, if any, is [t].
    Inside the supports ([c_left], [c_right]) the tendon is horizontal.  On a cantilever the
    parabola has its vertex at the support's high point.  The right contraflexure of the
    compound parabola is at the level the code uses (see [documented_level]). *)
Definition drape (p : profile) (L : R) (t : option tip) (x : R) : R :=
  match p, t with
  | Parabola el em er cl cr, None =>
      le x cl el (le (L - cr) x er (lagrange cl el ((cl + (L - cr)) / 2) em (L - cr) er x))
  | Parabola el em er cl cr, Some TipRight => le x cl el (vertex cl el L er x)
  | Parabola el em er cl cr, Some TipLeft => le (L - cr) x er (vertex (L - cr) er 0 el x)
  | CompoundParabola el em er a b c, _ =>
      let ea := el + a / c * (em - el) in
      let ed := er + b / (L - b) * (em - er) in
      le x a (vertex 0 el a ea x)
        (le x c (vertex c em a ea x) (le x (L - b) (vertex c em (L - b) ed x) (vertex L er (L - b) ed x)))
  | Harp el em er a cl cr, _ =>
      le x cl el (le x a (chord cl el a em x) (le x (L - cr) (chord a em (L - cr) er x) er))
  | DoubleHarp el e1 e2 er a b cl cr, _ =>
      le x cl el (le x a (chord cl el a e1 x) (le x b (chord a e1 b e2 x)
        (le x (L - cr) (chord b e2 (L - cr) er x) er)))
  end.

(** Points where two pieces of the profile meet. *)
Definition unless0 (c : R) (l : list R) : list R := if Req_EM_T c 0 then [] else l.
Definition breaks (p : profile) (L : R) (t : option tip) : list R :=
  match p, t with
  | Parabola _ _ _ cl cr, None => unless0 cl [cl] ++ unless0 cr [L - cr]
  | Parabola _ _ _ cl cr, Some TipRight => unless0 cl [cl]
  | Parabola _ _ _ cl cr, Some TipLeft => unless0 cr [L - cr]
  | CompoundParabola _ _ _ a b c, _ => [a; c; L - b]
  | Harp _ _ _ a cl cr, _ => unless0 cl [cl] ++ [a] ++ unless0 cr [L - cr]
  | DoubleHarp _ _ _ _ a b cl cr, _ => unless0 cl [cl] ++ [a; b] ++ unless0 cr [L - cr]
  end.

(** The profile fits the span: its pieces are in order and meet further than 1e-9 from the
    ends of the span. *)
Definition placed (p : profile) (L : R) (t : option tip) : Prop :=
  0 < L /\ StronglySorted Rlt (breaks p L t) /\ Forall (fun x => 1e-9 < x < L - 1e-9) (breaks p L t).

(** Node [k] carries neither a vertical nor a rotational support. *)
Definition free_node (rs : list R) (k : nat) : Prop := nth (2 * k) rs 1 = 0 /\ nth (2 * k + 1) rs 1 = 0.
(** The free end of span [i] (the left one if both are free). *)
Definition tip_of (rs : list R) (i : nat) (t : option tip) : Prop :=
  match t with
  | Some TipLeft => free_node rs i
  | Some TipRight => ~ free_node rs i /\ free_node rs (i + 1)
  | None => ~ free_node rs i /\ ~ free_node rs (i + 1)
  end.

(** Force in span [i]. *)
Definition force_in (f : force) (i : nat) (F : R) : Prop :=
  match f with FScalar x => F = x | FSpans fs => nth_error fs i = Some F end.

(** Bound on the moment of the actions the code neglects (eccentricities, slope changes and
    curvatures up to 1e-9). *)
Definition neglected (F L : R) : R := Rabs F * 1e-9 * (2 * L ^ 2 + 13 * L + 6).

(** Level of the compound parabola at its right contraflexure that makes the two parabolas
    meeting there have the same slope. *)
Definition documented_level (em er b c L : R) : R := er + b / (L - c) * (em - er).

(** The points of a profile from left to right in a span of length [L]: straight ends that
    leave room for the curve (more than 1e-9), inner points strictly in order.  Compound
    parabolas are for spans supported at both ends. *)
Definition in_order (p : profile) (L : R) (t : option tip) : Prop :=
  match p, t with
  | Parabola _ _ _ cl cr, None => 1e-9 < L - cr - cl
  | Parabola _ _ _ cl _, Some TipRight => cl < L
  | Parabola _ _ _ _ cr, Some TipLeft => 0 < L - cr
  | CompoundParabola _ _ _ a b c, None => 0 < a < c /\ c < L - b < L
  | CompoundParabola _ _ _ _ _ _, Some _ => False
  | Harp _ _ _ a cl cr, _ => cl < a < L - cr
  | DoubleHarp _ _ _ _ a b cl cr, _ => cl < a < b /\ b < L - cr
  end.
