(** Specification of the support symbols and of the picture of the reactions. *)
From Coq Require Import ZArith String.
From Verif Require Import Base BeamModel BeamSpec AnalysisModel AnalysisSpec ResultsModel UnitsModel BridgeSpec RenderModel RenderSpec InPlotModel InPlotSpec SchemModel SchemSpec SymbolModel.
Local Notation length := List.length.
Local Open Scope list_scope.
Open Scope R_scope.

(** Points between which a shape lies (the corners of its box, for the round ones). *)
Definition extremes (s : shape) : list (R * R) :=
  match s with
  | SLine pts | SPoly pts => pts
  | SDisc (x, y) r => [(x - r, y - r); (x + r, y + r)]
  | SHalf (x, y) r => [(x - r, y - r); (x + r, y)]
  end.

(** A level line, a triangle with its tip above the middle of its level base. *)
Definition level (ss : list shape) (x y : R) : Prop := exists w, 0 < w /\ In (SLine [(x - w, y); (x + w, y)]) ss.
Definition triangle (ss : list shape) (x tip base : R) : Prop := exists w, 0 < w /\ In (SPoly [(x, tip); (x - w, base); (x + w, base)]) ss.

(** The symbol of node [i]:
    - pin: a triangle below the beam that stands on the ground, nothing to roll on;
    - roller: a triangle below the beam, on two wheels of the same size between it and the ground;
    - clamp: a wall through the node, hatched on the outer side and nowhere else;
    - spring: a line that leaves the beam to both sides and ends on a stem to the ground;
    - guide: two level lines below the beam. *)
Definition pictured (b : beam) (i : nat) (k : skind) (ss : list shape) : Prop :=
  let x := node_at b i in
  match k with
  | KPin => exists tip base, base < tip <= 0 /\ triangle ss x tip base /\ level ss x base /\ forall c r, In (SDisc c r) ss -> c = (x, 0)
  | KRoller => exists tip base ground a y r, ground < base < tip /\ tip <= 0 /\ triangle ss x tip base /\ level ss x ground /\
      0 < r < a /\ In (SDisc (x - a, y) r) ss /\ In (SDisc (x + a, y) r) ss /\ y + r <= base /\ ground <= y - r
  | KFixed => (exists h, 0 < h /\ In (SLine [(x, - h); (x, h)]) ss) /\
      (forall s pt, In s ss -> In pt (extremes s) -> if Nat.eqb i (b_nspans b) then x <= fst pt else fst pt <= x) /\
      (exists s pt, In s ss /\ In pt (extremes s) /\ fst pt <> x)
  | KSpring | KTorsion => exists zig y ground, ground < y < 0 /\ In (SLine zig) ss /\ hd (0, 0) zig = (x, 0) /\ last zig (0, 0) = (x, y) /\
      (exists pt, In pt zig /\ fst pt < x) /\ (exists pt, In pt zig /\ x < fst pt) /\
      In (SLine [(x, y); (x, ground)]) ss /\ level ss x ground
  | KGuided => exists y ground, ground < y < 0 /\ level ss x y /\ level ss x ground /\ forall pts, ~ In (SPoly pts) ss
  end.

(** A stem up from the node, which carries the spiral of a rotational spring. *)
Definition stem_up (ss : list shape) (x : R) : Prop := exists y, 0 < y /\ In (SLine [(x, 0); (x, y)]) ss.

(** A reaction: a vertical arrow under the node in the sense of the force, its magnitude below. *)
Record reaction_shown (g : R -> string) (us : unit_system) (x F : R) (gl : react_glyph) : Prop := {
  rs_x : fst (ar_head (rg_arrow gl)) = x /\ fst (ar_tail (rg_arrow gl)) = x /\ fst (ca_at (rg_text gl)) = x;
  rs_up : 0 <= F -> snd (ar_tail (rg_arrow gl)) < snd (ar_head (rg_arrow gl));
  rs_down : F < 0 -> snd (ar_head (rg_arrow gl)) < snd (ar_tail (rg_arrow gl));
  rs_text : exists l, label_of (Rabs F) l /\ ca_text (rg_text gl) = worth (g l) (us_force us);
  rs_below : snd (ca_at (rg_text gl)) < snd (ar_head (rg_arrow gl)) /\ snd (ca_at (rg_text gl)) < snd (ar_tail (rg_arrow gl)) }.
Definition react_reach (gl : react_glyph) : R := Rabs (snd (ar_head (rg_arrow gl)) - snd (ar_tail (rg_arrow gl))).
(** A moment reaction: the arc of a moment of that value, to the figures of the label. *)
Definition turning_shown (g : R -> string) (us : unit_system) (L x M : R) (gl : moment_glyph) : Prop :=
  exists l, label_of M l /\ moment_shown g us L true {| m_span := 0; m_x := x; m_M := l |} gl.

(** The displacements and reactions of the results of an analysis. *)
Definition output_of (br : bres) : output := {| o_d := br_D br; o_R := br_R br; o_Rs := br_Rs br |}.
(** Nodes whose reaction [f] is worth an arrow. *)
Definition loaded_nodes (f : nat -> R) (n : nat) : list nat := filter (fun i => Rltb (/ 10^6) (Rabs (f i))) (seq 0 (n + 1)).
Definition view (rp : react_pic) (pt : R * R) : Prop :=
  fst (sc_xlim (rp_schem rp)) <= fst pt <= snd (sc_xlim (rp_schem rp)) /\ fst (rp_ylim rp) <= snd pt <= snd (rp_ylim rp).
Definition react_points (gl : react_glyph) : list (R * R) := arrow_points (rg_arrow gl) ++ [ca_at (rg_text gl)].
