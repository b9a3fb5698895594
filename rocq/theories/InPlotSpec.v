(** What the input and reaction pictures should show. *)
From Coq Require Import ZArith.
From Verif Require Import Base SectionModel SectBuildModel SectBuildSpec InPlotModel.
Open Scope R_scope.

(** A curve over [lo, hi]: from end to end, abscissae rising, every point on the graph of [f]. *)
Record graph_of (f : R -> R) (lo hi : R) (c : list (R * R)) : Prop := {
  go_many : (2 <= length c)%nat;
  go_first : hd (0, 0) c = (lo, f lo);
  go_last : last c (0, 0) = (hi, f hi);
  go_rising : rising (map fst c);
  go_on : forall x y, In (x, y) c -> lo <= x <= hi /\ y = f x }.

(** Two rigidities told apart in the picture of a section: by more than 1e-9 of the first. *)
Definition told_apart (y1 y2 : R) : Prop := 1e-9 * Rabs y1 < Rabs (y2 - y1).

(** The rigidity of a beam at a coordinate, as given span by span from [off] on. *)
Inductive rigidity_at : R -> list R -> list rigid -> R -> R -> Prop :=
| ra_const off L Ls' e et x : off <= x <= off + L -> rigidity_at off (L :: Ls') (RConst e :: et) x e
| ra_sect off L Ls' s et x v : off <= x <= off + L -> sect_eval s (x - off) = Ok v -> rigidity_at off (L :: Ls') (RSect s :: et) x v
| ra_next off L Ls' e et x v : rigidity_at (off + L) Ls' et x v -> rigidity_at off (L :: Ls') (e :: et) x v.
Definition positive_beam (Ls : list R) (es : list rigid) : Prop :=
  Forall2 (fun L e => 0 < L /\ match e with RConst v => 0 < v | RSect s => forall x, 0 <= x <= L -> exists v, sect_eval s x = Ok v /\ 0 < v end) Ls es.

(** A number on a label: right to one part in two thousand, sign kept. *)
Definition label_of (v l : R) : Prop := Rabs (l - v) <= Rabs v / 2000.
(** A straight arrow for a force positive upwards, at height at most [top]. *)
Record force_arrow (x F top : R) (a : varrow) : Prop := {
  fa_x : va_x a = x;
  fa_up : 0 <= F -> va_tail a < va_head a;
  fa_down : F < 0 -> va_head a < va_tail a;
  fa_below : va_tail a <= top /\ va_head a <= top;
  fa_label : label_of (Rabs F) (va_label a) }.
Definition arrow_length (a : varrow) : R := Rabs (va_head a - va_tail a).
Record turn_arrow (x M : R) (a : marrow) : Prop := {
  ta_x : ma_x a = x;
  ta_turn : ma_ccw a = true <-> 0 <= M;
  ta_label : label_of (Rabs M) (ma_label a) }.
