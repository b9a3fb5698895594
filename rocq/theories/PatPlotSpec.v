(** Independent specification of the drawn load patterns. *)
From Coq Require Import ZArith String.
From Verif Require Import Base LoadModel LoadSpec LoadCasesModel LoadCasesSpec PatPlotModel.
Open Scope R_scope.

(** The stretch of a member of length [L] on which a row puts distributed load: the whole member
    (full and plain trapezoidal loads) or from [a] over a length [c]; a trapezoid that gives only
    its start goes on to the end. *)
Inductive spread (L : R) : row -> R -> R -> Prop :=
| sp_full s w l : spread L (Row s 1 (w :: l)) 0 L
| sp_part s w a c l : spread L (Row s 3 (w :: a :: c :: l)) a (a + c)
| sp_trap s w1 w2 : spread L (Row s 5 [w1; w2]) 0 L
| sp_open s w1 w2 a : spread L (Row s 5 [w1; w2; a]) a L
| sp_cover s w1 w2 a c l : spread L (Row s 5 (w1 :: w2 :: a :: c :: l)) a (a + c).
Definition open_trapezoid (r : row) : Prop := exists s w1 w2 a, r = Row s 5 [w1; w2; a].

(** The row acts on span [i] (counted from 0). *)
Definition on_span (i : nat) (r : row) : Prop := exists t args, r = Row (Z.of_nat i + 1) t args.
(** A row that the analysis understands, with its distributed load within its span. *)
Definition well_placed (Ls : list R) (r : row) : Prop :=
  (exists ls, parse_row r = Ok ls) /\ forall i a b, (i < List.length Ls)%nat -> on_span i r -> spread (nth i Ls 0) r a b -> 0 <= a < b /\ b <= nth i Ls 0.

(** The coordinate [g] of the beam is on the stretch of a row. *)
Definition covers (Ls : list R) (r : row) (g : R) : Prop :=
  exists i a b, (i < List.length Ls)%nat /\ on_span i r /\ spread (nth i Ls 0) r a b /\ start Ls i + a <= g <= start Ls i + b.
(** A bar (start and length) is drawn over [g]. *)
Definition drawn (bars : list (R * R)) (g : R) : Prop := exists x l, In (x, l) bars /\ x <= g <= x + l.

(** No distributed load. *)
Definition concentrated (r : row) : Prop := exists s t args, r = Row s t args /\ t <> 1%Z /\ t <> 3%Z /\ t <> 5%Z.
(** The spans a case names, or, when it names none, those its rows act on. *)
Definition names_span (c : pcase) (i : nat) : Prop :=
  match pc_spans c with [] => exists r, In r (pc_loads c) /\ on_span i r | l => In (Z.of_nat i) l end.
