(** Independent specification of section building. *)
From Coq Require Import String.
From Verif Require Import Base SectionModel SectBuildModel.
Open Scope R_scope.
Local Notation length := List.length.
Local Open Scope list_scope.
Local Open Scope string_scope.

(** Where a segment starts and ends. *)
Definition start_of (c : segment) : R := hd 0 (sg_x c).
Definition end_of (c : segment) : R := last (sg_x c) 0.
Definition rising (l : list R) : Prop := forall i, (S i < length l)%nat -> nth i l 0 < nth (S i) l 0.
(** Two coordinates taken as the same: within 1e-9, relative to the first if that exceeds 1. *)
Definition abut (a b : R) : Prop := Rabs (b - a) <= 1e-9 * Rmax 1 (Rabs a).

(** The rigidities of a segment fit its type and are positive. *)
Definition numbers (e : eiarg) (l : list R) : Prop := match e with EScalar r => l = [r] | EArr l' => l = l' | EFun _ => False end.
Definition samples (c : segment) (deg : nat) : list R :=
  map (fun i => start_of c + INR i * ((end_of c - start_of c) / INR (deg + 1))) (seq 0 (deg + 2)).
Inductive fits : segment -> Prop :=
| fits_const x e d v : numbers e [v] -> 0 < v -> fits {| sg_type := "const"; sg_x := x; sg_ei := e; sg_degree := d |}
| fits_linear x e d l : numbers e l -> length x = 2%nat -> length l = 2%nat -> Forall (Rlt 0) l -> fits {| sg_type := "linear"; sg_x := x; sg_ei := e; sg_degree := d |}
| fits_pwl x e d l : numbers e l -> length l = length x -> Forall (Rlt 0) l -> fits {| sg_type := "pwl"; sg_x := x; sg_ei := e; sg_degree := d |}
| fits_poly x e d l : numbers e l -> length l = length x -> Forall (Rlt 0) l -> fits {| sg_type := "poly"; sg_x := x; sg_ei := e; sg_degree := d |}
| fits_fun x f d : Forall (fun t => 0 < f t) (samples {| sg_type := "poly"; sg_x := x; sg_ei := EFun f; sg_degree := d |} (match d with Some n => n | None => 8 end)) ->
    fits {| sg_type := "poly"; sg_x := x; sg_ei := EFun f; sg_degree := d |}.
Definition acceptable (e : R) (c : segment) : Prop :=
  (2 <= length (sg_x c))%nat /\ rising (sg_x c) /\ abut e (start_of c) /\ fits c.

(** The segments accepted in a history of calls, and the state it leads to. *)
Inductive history (pf : list R -> list R -> nat -> list R) : list segment -> sect -> Prop :=
| h_new : history pf [] sect_empty
| h_accepted acc s c s' : history pf acc s -> call pf s c = (s', Ok tt) -> history pf (acc ++ [c]) s'
| h_rejected acc s c s' e : history pf acc s -> call pf s c = (s', Err e) -> history pf acc s'.

(** Pieces in order, without gap or overlap beyond the tolerance, from [a] to [b]. *)
Inductive chain : R -> list piece -> R -> Prop :=
| chain_nil a : chain a [] a
| chain_cons a p ps b : abut a (p_x0 p) -> p_x0 p < p_x1 p -> chain (p_x1 p) ps b -> chain a (p :: ps) b.
(** Segments that follow each other exactly, from [a] to [b]. *)
Inductive joined : R -> list segment -> R -> Prop :=
| joined_nil a : joined a [] a
| joined_cons a c cs b : start_of c = a -> joined (end_of c) cs b -> joined a (c :: cs) b.

(** The user's description of the rigidity between two stations of a segment. *)
Definition chord (xa xb ya yb t : R) : R := ya + (yb - ya) * ((t - xa) / (xb - xa)).
Inductive declares : segment -> R -> R -> (R -> R) -> Prop :=
| dec_const c v : sg_type c = "const" -> numbers (sg_ei c) [v] -> declares c (start_of c) (end_of c) (fun _ => v)
| dec_linear c l k : sg_type c = "linear" \/ sg_type c = "pwl" -> numbers (sg_ei c) l -> (S k < length (sg_x c))%nat ->
    declares c (nth k (sg_x c) 0) (nth (S k) (sg_x c) 0) (chord (nth k (sg_x c) 0) (nth (S k) (sg_x c) 0) (nth k l 0) (nth (S k) l 0)).
(** The coordinates at which the description changes. *)
Definition changes (c : segment) : list R :=
  if String.eqb (sg_type c) "linear" || String.eqb (sg_type c) "pwl" then List.tl (sg_x c) else [end_of c].
Fixpoint spaced (tol a : R) (l : list R) : Prop := match l with [] => True | b :: t => tol < b - a /\ spaced tol b t end.
(** A chord does not fall to zero within [d] of its end. *)
Definition gentle (d : R) (c : segment) : Prop :=
  forall lo hi f, declares c lo hi f -> forall t, hi <= t <= hi + d -> 0 < f t.
