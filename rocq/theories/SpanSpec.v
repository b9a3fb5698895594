(** Independent specification of the per-span values of an envelope. *)
From Coq Require Import String.
From Verif Require Import Base SectionModel LoadModel BeamModel AnalysisModel ResultsModel EnvelopeModel EnvelopeSpec BridgeSpec SpanModel.
Open Scope R_scope.
Local Notation length := List.length.
Local Open Scope list_scope.

(** Results of members with [cs] stations, one after the other in the arrays of the beam. *)
Record spanwise (cs : list nat) (r : bres) : Prop := {
  sw_all : br_all r = mres_concat (br_mem r);
  sw_counts : map (fun m => length (r_x m)) (br_mem r) = cs;
  sw_some : Forall (lt 0) cs;
  sw_values : Forall (fun m => length (r_M m) = length (r_x m) /\ length (r_V m) = length (r_x m)) (br_mem r) }.
(** All values of an effect in member [i] over the analyses [vr]. *)
Definition member_values (f : mres -> list R) (i : nat) (vr : list bres) : list R :=
  flat_map (fun r => match nth_error (br_mem r) i with Some m => f m | None => [] end) vr.
(** [cs] cuts [vs] into the values of each of the members. *)
Definition cut (ms : list mres) (vs : list R) (cs : list (list R)) : Prop :=
  concat cs = vs /\ Forall2 (fun m c => length c = length (r_x m)) ms cs.
(** The extreme that [reduce] stands for: for "auto" the least of an attribute whose name ends
    in "min", the greatest of any other. *)
Inductive stands_for (attr : string) : string -> (list R -> R -> Prop) -> Prop :=
| for_max : stands_for attr "max" greatest
| for_min : stands_for attr "min" least
| for_auto_min p : attr = (p ++ "min")%string -> stands_for attr "auto" least
| for_auto_max : (forall p, attr <> (p ++ "min")%string) -> stands_for attr "auto" greatest.
(** Per-span values of attribute [attr] for [n] spans, each with the property [ext]. *)
Definition reports (e : env) (r0 : bres) (attr : string) (n : nat) (ext : nat -> R -> Prop) : Prop :=
  exists vs, per_span e r0 attr "auto" = Ok (Values vs) /\ length vs = n /\ forall i v, nth_error vs i = Some v -> ext i v.
(** The arrays of an envelope by the names of its attributes. *)
Definition named_arrays (e : env) : list (string * list R) :=
  [("x", e_x e); ("Vmax", e_Vmax e); ("Vmin", e_Vmin e); ("Mmax", e_Mmax e); ("Mmin", e_Mmin e);
   ("Vco_Mmax", e_VcoMmax e); ("Vco_Mmin", e_VcoMmin e); ("Mco_Vmax", e_McoVmax e); ("Mco_Vmin", e_McoVmin e)]%string.
