(** Independent specification of the annotations of the TikZ source. *)
From Coq Require Import ZArith Ascii String.
From Verif Require Import Base SectionModel LoadModel LoadSpec ElementModel UtilsModel BeamModel BeamSpec AnalysisModel AnalysisSpec ResultsModel ResultsSpec BridgeSpec UnitsModel RenderModel RenderSpec.
Open Scope R_scope.
Local Open Scope string_scope.

(** A unit after a separator, nothing if there is none. *)
Definition with_unit (sep u : string) : string := if String.eqb u "" then "" else sep ++ u.

(** [W] is the largest intensity among the distributed loads, 1 if all are zero. *)
Definition largest (l : list dload) (W : R) : Prop :=
  (forall q, In q l -> (Rabs (d_w0 q) <= W)%R /\ (Rabs (d_w1 q) <= W)%R) /\
  ((0 < W)%R /\ (exists q, In q l /\ (Rabs (d_w0 q) = W \/ Rabs (d_w1 q) = W)) \/
   W = 1%R /\ forall q, In q l -> d_w0 q = 0%R /\ d_w1 q = 0%R).

(** How an intensity is written: one number if it is constant, else the two at the ends. *)
Definition intensity_text (fmt : R -> string) (q : dload) : string :=
  if Rlt_dec (Rabs (d_w0 q - d_w1 q)) (/ 10^9) then "$" ++ fmt (Rabs (d_w0 q)) ++ "$"
  else "$" ++ fmt (Rabs (d_w0 q)) ++ "\rightarrow" ++ fmt (Rabs (d_w1 q)) ++ "$".

(** A load that starts or ends away from the ends of its span [m] (by more than a millionth of
    the length of the beam, or of 1). *)
Definition covers_part (b : beam) (m : nat) (q : dload) : Prop :=
  let eps := (/ 10^6 * Rmax (b_length b) 1)%R in
  (node_at b m + eps < d_x0 q)%R \/ (d_x1 q < node_at b (S m) - eps)%R.

(** The lines [ls], with [name i] the name of node [i] and [fmt] the printing of numbers, give
    the span lengths if [dims], the values of the loads and the extent of those that cover part
    of a span if [show], with units; clamps face outwards, the height of a distributed load
    follows its intensity, and hinges and simple supports carry a circle. *)
Record annotated (fmt : R -> string) (name : nat -> string) (b : beam) (p : plotter) (dims show : bool) (us : unit_system) (ls : list string) : Prop := {
  an_dims : dims = true -> forall m, (m < b_nspans b)%nat -> exists d,
    In (tab ++ "\dimensioning{1}{" ++ name m ++ "}{" ++ name (S m) ++ "}{" ++ d ++ "}[$" ++ fmt (span_length b m) ++ "$" ++ with_unit "~" (us_length us) ++ "];") ls;
  an_forces : show = true -> forall k q, nth_error (dr_pts (pl_loads p)) k = Some q ->
    In (tab ++ "\notation{1}{pl" ++ digits k ++ "}{$" ++ fmt (Rabs (p_P q)) ++ "$" ++ with_unit " " (us_force us) ++ "}[above=20mm];") ls;
  an_moments : show = true -> forall k q, nth_error (dr_moms (pl_loads p)) k = Some q ->
    In (tab ++ "\notation{2}{ml" ++ digits k ++ "}{$" ++ fmt (Rabs (m_M q)) ++ "$" ++ with_unit " " (us_moment us) ++ "}[above=5mm];") ls;
  an_dist : show = true -> forall k q, nth_error (dr_dist (pl_loads p)) k = Some q ->
    In (tab ++ "\notation{5}{dl" ++ digits k ++ "a}{dl" ++ digits k ++ "b}[" ++ intensity_text fmt q ++ with_unit " " (us_distributed us) ++ "][0.5][above=8mm];") ls;
  an_extent : show = true -> forall k q m, nth_error (dr_dist (pl_loads p)) k = Some q -> d_span q = Z.of_nat m -> (m < b_nspans b)%nat -> covers_part b m q ->
    exists d, In (tab ++ "\dimensioning{1}{dl" ++ digits k ++ "a}{dl" ++ digits k ++ "b}{" ++ d ++ "}[$" ++ fmt (d_x1 q - d_x0 q)%R ++ "$" ++ with_unit "~" (us_length us) ++ "];") ls;
  an_heights : exists W, largest (dr_dist (pl_loads p)) W /\ forall k q, nth_error (dr_dist (pl_loads p)) k = Some q ->
    In (tab ++ "\lineload{1}{dl" ++ digits k ++ "a}{dl" ++ digits k ++ "b}[" ++ fmt (3/10 + 4/10 * Rabs (d_w0 q) / W)%R ++ "]["
        ++ fmt (3/10 + 4/10 * Rabs (d_w1 q) / W)%R ++ "];") ls;
  an_clamps : forall s, In s (pl_supports p) -> s_kind s = KFixed ->
    (s_node s = 0%nat -> In (tab ++ "\support{4}{" ++ name 0%nat ++ "}[-90];") ls) /\
    (s_node s = b_nspans b -> In (tab ++ "\support{4}{" ++ name (b_nspans b) ++ "}[90];") ls);
  an_circles : forall s, In s (pl_supports p) -> s_kind s = KPin \/ s_kind s = KRoller ->
    (s_node s = 0%nat \/ s_node s = b_nspans b -> In (tab ++ "\hinge{1}{" ++ name (s_node s) ++ "};") ls) /\
    (forall i, s_node s = S i -> s_node s <> b_nspans b ->
       In (tab ++ "\hinge{2}{" ++ name (S i) ++ "}[" ++ name i ++ "][" ++ name (S (S i)) ++ "];") ls);
  an_hinges : forall h, In h (pl_hinges p) -> (forall s, In s (pl_supports p) -> s_node s = h_node h -> s_kind s <> KPin /\ s_kind s <> KRoller) ->
    In (tab ++ "\hinge{1}{" ++ name (h_node h) ++ "};") ls }.

(** A complete LaTeX document around a picture. *)
Definition document (text body : string) : Prop := exists preamble,
  text = "\documentclass" ++ preamble ++ "\begin{document}" ++ newline ++ body ++ newline ++ "\end{document}" ++ newline.
(** A picture environment. *)
Definition picture (body : string) : Prop := exists r, body = "\begin{tikzpicture}" ++ r ++ "\end{tikzpicture}".
