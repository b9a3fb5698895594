(** Property theorems: the drawn load patterns (C89). *)
From Coq Require Import ZArith String Lia.
From Verif Require Import Base LoadModel LoadSpec LoadCasesModel LoadCasesSpec PatPlotModel PatPlotSpec PatPlotFacts.
Open Scope R_scope.
Local Notation length := List.length.

(** C89: for a case with distributed load the bars cover exactly the stretches of the beam that
    its rows load.  Missing: trapezoids of which only the start is given, see below. *)
Theorem C89_regions_partial : forall Ls c, Forall (well_placed Ls) (pc_loads c) -> (exists r g, In r (pc_loads c) /\ ~ open_trapezoid r /\ covers Ls r g) ->
  exists bars, loaded_regions Ls c = Ok bars /\ forall g, drawn bars g <-> exists r, In r (pc_loads c) /\ ~ open_trapezoid r /\ covers Ls r g.
Proof. intros Ls c F E. destruct (regions_total Ls c F) as (bars & H). exists bars. split; [exact H|exact (regions_exact Ls c bars F E H)]. Qed.
Print Assumptions C89_regions_partial.

(** C89: in particular every point that a row of the case loads is drawn loaded. *)
Theorem C89_loaded_partial : forall Ls c bars r i x, Forall (well_placed Ls) (pc_loads c) -> loaded_regions Ls c = Ok bars -> In r (pc_loads c) -> ~ open_trapezoid r ->
  (i < length Ls)%nat -> 0 <= x <= nth i Ls 0 -> row_intensity Ls i x r <> 0 -> drawn bars (start Ls i + x).
Proof.
  intros Ls c bars r i x F H I N Hi Hx Hq. pose proof (intensity_covers Ls i x r Hi Hx Hq) as C.
  apply (regions_exact Ls c bars F (ex_intro _ r (ex_intro _ _ (conj I (conj N C)))) H). exists r. auto.
Qed.
Print Assumptions C89_loaded_partial.

(** C89: a case without distributed load shows the spans it names as loaded, or those that have a
    load when it names none. *)
Theorem C89_spans : forall Ls c, Forall concentrated (pc_loads c) -> exists bars, loaded_regions Ls c = Ok bars /\
  forall g, drawn bars g <-> exists i, (i < length Ls)%nat /\ names_span c i /\ start Ls i <= g <= start Ls i + nth i Ls 0.
Proof. exact regions_spans. Qed.
Print Assumptions C89_spans.

(** C89: the cases of a patterned uniform load show one segment each, next to one another. *)
Theorem C89_segments : forall Ls w n cs, Forall (Rlt 0) Ls -> make_patterned_udl Ls w n = Ok cs -> forall sp,
  exists cuts, (forall i, cuts i 0%nat = 0 /\ cuts i n = nth i Ls 0) /\ length cs = (length Ls * n)%nat /\
  forall i j, (i < length Ls)%nat -> (j < n)%nat -> cuts i j < cuts i (S j) /\
    exists c, nth_error cs (i * n + j) = Some c /\ loaded_regions Ls {| pc_name := Some (lc_name c); pc_loads := lc_loads c; pc_spans := sp |} = Ok [(start Ls i + cuts i j, cuts i (S j) - cuts i j)].
Proof. exact segments_drawn. Qed.
Print Assumptions C89_segments.

(** C89: the plot has one row per case, in order, with its name (or number), all spans and the
    loaded stretches. *)
Theorem C89_rows : forall Ls cs rows, pattern_rows Ls cs = Ok rows -> length rows = length cs /\
  forall j c, nth_error cs j = Some c -> exists bars, loaded_regions Ls c = Ok bars /\
    nth_error rows j = Some (match pc_name c with Some s => s | None => ("LC " ++ dec (j + 1))%string end, map (fun i => (start Ls i, nth i Ls 0)) (seq 0 (length Ls)), bars).
Proof. exact rows_drawn. Qed.
Print Assumptions C89_rows.

(** The documentation says that the spans a case names are shown as loaded.  They are not: with
    any distributed load they are ignored. *)
Theorem C89_named_spans_refuted : forall Ls c sp, Forall (well_placed Ls) (pc_loads c) -> (exists r g, In r (pc_loads c) /\ ~ open_trapezoid r /\ covers Ls r g) ->
  loaded_regions Ls {| pc_name := pc_name c; pc_loads := pc_loads c; pc_spans := sp |} = loaded_regions Ls c.
Proof. exact regions_given. Qed.
Print Assumptions C89_named_spans_refuted.

(** A trapezoid that gives its start but no length is analysed up to the end of its span, but not
    drawn. *)
Theorem C89_open_trapezoid_refuted : forall Ls c o, Forall (well_placed Ls) (pc_loads c) -> (exists r g, In r (pc_loads c) /\ ~ open_trapezoid r /\ covers Ls r g) -> open_trapezoid o ->
  loaded_regions Ls {| pc_name := pc_name c; pc_loads := pc_loads c ++ [o]; pc_spans := pc_spans c |} = loaded_regions Ls c.
Proof. exact regions_open. Qed.
Print Assumptions C89_open_trapezoid_refuted.

(** Two spans, the first loaded from 2 m to 5 m, a point load on the second, and a case naming
    the second span. *)
Definition part_case : pcase := {| pc_name := None; pc_loads := [Row 1 3 [4; 2; 3]; Row 2 2 [7; 1; 0]]; pc_spans := [1%Z] |}.
Example C89_nonvacuous : Forall (well_placed [6; 8]) (pc_loads part_case) /\ (exists r g, In r (pc_loads part_case) /\ ~ open_trapezoid r /\ covers [6; 8] r g) /\
  row_intensity [6; 8] 0 3 (Row 1 3 [4; 2; 3]) <> 0 /\ loaded_regions [6; 8] part_case = Ok [(start [6; 8] 0 + 2, 2 + 3 - 2)] /\
  ~ drawn [(start [6; 8] 0 + 2, 2 + 3 - 2)] (start [6; 8] 1 + 4) /\ names_span part_case 1.
Proof.
  assert (W : Forall (well_placed [6; 8]) (pc_loads part_case)).
  { repeat constructor; try (eexists; reflexivity); try (inversion H1; subst; destruct H0 as (t & args & E); injection E as E _ _; assert (i = 0%nat) as -> by lia; cbn; lra). }
  assert (O : on_span 0 (Row 1 3 [4; 2; 3])) by (do 2 eexists; reflexivity).
  assert (N : ~ open_trapezoid (Row 1 3 [4; 2; 3])) by (intros (? & ? & ? & ? & E); discriminate).
  split; [exact W|]. split; [|split; [|split; [|split]]].
  - exists (Row 1 3 [4; 2; 3]), 3. split; [left; reflexivity|]. split; [exact N|]. exists 0%nat, 2, (2 + 3). split; [cbn; lia|]. split; [exact O|]. split; [constructor|]. cbn. lra.
  - cbn. destruct (Rlt_dec 3 2); [lra|]. destruct (Rlt_dec (2 + 3) 3); lra.
  - unfold loaded_regions. cbn [part_case pc_loads mapM]. rewrite (bar_spread [6; 8] _ 0 2 (2 + 3)); [reflexivity| |exact N|cbn; lia|exact O|constructor]. inversion W; assumption.
  - intros (x & l & [E|[]] & H). injection E as <- <-. cbn in H. lra.
  - cbn. auto.
Qed.
Example C89_nonvacuous_more : (exists cs, make_patterned_udl [6; 8] 5 3 = Ok cs) /\ (exists rows, pattern_rows [6; 8] [{| pc_name := None; pc_loads := [Row 2 2 [7; 1; 0]]; pc_spans := [] |}] = Ok rows) /\
  open_trapezoid (Row 2 5 [1; 2; 3]) /\ row_intensity [6; 8] 1 5 (Row 2 5 [1; 2; 3]) <> 0.
Proof.
  split; [eexists; reflexivity|]. split; [eexists; reflexivity|]. split; [do 4 eexists; reflexivity|]. cbn. destruct (Rlt_dec 5 3); [lra|]. destruct (Rlt_dec (3 + (8 - 3)) 5); lra.
Qed.
