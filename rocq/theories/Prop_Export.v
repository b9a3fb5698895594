(** Property theorems about exported tables (C84). *)
From Coq Require Import String Ascii Lia Lra.
From Verif Require Import Base BaseFacts SectionModel LoadModel ElementModel BeamModel AnalysisModel ResultsModel ResultsSpec ShapeFacts EnvelopeModel EnvelopeSpec BridgeSpec SpanModel SpanSpec EnvReadModel EnvReadSpec SpanSample EnvReadExample ExportModel ExportSpec ExportFacts.
Open Scope R_scope.
Local Notation length := List.length.
Local Open Scope list_scope.

(** C84: the text that an analysis writes reads back, field by field, as the table of its
    stations, moments, shears, rotations and deflections, one row per station under their
    names... *)
Theorem C84_results : forall gl ill a sps npts check a' r num float, analyze gl ill a sps npts check = (a', Ok r) -> (0 < an_npts a')%nat -> sound_grid (an_beam a) ->
  legible "," num float [r_x (br_all r); r_M (br_all r); r_V (br_all r); r_R (br_all r); r_D (br_all r)] -> exists s rows, results_csv num r csv_default = Ok s /\ read_table "," float s = Some (["x"; "M"; "V"; "R"; "D"]%string, rows) /\
    is_table [r_x (br_all r); r_M (br_all r); r_V (br_all r); r_R (br_all r); r_D (br_all r)] (length (r_x (br_all r))) rows.
Proof. exact (fun gl ill a sps npts check a' r num float E P S => results_read num float r (analysed_lengths gl ill a sps npts check a' r E P S)). Qed.
Print Assumptions C84_results.

(** ...and so does its data frame... *)
Theorem C84_frame : forall gl ill a sps npts check a' r, analyze gl ill a sps npts check = (a', Ok r) -> (0 < an_npts a')%nat -> sound_grid (an_beam a) ->
  results_frame r = Ok [("x", r_x (br_all r)); ("M", r_M (br_all r)); ("V", r_V (br_all r)); ("R", r_R (br_all r)); ("D", r_D (br_all r))]%string.
Proof. exact (fun gl ill a sps npts check a' r E P S => results_framed r (analysed_lengths gl ill a sps npts check a' r E P S)). Qed.
Print Assumptions C84_frame.

(** ...the text of an envelope reads back as its stations and the arrays asked for, in the
    order asked for... *)
Theorem C84_envelope : forall num float vr e attrs, env_init vr = Ok e -> on_stations (e_x e) vr -> (forall a, In a attrs -> In a (map fst (named_arrays e))) -> legible "," num float (map snd (named_arrays e)) ->
  exists s rows arrays, env_csv num e attrs csv_default = Ok s /\ read_table "," float s = Some ("x"%string :: attrs, rows) /\
    Forall2 (fun a c => In (a, c) (named_arrays e)) attrs arrays /\ is_table (e_x e :: arrays) (length (e_x e)) rows.
Proof. exact env_read. Qed.
Print Assumptions C84_envelope.

(** ...its data frame has each of them once... *)
Theorem C84_envelope_frame : forall vr e attrs, env_init vr = Ok e -> on_stations (e_x e) vr -> (forall a, In a attrs -> In a (map fst (named_arrays e))) ->
  exists d, env_frame e attrs = Ok d /\ NoDup (map fst d) /\ forall a c, In (a, c) d <-> In (a, c) (named_arrays e) /\ (a = "x"%string \/ In a attrs).
Proof. exact env_framed. Qed.
Print Assumptions C84_envelope_frame.

(** ...an attribute that the envelope does not have is refused... *)
Theorem C84_unknown : forall num e attrs o a, In a attrs -> ~ In a ("Rmaxval" :: "Rminval" :: map fst (named_arrays e))%string ->
  (forall b, In b (filter (fun b => negb (String.eqb a b)) attrs) -> In b (map fst (named_arrays e))) -> env_csv num e attrs o = Err AttributeError.
Proof. exact env_unknown. Qed.
Print Assumptions C84_unknown.

(** ...and the reactions, which are by support and not by station, are not exported. *)
Theorem C84_reactions : forall num vr e o, env_init vr = Ok e -> on_stations (e_x e) vr -> e_nsup e <> length (e_x e) ->
  env_csv num e ["Rmaxval"]%string o = Err ValueError /\ env_frame e ["Rmaxval"]%string = Err ValueError.
Proof. exact env_reactions. Qed.
Print Assumptions C84_reactions.

(** A delimiter and a header that the caller gives are used as given... *)
Theorem C84_own_header : forall gl ill a sps npts check a' r num float c h hs, analyze gl ill a sps npts check = (a', Ok r) -> (0 < an_npts a')%nat -> sound_grid (an_beam a) ->
  legible c num float [r_x (br_all r); r_M (br_all r); r_V (br_all r); r_R (br_all r); r_D (br_all r)] -> ascii_of_nat 10 <> c -> hs <> [] -> Forall (fun n => without c n /\ without (ascii_of_nat 10) n) hs -> h = join (String c "") hs -> h <> ""%string ->
  exists s rows, results_csv num r {| c_delimiter := Some (String c ""); c_header := Some h; c_comments := None |} = Ok s /\ read_table c float s = Some (hs, rows) /\
    is_table [r_x (br_all r); r_M (br_all r); r_V (br_all r); r_R (br_all r); r_D (br_all r)] (length (r_x (br_all r))) rows.
Proof. exact (fun gl ill a sps npts check a' r num float c h hs E P S => own_header num float r c h hs (analysed_lengths gl ill a sps npts check a' r E P S)). Qed.
Print Assumptions C84_own_header.

(** ...but when only the delimiter is given, the names of the columns stay separated by commas:
    a reader of fields separated by semicolons sees one name over five columns. *)
Theorem C84_delimiter_refuted : forall gl ill a sps npts check a' r num float, analyze gl ill a sps npts check = (a', Ok r) -> (0 < an_npts a')%nat -> sound_grid (an_beam a) ->
  legible ";" num float [r_x (br_all r); r_M (br_all r); r_V (br_all r); r_R (br_all r); r_D (br_all r)] -> exists s rows, results_csv num r {| c_delimiter := Some ";"%string; c_header := None; c_comments := None |} = Ok s /\
    read_table ";" float s = Some (["x,M,V,R,D"]%string, rows) /\
    is_table [r_x (br_all r); r_M (br_all r); r_V (br_all r); r_R (br_all r); r_D (br_all r)] (length (r_x (br_all r))) rows.
Proof. exact (fun gl ill a sps npts check a' r num float E P S => other_delimiter num float r (analysed_lengths gl ill a sps npts check a' r E P S)). Qed.
Print Assumptions C84_delimiter_refuted.

(** Before an analysis nothing is written. *)
Theorem C84_no_results : forall num o, analysis_csv num None o = Ok None /\ analysis_frame None = Ok None.
Proof. exact (fun num o => conj eq_refl eq_refl). Qed.
Print Assumptions C84_no_results.

(** An analysis of one span, and a format for its numbers. *)
Example C84_nonvacuous : forall gl ill, exists a a' r, analysis_init (span_ctor 6 2) = Ok a /\ analyze gl ill a (fun _ => []) None true = (a', Ok r) /\ (0 < an_npts a')%nat /\ sound_grid (an_beam a).
Proof. exact own_sample. Qed.
Example C84_formats_nonvacuous : forall c cols, "1"%char <> c -> exists num float, legible c num float cols.
Proof. exact some_format. Qed.
