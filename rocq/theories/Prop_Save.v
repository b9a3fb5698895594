(** C99: the files that [plot] and [save_tikz] write ([SaveSpec] says what should be there).
    [writable], [figure_file] and [latex] stand for the file system, matplotlib and pdflatex. *)
From Coq Require Import Ascii String ZArith.
From Verif Require Import Base LoadModel LoadSpec ElementModel BeamModel BeamSpec AnalysisModel AnalysisSpec AnalysisFacts3 ResultsModel ResultsSpec BridgeSpec UnitsModel
  RenderModel RenderSpec SchemModel SaveModel SaveSpec SaveFacts2 SaveFacts3.
Local Notation length := List.length.

(** TikZ gives the source or the path of a file, matplotlib the axes with the schematic added. *)
Theorem C99_backend : forall g uni us0 writable figure_file latex b d c d' v, plot g uni us0 writable figure_file latex b d c = (d', Done v) ->
  (wants_tikz c -> match c_save c with None => exists t, v = VText t | Some _ => exists q, v = VPath q end) /\
  (~ wants_tikz c -> exists pic, picture g uni us0 b c pic /\ v = VAxes (c_ax c ++ [pic])%list).
Proof. exact backend. Qed.
Print Assumptions C99_backend.

(** Without a target, TikZ gives what [to_tikz] gives, and no file changes. *)
Theorem C99_text : forall g uni us0 writable figure_file latex b d c, c_save c = None -> wants_tikz c ->
  plot g uni us0 writable figure_file latex b d c = (d, match to_tikz g uni us0 b (c_loads c) (c_kw c) with Ok t => Done (VText t) | Err e => Failed (Refused e) end).
Proof. exact returned_text. Qed.
Print Assumptions C99_text.

(** With a target, the [.tex] file beside it holds the complete document whatever [standalone]
    says, and nothing else changes; if a PDF is wanted, LaTeX has then run on that document
    without error, and the PDF returned exists. *)
Theorem C99_saved : forall g uni us0 writable figure_file latex b d c p d' v, plot g uni us0 writable figure_file latex b d c = (d', Done v) -> wants_tikz c -> c_save c = Some p ->
  exists q t d1, sibling p q "tex" /\ document g uni us0 b c t /\ holds d d1 q t /\
    (~ wants_pdf c -> d' = d1 /\ v = VPath q) /\
    (wants_pdf c -> exists run pdf, latex = Some run /\ run d1 q = (d', 0%Z) /\ sibling p pdf "pdf" /\ d' pdf <> None /\ v = VPath pdf).
Proof. exact saved_done. Qed.
Print Assumptions C99_saved.

(** matplotlib is handed the axes with the schematic; one file changes. *)
Theorem C99_figure : forall g uni us0 writable figure_file latex b d c p d' v, plot g uni us0 writable figure_file latex b d c = (d', Done v) -> ~ wants_tikz c -> c_save c = Some p ->
  exists pic q t, picture g uni us0 b c pic /\ figure_file p (c_ax c ++ [pic])%list = Ok (q, t) /\ holds d d' q t /\ v = VAxes (c_ax c ++ [pic])%list.
Proof. exact figure_done. Qed.
Print Assumptions C99_figure.

(** The document is written for all loads on the spans, if the file can be. *)
Theorem C99_draws : forall g uni us0 writable figure_file latex b d c p lm ls us,
  deck b -> length (b_R b) = (2 * (b_nspans b + 1))%nat -> resolve_lm b (c_loads c) = Ok lm -> parse_LM lm = Ok ls -> on_spans b ls ->
  k_supports (c_kw c) = None -> k_style (c_kw c) = false -> resolve us0 (k_units (c_kw c)) = Ok us ->
  wants_tikz c -> c_save c = Some p -> file p <> ""%string -> ~ wants_pdf c -> (forall q, sibling p q "tex" -> writable q = true) ->
  exists q t d', sibling p q "tex" /\ document g uni us0 b c t /\ plot g uni us0 writable figure_file latex b d c = (d', Done (VPath q)) /\ holds d d' q t.
Proof. exact saves. Qed.
Print Assumptions C99_draws.

(** A call that is refused leaves every file as it was (the source is complete before the file is
    opened); one that only fails to compile leaves the complete document behind. *)
Theorem C99_refused : forall g uni us0 writable figure_file latex b d c d' f, plot g uni us0 writable figure_file latex b d c = (d', Failed f) ->
  match f with
  | Refused _ | CannotWrite => d' = d
  | NoLatex | LatexFailed => exists p q t d1, c_save c = Some p /\ sibling p q "tex" /\ document g uni us0 b c t /\ holds d d1 q t /\
      match f with NoLatex => d' = d1 | _ => exists run, latex = Some run /\ d' = fst (run d1 q) end
  end.
Proof. exact refused_clean. Qed.
Print Assumptions C99_refused.

(** The file asked for is the file written and returned.  Full claim: for every target. *)
Theorem C99_asked_partial : forall g uni us0 writable figure_file latex b d c p s d' v, plot g uni us0 writable figure_file latex b d c = (d', Done v) -> c_save c = Some p ->
  (c_tikz c <> Some false -> splits (file p) s "tex" -> c_compile c = false -> v = VPath p /\ exists t, document g uni us0 b c t /\ holds d d' p t) /\
  (c_tikz c = Some true -> splits (file p) s "pdf" -> v = VPath p /\ d' p <> None /\
     exists q t d1 run, sibling p q "tex" /\ document g uni us0 b c t /\ holds d d1 q t /\ latex = Some run /\ run d1 q = (d', 0%Z)).
Proof.
  exact (fun g uni us0 w ff l b d c p s d' v H S => conj (fun T X K => asked_tex g uni us0 w ff l b d c p s d' v H T S X K) (fun T X => asked_pdf g uni us0 w ff l b d c p s d' v H T S X)).
Qed.
Print Assumptions C99_asked_partial.

(** [plot(save="fig.TEX")] is taken for TikZ, but overwrites fig.tex. *)
Theorem C99_case_refuted : forall g uni us0 writable figure_file latex d, (forall q, writable q = true) ->
  exists t d', plot g uni us0 writable figure_file latex sample_beam d (saving (GivenRows []) None "fig.TEX" false) = (d', Done (VPath {| in_dir := ""; file := "fig.tex" |})) /\
    holds d d' {| in_dir := ""; file := "fig.tex" |} t /\ d' {| in_dir := ""; file := "fig.TEX" |} = d {| in_dir := ""; file := "fig.TEX" |}.
Proof. exact upper_case. Qed.
Print Assumptions C99_case_refuted.

(** Two pictures saved under different names: the second replaces the first. *)
Theorem C99_names_refuted : forall g uni us0 writable figure_file latex d, (forall q, writable q = true) ->
  let c1 := saving (GivenRows [Row 1 1 [10%R]]) (Some true) "beam-1.5" false in
  let c2 := saving (GivenRows []) (Some true) "beam-1.6" false in
  let q := {| in_dir := ""; file := "beam-1.tex" |} in
  exists d1 d2 t1 t2, plot g uni us0 writable figure_file latex sample_beam d c1 = (d1, Done (VPath q)) /\ document g uni us0 sample_beam c1 t1 /\ d1 q = Some t1 /\
    plot g uni us0 writable figure_file latex sample_beam d1 c2 = (d2, Done (VPath q)) /\ document g uni us0 sample_beam c2 t2 /\ d2 q = Some t2 /\
    forall q', q' <> q -> d2 q' = d q'.
Proof. exact collide. Qed.
Print Assumptions C99_names_refuted.

(** After any series of calls without compilation, refused ones included, a file holds what the last call that
    writes it wrote; files that none writes are as before. *)
Theorem C99_history : forall g uni us0 writable figure_file latex b cs, Forall (fun c => wants_tikz c -> ~ wants_pdf c) cs -> forall d q,
  (exists before c after t, cs = (before ++ c :: after)%list /\ writes g uni us0 writable figure_file b c q t /\
     (forall c' t', In c' after -> ~ writes g uni us0 writable figure_file b c' q t') /\
     session g uni us0 writable figure_file latex b d cs q = Some t) \/
  ((forall c t, In c cs -> ~ writes g uni us0 writable figure_file b c q t) /\ session g uni us0 writable figure_file latex b d cs q = d q).
Proof. exact session_files. Qed.
Print Assumptions C99_history.

(** [save_tikz] does what [plot(tikz=True, save=...)] does, but does not compile for a target
    named [.pdf] unless told to. *)
Theorem C99_save_tikz : forall g uni us0 writable figure_file latex b d p s compile k ax, compile = true \/ (forall e, extension (file p) e -> ~ says_pdf e) ->
  beam_save_tikz g uni us0 writable latex b d p s compile k =
  plot g uni us0 writable figure_file latex b d {| c_loads := s; c_tikz := Some true; c_ax := ax; c_save := Some p; c_compile := compile; c_kw := k |}.
Proof. exact save_tikz_plot. Qed.
Print Assumptions C99_save_tikz.

Example C99_nonvacuous : forall g uni us0 writable figure_file latex d, (forall q, writable q = true) ->
  let cs := [saving (GivenRows []) None "a.tex" false; saving (GivenRows [Row 1 1 [10%R]]) (Some true) "b" false] in
  Forall (fun c => wants_tikz c -> ~ wants_pdf c) cs /\ exists t, session g uni us0 writable figure_file latex sample_beam d cs {| in_dir := ""; file := "b.tex" |} = Some t.
Proof. exact sample_session. Qed.
Example C99_compile_nonvacuous : forall g uni us0 d,
  exists d', plot g uni us0 (fun _ => true) as_named (Some prints) sample_beam d (saving (GivenRows []) (Some true) "fig.pdf" false) = (d', Done (VPath fig_pdf)).
Proof. exact compiles. Qed.
Example C99_figure_nonvacuous : forall g uni us0 d, exists pic,
  plot g uni us0 (fun _ => true) as_named None sample_beam d (saving (GivenRows []) None "fig.png" false) = (put d {| in_dir := ""; file := "fig.png" |} "image", Done (VAxes [pic])).
Proof. exact paints. Qed.
