(** Calls that draw; the file asked for and the file written; examples. *)
From Coq Require Import Ascii String ZArith.
From Verif Require Import Base BaseFacts LoadModel LoadSpec ElementModel BeamModel BeamSpec AnalysisModel AnalysisSpec AnalysisFacts3 ResultsModel ResultsSpec BridgeSpec UnitsModel RenderModel RenderSpec RenderFacts2 RenderFacts4 RenderFacts5 SchemModel SchemFacts4 SaveModel SaveSpec SaveFacts SaveFacts2.
Local Notation length := List.length.
Local Open Scope string_scope.

Definition no_kw : kwargs := {| k_standalone := None; k_scale := None; k_dimensions := None; k_labels := None; k_values := None; k_units := UNone; k_supports := None; k_style := false |}.
Definition saving (s : source) (tikz : option bool) (name : string) (compile : bool) : call :=
  {| c_loads := s; c_tikz := tikz; c_ax := nil; c_save := Some {| in_dir := ""; file := name |}; c_compile := compile; c_kw := no_kw |}.

Section S.
Variable g : R -> string.
Variable uni : nat -> string.
Variable us0 : unit_system.

Lemma document_exists b c lm ls us : deck b -> length (b_R b) = (2 * (b_nspans b + 1))%nat -> resolve_lm b (c_loads c) = Ok lm -> parse_LM lm = Ok ls -> on_spans b ls ->
  k_supports (c_kw c) = None -> k_style (c_kw c) = false -> resolve us0 (k_units (c_kw c)) = Ok us -> exists t, document g uni us0 b c t.
Proof.
  intros K LR RS PL OS K1 K2 U. destruct (draws b (c_loads c) lm ls K LR RS PL OS) as (p & P & PM).
  destruct (drawable g uni b (c_loads c) p ls (default (k_scale (c_kw c)) None) (default (k_dimensions (c_kw c)) true) (default (k_labels (c_kw c)) true) (default (k_values (c_kw c)) true) us K P ltac:(rewrite PM; exact PL) OS) as (lines & T).
  eexists. apply (document_iff g uni us0 b c p _ P). unfold call_tikz, stand_alone. cbn [k_standalone k_scale k_dimensions k_labels k_values k_units k_supports k_style].
  rewrite K1, K2, U. cbn [given orb rbind]. unfold render_tikz. rewrite T. cbn [rbind]. reflexivity.
Qed.

(** A call with TikZ and a target that can be written writes and returns it. *)
Lemma saves writable figure_file latex b d c p lm ls us : deck b -> length (b_R b) = (2 * (b_nspans b + 1))%nat -> resolve_lm b (c_loads c) = Ok lm -> parse_LM lm = Ok ls -> on_spans b ls ->
  k_supports (c_kw c) = None -> k_style (c_kw c) = false -> resolve us0 (k_units (c_kw c)) = Ok us ->
  wants_tikz c -> c_save c = Some p -> file p <> "" -> ~ wants_pdf c -> (forall q, sibling p q "tex" -> writable q = true) ->
  exists q t d', sibling p q "tex" /\ document g uni us0 b c t /\ plot g uni us0 writable figure_file latex b d c = (d', Done (VPath q)) /\ holds d d' q t.
Proof.
  intros K LR RS PL OS K1 K2 U W S N NP WR. destruct (document_exists b c lm ls us K LR RS PL OS K1 K2 U) as (t0 & D0).
  destruct (plot g uni us0 writable figure_file latex b d c) as [d' r] eqn:H.
  destruct (tikz_saved g uni us0 writable figure_file latex b d c p d' r H W S) as [(_ & _ & [X|X])|(_ & q & t & SB & D & Q)]; [destruct (N X)|destruct (X t0 D0)|].
  exists q, t, d'. split; [exact SB|]. split; [exact D|]. destruct Q as [(_ & _ & X)|(_ & d1 & HD & Q)]; [rewrite (WR q SB) in X; discriminate|].
  destruct Q as [(_ & -> & ->)|[(X & _)|(X & _)]]; [|destruct (NP X)|destruct (NP X)]. split; [reflexivity|exact HD].
Qed.

(** [save_tikz] is [plot(tikz=True, save=...)], but for targets named [.pdf]. *)
Lemma save_tikz_plot writable figure_file latex b d p s compile k ax : compile = true \/ (forall e, extension (file p) e -> ~ says_pdf e) ->
  beam_save_tikz g uni us0 writable latex b d p s compile k =
  plot g uni us0 writable figure_file latex b d {| c_loads := s; c_tikz := Some true; c_ax := ax; c_save := Some p; c_compile := compile; c_kw := k |}.
Proof.
  intros H. unfold beam_save_tikz, plot, use_tikz. cbn [c_loads c_tikz c_save c_compile c_kw]. destruct (beam_plotter b s) as [pl|]; [|reflexivity].
  destruct (String.eqb (lower (suffix (file p))) ".pdf") eqn:Q; [|reflexivity]. destruct H as [-> | H]; [reflexivity|].
  apply suffix_pdf in Q as (e & X & T). destruct (H e X T).
Qed.

Lemma sample_saves (writable : path -> bool) figure_file latex d lm ls tikz name q : parse_LM lm = Ok ls -> on_spans sample_beam ls ->
  wants_tikz (saving (GivenRows lm) tikz name false) -> ~ wants_pdf (saving (GivenRows lm) tikz name false) -> name <> "" ->
  sibling {| in_dir := ""; file := name |} q "tex" -> writable q = true ->
  exists t d', document g uni us0 sample_beam (saving (GivenRows lm) tikz name false) t /\
    plot g uni us0 writable figure_file latex sample_beam d (saving (GivenRows lm) tikz name false) = (d', Done (VPath q)) /\ holds d d' q t.
Proof.
  intros P O W NP N SB WQ.
  destruct (saves writable figure_file latex sample_beam d (saving (GivenRows lm) tikz name false) {| in_dir := ""; file := name |} lm ls us0 deck_sample eq_refl eq_refl P O eq_refl eq_refl eq_refl W eq_refl N NP)
    as (q' & t & d' & SB' & D & H & HD).
  - intros q' SB'. rewrite (sibling_unique _ _ _ _ SB' SB). exact WQ.
  - rewrite (sibling_unique _ _ _ _ SB' SB) in H, HD. exists t, d'. split; [exact D|]. split; [exact H|exact HD].
Qed.

Lemma tex_sib s e : s <> "" -> e <> "" -> dotless e -> sibling {| in_dir := ""; file := s ++ "." ++ e |} {| in_dir := ""; file := s ++ "." ++ "tex" |} "tex".
Proof. intros N E D. split; [reflexivity|]. exists s. split; [left; exists e; split; [reflexivity|]; split; [exact N|]; split; [exact E|exact D]|reflexivity]. Qed.
Lemma no_pdf lm tikz s e : s <> "" -> e <> "" -> dotless e -> ~ says_pdf e -> ~ wants_pdf (saving (GivenRows lm) tikz (s ++ "." ++ e) false).
Proof.
  intros N E D X [H|(p & e' & P & (s' & SP) & T)]; [discriminate|]. injection P as <-. cbn [file] in SP.
  destruct (splits_unique _ _ _ _ _ (conj eq_refl (conj N (conj E D))) SP) as [_ <-]. exact (X T).
Qed.

(** [save="fig.TEX"] writes fig.tex. *)
Lemma upper_case writable figure_file latex d : (forall q, writable q = true) ->
  exists t d', plot g uni us0 writable figure_file latex sample_beam d (saving (GivenRows []) None "fig.TEX" false) = (d', Done (VPath {| in_dir := ""; file := "fig.tex" |})) /\
    holds d d' {| in_dir := ""; file := "fig.tex" |} t /\ d' {| in_dir := ""; file := "fig.TEX" |} = d {| in_dir := ""; file := "fig.TEX" |}.
Proof.
  intros WR. assert (DL : dotless "TEX") by (intros [|a [|b [|c [|x y]]]] r; cbn; discriminate).
  destruct (sample_saves writable figure_file latex d [] [] None "fig.TEX" {| in_dir := ""; file := "fig.tex" |} eq_refl (Forall_nil _)) as (t & d' & _ & H & HD).
  - apply use_tikz_spec. reflexivity.
  - apply (no_pdf [] None "fig" "TEX"); try discriminate; [exact DL|]. intros (a & b & c & E & [-> | ->] & _); discriminate.
  - discriminate.
  - apply (tex_sib "fig" "TEX"); try discriminate. exact DL.
  - apply WR.
  - exists t, d'. split; [exact H|]. split; [exact HD|]. apply (proj2 HD). discriminate.
Qed.

Lemma digit_dotless a : a <> "."%char -> dotless (String a "").
Proof. intros N [|b [|c x]] r; cbn; try discriminate. intros E. injection E as E. exact (N E). Qed.
(** [tikz=True, save="beam-1.5"] and then [save="beam-1.6"] both write beam-1.tex. *)
Lemma collide writable figure_file latex d : (forall q, writable q = true) ->
  let c1 := saving (GivenRows [Row 1 1 [10%R]]) (Some true) "beam-1.5" false in
  let c2 := saving (GivenRows []) (Some true) "beam-1.6" false in
  let q := {| in_dir := ""; file := "beam-1.tex" |} in
  exists d1 d2 t1 t2, plot g uni us0 writable figure_file latex sample_beam d c1 = (d1, Done (VPath q)) /\ document g uni us0 sample_beam c1 t1 /\ d1 q = Some t1 /\
    plot g uni us0 writable figure_file latex sample_beam d1 c2 = (d2, Done (VPath q)) /\ document g uni us0 sample_beam c2 t2 /\ d2 q = Some t2 /\
    forall q', q' <> q -> d2 q' = d q'.
Proof.
  intros WR c1 c2 q. assert (O : on_spans sample_beam [(0%Z, LUDL 10)]) by (apply Forall_cons; [cbn; lia|apply Forall_nil]).
  assert (DL : forall a, a <> "."%char -> dotless (String a "")) by apply digit_dotless.
  assert (NP : forall a, ~ says_pdf (String a "")) by (intros a (x & y & z & E & _); discriminate).
  destruct (sample_saves writable figure_file latex d [Row 1 1 [10%R]] _ (Some true) "beam-1.5" q eq_refl O) as (t1 & d1 & D1 & H1 & HD1).
  { left; reflexivity. } { apply (no_pdf _ _ "beam-1" "5"); try discriminate; [apply DL; discriminate|apply NP]. } { discriminate. } { apply (tex_sib "beam-1" "5"); try discriminate. apply DL; discriminate. } { apply WR. }
  destruct (sample_saves writable figure_file latex d1 [] [] (Some true) "beam-1.6" q eq_refl (Forall_nil _)) as (t2 & d2 & D2 & H2 & HD2).
  { left; reflexivity. } { apply (no_pdf _ _ "beam-1" "6"); try discriminate; [apply DL; discriminate|apply NP]. } { discriminate. } { apply (tex_sib "beam-1" "6"); try discriminate. apply DL; discriminate. } { apply WR. }
  exists d1, d2, t1, t2. split; [exact H1|]. split; [exact D1|]. split; [exact (proj1 HD1)|]. split; [exact H2|]. split; [exact D2|]. split; [exact (proj1 HD2)|].
  intros q' NE. rewrite (proj2 HD2 q' NE). exact (proj2 HD1 q' NE).
Qed.

Lemma sample_session writable figure_file latex d : (forall q, writable q = true) ->
  let cs := [saving (GivenRows []) None "a.tex" false; saving (GivenRows [Row 1 1 [10%R]]) (Some true) "b" false] in
  Forall plain cs /\ exists t, session g uni us0 writable figure_file latex sample_beam d cs {| in_dir := ""; file := "b.tex" |} = Some t.
Proof.
  intros WR cs. assert (NA : plain (saving (GivenRows []) None "a.tex" false)).
  { intros _. apply (no_pdf [] None "a" "tex"); try discriminate; [apply tex_dotless|]. intros (a & b & c & E & [-> | ->] & _); discriminate. }
  assert (NE : forall e, ~ extension "b" e) by (intros e (s & SP); pose proof (suffix_splits _ _ _ SP) as E; vm_compute in E; discriminate).
  assert (NB : plain (saving (GivenRows [Row 1 1 [10%R]]) (Some true) "b" false)).
  { intros _ [H|(p & e & P & X & _)]; [discriminate|]. injection P as <-. exact (NE e X). }
  split; [repeat constructor; assumption|]. unfold cs. cbn [session].
  assert (O : on_spans sample_beam [(0%Z, LUDL 10)]) by (apply Forall_cons; [cbn; lia|apply Forall_nil]).
  destruct (sample_saves writable figure_file latex (fst (plot g uni us0 writable figure_file latex sample_beam d (saving (GivenRows []) None "a.tex" false))) [Row 1 1 [10%R]] _ (Some true) "b" {| in_dir := ""; file := "b.tex" |} eq_refl O)
    as (t2 & d2 & D2 & H2 & HD2).
  { left; reflexivity. } { apply NB. left; reflexivity. } { discriminate. } { split; [reflexivity|]. exists "b". split; [right; split; [exact NE|reflexivity]|reflexivity]. } { apply WR. }
  exists t2. rewrite H2. exact (proj1 HD2).
Qed.
End S.

(** Compilation and matplotlib on a concrete beam. *)
Section E.
Variable g : R -> string.
Variable uni : nat -> string.
Variable us0 : unit_system.
Definition fig_pdf : path := {| in_dir := ""; file := "fig.pdf" |}.
Definition prints : disk -> path -> disk * Z := fun d _ => (put d fig_pdf "%PDF", 0%Z).
Definition as_named : path -> list schem -> result (path * string) := fun p _ => Ok (p, "image").

Lemma compiles d : exists d', plot g uni us0 (fun _ => true) as_named (Some prints) sample_beam d (saving (GivenRows []) (Some true) "fig.pdf" false) = (d', Done (VPath fig_pdf)).
Proof.
  destruct (document_exists g uni us0 sample_beam (saving (GivenRows []) (Some true) "fig.pdf" false) [] [] us0 deck_sample eq_refl eq_refl eq_refl (Forall_nil _) eq_refl eq_refl eq_refl) as (t & D).
  destruct (sample_draws [] [] eq_refl (Forall_nil _)) as (p & P & _). apply (document_iff g uni us0 sample_beam (saving (GivenRows []) (Some true) "fig.pdf" false) p t P) in D.
  eexists. unfold plot. change (c_loads _) with (GivenRows []). rewrite P. cbn [use_tikz c_tikz saving c_save]. unfold save_tikz. change (tex_path _) with (Ok {| in_dir := ""; file := "fig.tex" |}). cbv iota.
  rewrite D. reflexivity.
Qed.
Lemma paints d : exists pic, plot g uni us0 (fun _ => true) as_named None sample_beam d (saving (GivenRows []) None "fig.png" false) = (put d {| in_dir := ""; file := "fig.png" |} "image", Done (VAxes [pic])).
Proof.
  destruct (sample_pic g uni [] [] us0 {| mo_dimensions := false; mo_labels := true; mo_values := true; mo_supports := true; mo_units := UNone |} us0 eq_refl (Forall_nil _) (Forall_nil _) eq_refl) as (p & pic & B & _ & RR & _).
  exists pic. unfold plot. change (c_loads _) with (GivenRows []). rewrite B. change (use_tikz _) with false. cbv iota. unfold call_mpl. cbn [c_kw saving no_kw k_standalone k_scale given orb k_dimensions k_labels k_values k_supports k_units default]. rewrite RR. reflexivity.
Qed.
End E.
