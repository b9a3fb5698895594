(** What [plot] returns and writes. *)
From Coq Require Import Ascii String ZArith.
From Verif Require Import Base BaseFacts BeamModel BeamSpec AnalysisModel AnalysisFacts3 UnitsModel RenderModel RenderSpec RenderFacts4 RenderFacts5 SchemModel SchemFacts4 SaveModel SaveSpec SaveFacts.
Local Notation length := List.length.
Local Open Scope string_scope.

Section S.
Variable g : R -> string.
Variable uni : nat -> string.
Variable us0 : unit_system.
Variable writable : path -> bool.
Variable figure_file : path -> list schem -> result (path * string).
Variable latex : option (disk -> path -> disk * Z).
Notation plot := (plot g uni us0 writable figure_file latex).
Notation document := (document g uni us0).
Notation picture := (picture g uni us0).
Notation writes := (writes g uni us0 writable figure_file).

Lemma use_tikz_spec c : use_tikz c = true <-> wants_tikz c.
Proof.
  unfold use_tikz, wants_tikz. destruct (c_tikz c) as [[|]|].
  - split; [left; reflexivity|reflexivity].
  - split; [discriminate|]. intros [H|[H _]]; discriminate.
  - destruct (c_save c) as [p|].
    + rewrite suffix_tex. split.
      * intros (e & X & T). right. split; [reflexivity|]. exists p, e. repeat split; assumption.
      * intros [H|(_ & p' & e & P & X & T)]; [discriminate|]. injection P as <-. exists e. split; assumption.
    + split; [discriminate|]. intros [H|(_ & p' & e & P & _)]; discriminate.
Qed.
Lemma use_mpl_spec c : use_tikz c = false <-> ~ wants_tikz c.
Proof. rewrite <- use_tikz_spec. destruct (use_tikz c); split; congruence. Qed.

Lemma wants_pdf_spec c p : c_save c = Some p -> ((if String.eqb (lower (suffix (file p))) ".pdf" then true else c_compile c) = true <-> wants_pdf c).
Proof.
  intros P. unfold wants_pdf. destruct (String.eqb (lower (suffix (file p))) ".pdf") eqn:Q.
  - apply suffix_pdf in Q as (e & X & T). split; [|reflexivity]. intros _. right. exists p, e. repeat split; assumption.
  - split; [left; assumption|]. intros [H|(p' & e & P' & X & T)]; [exact H|]. rewrite P in P'. injection P' as <-.
    rewrite (proj2 (suffix_pdf (file p)) (ex_intro _ e (conj X T))) in Q. discriminate.
Qed.

Lemma wrap_full body : full_document body (wrap_standalone body).
Proof.
  unfold full_document, wrap_standalone.
  exists ("\documentclass[tikz,border=5pt]{standalone}" ++ newline ++ "\usepackage[utf8]{inputenc}" ++ newline
  ++ "\usepackage{stanli}" ++ newline ++ "\usepackage{tikz}" ++ newline
  ++ "\usetikzlibrary{arrows.meta,arrows,positioning,calc,backgrounds}" ++ newline
  ++ "\begin{document}" ++ newline), (newline ++ "\end{document}" ++ newline).
  split; [reflexivity|]. split; [reflexivity|]. split; [|reflexivity].
  exists ("\documentclass[tikz,border=5pt]{standalone}" ++ newline ++ "\usepackage[utf8]{inputenc}" ++ newline
  ++ "\usepackage{stanli}" ++ newline ++ "\usepackage{tikz}" ++ newline
  ++ "\usetikzlibrary{arrows.meta,arrows,positioning,calc,backgrounds}" ++ newline). reflexivity.
Qed.

Lemma standalone_tikz pl k t : call_tikz g uni us0 pl (with_standalone k true) = Ok t ->
  exists body, call_tikz g uni us0 pl (with_standalone k false) = Ok body /\ t = wrap_standalone body.
Proof.
  unfold call_tikz, with_standalone; cbn [k_standalone k_scale k_dimensions k_labels k_values k_units k_supports k_style default].
  destruct (given (k_supports k) || k_style k); [discriminate|]. destruct (resolve us0 (k_units k)) as [us|]; [|discriminate]. cbn [rbind]. unfold render_tikz.
  destruct (tikz_lines _ _ _ _ _ _ _ _) as [ls|]; [|discriminate]. cbn [rbind]. intros E. injection E as <-. eexists. split; reflexivity.
Qed.
Lemma document_iff b c pl t : beam_plotter b (c_loads c) = Ok pl -> (call_tikz g uni us0 pl (stand_alone (c_kw c)) = Ok t <-> document b c t).
Proof.
  intros B. unfold SaveSpec.document, to_tikz. rewrite B. cbn [rbind]. split.
  - intros T. split; [exact T|]. destruct (standalone_tikz _ _ _ T) as (body & TB & ->). exists body. split; [exact TB|]. apply wrap_full.
  - intros (T & _). exact T.
Qed.

Lemma picture_iff b c pl pic : beam_plotter b (c_loads c) = Ok pl -> (call_mpl g uni us0 pl (c_kw c) = Ok pic <-> picture b c pic).
Proof.
  intros B. unfold SaveSpec.picture, call_mpl. set (k := c_kw c). split.
  - destruct (k_standalone k) eqn:K1; [discriminate|]. destruct (k_scale k) eqn:K2; [discriminate|]. cbn [given orb]. intros H. exists pl. eexists. split; [exact B|]. split; [exact H|].
    cbn [mo_dimensions mo_labels mo_values mo_supports mo_units]. unfold option_is, default.
    destruct (k_dimensions k), (k_labels k), (k_values k), (k_supports k); repeat split.
  - intros (pl' & o & B' & H & O1 & O2 & O3 & O4 & O5 & K1 & K2). rewrite B in B'. injection B' as <-. rewrite K1, K2. cbn [given orb]. rewrite <- H. f_equal. destruct o; cbn in *.
    unfold option_is, default in *. destruct (k_dimensions k), (k_labels k), (k_values k), (k_supports k); congruence.
Qed.

(** ** The backends *)
Lemma backend b d c d' v : plot b d c = (d', Done v) ->
  (wants_tikz c -> match c_save c with None => exists t, v = VText t | Some _ => exists q, v = VPath q end) /\
  (~ wants_tikz c -> exists pic, picture b c pic /\ v = VAxes (c_ax c ++ [pic])%list).
Proof.
  unfold SaveModel.plot. destruct (beam_plotter b (c_loads c)) as [pl|] eqn:B; [|discriminate]. destruct (use_tikz c) eqn:U.
  - intros H. split; [|intros N; apply use_tikz_spec in U; destruct (N U)]. intros _. destruct (c_save c) as [p|].
    + revert H. unfold save_tikz. destruct (tex_path p) as [q|]; [|discriminate]. destruct (call_tikz _ _ _ _ _) as [t|]; [|discriminate]. destruct (writable q); [|discriminate].
      destruct (if String.eqb _ _ then _ else _).
      * unfold compile_tex. destruct latex as [run|]; [|discriminate]. destruct (run _ _) as [d1 code]. destruct (with_suffix q ".pdf") as [r|]; [|discriminate].
        destruct (_ || _); [discriminate|]. intros E. injection E as _ <-. eexists. reflexivity.
      * intros E. injection E as _ <-. eexists. reflexivity.
    + destruct (call_tikz _ _ _ _ _) as [t|]; [|discriminate]. injection H as _ <-. eexists. reflexivity.
  - intros H. split; [intros W; apply use_tikz_spec in W; congruence|]. intros _. destruct (call_mpl _ _ _ _ _) as [pic|] eqn:M; [|discriminate]. exists pic. split; [apply (picture_iff b c pl pic B), M|].
    destruct (c_save c) as [p|]; [|injection H as _ <-; reflexivity]. destruct (figure_file _ _) as [[q t]|]; [|discriminate]. destruct (writable q); [|discriminate]. injection H as _ <-. reflexivity.
Qed.

Lemma returned_text b d c : c_save c = None -> wants_tikz c ->
  plot b d c = (d, match to_tikz g uni us0 b (c_loads c) (c_kw c) with Ok t => Done (VText t) | Err e => Failed (Refused e) end).
Proof.
  intros S W. apply use_tikz_spec in W. unfold SaveModel.plot, to_tikz. destruct (beam_plotter b (c_loads c)) as [pl|]; [|reflexivity]. rewrite W, S. cbn [rbind].
  destruct (call_tikz _ _ _ _ _); reflexivity.
Qed.

(** ** Files of TikZ *)
Lemma tikz_saved b d c p d' r : plot b d c = (d', r) -> wants_tikz c -> c_save c = Some p ->
  (d' = d /\ (exists e, r = Failed (Refused e)) /\ (file p = "" \/ forall t, ~ document b c t)) \/
  (file p <> "" /\ exists q t, sibling p q "tex" /\ document b c t /\
    ((d' = d /\ r = Failed CannotWrite /\ writable q = false) \/
     (writable q = true /\ exists d1, holds d d1 q t /\
       ((~ wants_pdf c /\ d' = d1 /\ r = Done (VPath q)) \/
        (wants_pdf c /\ latex = None /\ d' = d1 /\ r = Failed NoLatex) \/
        (wants_pdf c /\ exists run code pdf, latex = Some run /\ run d1 q = (d', code) /\ sibling p pdf "pdf" /\
           ((code = 0%Z /\ d' pdf <> None /\ r = Done (VPath pdf)) \/ ((code <> 0%Z \/ d' pdf = None) /\ r = Failed LatexFailed))))))).
Proof.
  unfold SaveModel.plot. intros H W S. apply use_tikz_spec in W.
  destruct (beam_plotter b (c_loads c)) as [pl|] eqn:B.
  2: { injection H as <- <-. left. split; [reflexivity|]. split; [eexists; reflexivity|]. right. intros t (T & _). unfold to_tikz in T. rewrite B in T. discriminate. }
  rewrite W, S in H. pose proof (wants_pdf_spec c p S) as WP. destruct (if String.eqb _ _ then _ else _) eqn:K in H; rewrite K in WP; clear K.
  all: unfold save_tikz in H; destruct (string_dec (file p) "") as [N|N];
    [destruct (tex_path_err p N) as (e & E); rewrite E in H; injection H as <- <-; left; split; [reflexivity|]; split; [eexists; reflexivity|left; exact N]|].
  all: destruct (tex_path_ok p N) as (q & E & SB); rewrite E in H; destruct (call_tikz g uni us0 pl (stand_alone (c_kw c))) as [t|x] eqn:T;
    [|injection H as <- <-; left; split; [reflexivity|]; split; [eexists; reflexivity|]; right; intros t D; apply (document_iff b c pl t B) in D; congruence].
  all: right; split; [exact N|]; exists q, t; split; [exact SB|]; split; [apply (document_iff b c pl t B), T|]; destruct (writable q) eqn:WQ;
    [right; split; [reflexivity|]; exists (put d q t); split; [apply put_holds|]|left; injection H as <- <-; repeat split].
  - right. unfold compile_tex in H. pose proof (proj1 WP eq_refl) as WF. destruct latex as [run|].
    2: { left. injection H as <- <-. repeat split. exact WF. }
    right. split; [exact WF|]. destruct (run (put d q t) q) as [d2 code] eqn:RN. destruct (pdf_of_tex p q N SB) as (pdf & WS & SP). rewrite WS in H. exists run, code, pdf. split; [reflexivity|].
    destruct (Z.eqb_spec code 0) as [C|C]; cbn [negb orb] in H.
    + destruct (d2 pdf) as [x|] eqn:X; cbn [given negb orb] in H; injection H as <- <-; (split; [exact RN|]); (split; [exact SP|]).
      * left. split; [exact C|]. split; [rewrite X; discriminate|reflexivity].
      * right. split; [right; exact X|reflexivity].
    + injection H as <- <-. split; [exact RN|]. split; [exact SP|]. right. split; [left; exact C|reflexivity].
  - left. injection H as <- <-. split; [|split; reflexivity]. intros X. apply WP in X. discriminate.
Qed.

Lemma mpl_saved b d c d' r : plot b d c = (d', r) -> ~ wants_tikz c ->
  (d' = d /\ (exists e, r = Failed (Refused e)) /\ forall pic p, picture b c pic -> c_save c = Some p -> exists e, figure_file p (c_ax c ++ [pic])%list = Err e) \/
  (exists pic, picture b c pic /\
    match c_save c with
    | None => d' = d /\ r = Done (VAxes (c_ax c ++ [pic])%list)
    | Some p => exists q t, figure_file p (c_ax c ++ [pic])%list = Ok (q, t) /\
        ((writable q = true /\ holds d d' q t /\ r = Done (VAxes (c_ax c ++ [pic])%list)) \/ (writable q = false /\ d' = d /\ r = Failed CannotWrite))
    end).
Proof.
  unfold SaveModel.plot. intros H W. apply use_mpl_spec in W.
  destruct (beam_plotter b (c_loads c)) as [pl|] eqn:B.
  2: { injection H as <- <-. left. split; [reflexivity|]. split; [eexists; reflexivity|]. intros pic p (pl & o & B' & _). congruence. }
  rewrite W in H. destruct (call_mpl g uni us0 pl (c_kw c)) as [pic|e] eqn:M.
  2: { injection H as <- <-. left. split; [reflexivity|]. split; [eexists; reflexivity|]. intros pic p P. apply (picture_iff b c pl pic B) in P. congruence. }
  pose proof (proj1 (picture_iff b c pl pic B) M) as PC. destruct (c_save c) as [p|] eqn:S.
  - destruct (figure_file p (c_ax c ++ [pic])%list) as [[q t]|e] eqn:F.
    + right. exists pic. split; [exact PC|]. exists q, t. split; [exact F|]. destruct (writable q) eqn:WQ; injection H as <- <-; [left|right]; repeat split. exact (proj1 (put_holds d q t)). exact (proj2 (put_holds d q t)).
    + injection H as <- <-. left. split; [reflexivity|]. split; [eexists; reflexivity|]. intros pic' p' P' E. injection E as <-.
      apply (picture_iff b c pl pic' B) in P'. rewrite M in P'. injection P' as <-. exists e. exact F.
  - injection H as <- <-. right. exists pic. repeat split. exact PC.
Qed.

Lemma wants_dec c : wants_tikz c \/ ~ wants_tikz c.
Proof. destruct (use_tikz c) eqn:U; [left; apply use_tikz_spec, U|right; apply use_mpl_spec, U]. Qed.

(** A call that does not get as far as writing leaves every file alone. *)
Lemma refused_clean b d c d' f : plot b d c = (d', Failed f) -> match f with Refused _ | CannotWrite => d' = d | NoLatex | LatexFailed =>
  exists p q t d1, c_save c = Some p /\ sibling p q "tex" /\ document b c t /\ holds d d1 q t /\
    match f with NoLatex => d' = d1 | _ => exists run, latex = Some run /\ d' = fst (run d1 q) end end.
Proof.
  intros H. destruct (wants_dec c) as [W|W].
  - destruct (c_save c) as [p|] eqn:S.
    + destruct (tikz_saved b d c p d' _ H W S) as [(-> & (e & E) & _)|(N & q & t & SB & D & Q)]; [injection E as ->; reflexivity|].
      destruct Q as [(-> & E & _)|(_ & d1 & HD & Q)]; [injection E as ->; reflexivity|].
      destruct Q as [(_ & _ & E)|[(_ & _ & -> & E)|(_ & run & code & pdf & L & RN & _ & Q)]]; [discriminate| |].
      * injection E as ->. exists p, q, t, d1. split; [reflexivity|]. split; [exact SB|]. split; [exact D|]. split; [exact HD|]. reflexivity.
      * destruct Q as [(_ & _ & E)|(_ & E)]; [discriminate|]. injection E as ->. exists p, q, t, d1. split; [reflexivity|]. split; [exact SB|]. split; [exact D|]. split; [exact HD|]. exists run. split; [exact L|]. rewrite RN. reflexivity.
    + rewrite (returned_text b d c S W) in H. destruct (to_tikz _ _ _ _ _ _); [discriminate|]. injection H as <- <-. reflexivity.
  - destruct (mpl_saved b d c d' _ H W) as [(-> & (e & E) & _)|(pic & P & Q)]; [injection E as ->; reflexivity|].
    destruct (c_save c) as [p|]; [|destruct Q as [_ E]; discriminate]. destruct Q as (q & t & _ & [(_ & _ & E)|(_ & -> & E)]); [discriminate|]. injection E as ->. reflexivity.
Qed.

(** ** The file asked for *)
Lemma asked_tex b d c p s d' v : plot b d c = (d', Done v) -> c_tikz c <> Some false -> c_save c = Some p -> splits (file p) s "tex" -> c_compile c = false ->
  v = VPath p /\ exists t, document b c t /\ holds d d' p t.
Proof.
  intros H NT S SP CP.
  assert (W : wants_tikz c).
  { destruct (c_tikz c) as [[|]|] eqn:E; [left; exact E|destruct (NT eq_refl)|]. right. split; [exact E|]. exists p, "tex". split; [exact S|]. split; [exists s; exact SP|].
    exists "t"%char, "e"%char, "x"%char. split; [reflexivity|]. repeat split; left; reflexivity. }
  assert (NP : ~ wants_pdf c).
  { intros [X|(p' & e & P' & (s' & SP') & T)]; [congruence|]. rewrite S in P'. injection P' as <-. destruct (splits_unique _ _ _ _ _ SP SP') as [_ <-].
    destruct T as (x & y & z & E & [-> | ->] & _); discriminate. }
  destruct (tikz_saved b d c p d' _ H W S) as [(_ & (e & E) & _)|(N & q & t & SB & D & Q)]; [discriminate|].
  assert (EQ : q = p). { apply (sibling_unique p q p "tex" SB). split; [reflexivity|]. exists s. split; [left; exists "tex"; exact SP|exact (proj1 SP)]. } subst q.
  destruct Q as [(_ & E & _)|(_ & d1 & HD & Q)]; [discriminate|].
  destruct Q as [(_ & -> & E)|[(X & _)|(X & _)]]; [|destruct (NP X)|destruct (NP X)]. injection E as ->. split; [reflexivity|]. exists t. split; [exact D|exact HD].
Qed.
Lemma asked_pdf b d c p s d' v : plot b d c = (d', Done v) -> c_tikz c = Some true -> c_save c = Some p -> splits (file p) s "pdf" ->
  v = VPath p /\ d' p <> None /\ exists q t d1 run, sibling p q "tex" /\ document b c t /\ holds d d1 q t /\ latex = Some run /\ run d1 q = (d', 0%Z).
Proof.
  intros H TK S SP.
  assert (W : wants_tikz c) by (left; exact TK).
  assert (NP : wants_pdf c).
  { right. exists p, "pdf". split; [exact S|]. split; [exists s; exact SP|]. exists "p"%char, "d"%char, "f"%char. split; [reflexivity|]. repeat split; left; reflexivity. }
  destruct (tikz_saved b d c p d' _ H W S) as [(_ & (e & E) & _)|(N & q & t & SB & D & Q)]; [discriminate|].
  destruct Q as [(_ & E & _)|(_ & d1 & HD & Q)]; [discriminate|].
  destruct Q as [(X & _)|[(_ & _ & _ & E)|(_ & run & code & pdf & L & RN & SQ & Q)]]; [destruct (X NP)|discriminate|].
  destruct Q as [(-> & E & V)|(_ & V)]; [|discriminate]. injection V as ->.
  assert (EQ : pdf = p). { apply (sibling_unique p pdf p "pdf" SQ). split; [reflexivity|]. exists s. split; [left; exists "pdf"; exact SP|exact (proj1 SP)]. } subst pdf.
  split; [reflexivity|]. split; [exact E|]. exists q, t, d1, run. exact (conj SB (conj D (conj HD (conj L RN)))).
Qed.

(** ** Sessions *)
Definition plain (c : call) : Prop := wants_tikz c -> ~ wants_pdf c.
Lemma plot_step b d c q : plain c -> (exists t, writes b c q t /\ fst (plot b d c) q = Some t) \/ ((forall t, ~ writes b c q t) /\ fst (plot b d c) q = d q).
Proof.
  intros PL. destruct (plot b d c) as [d' r] eqn:H. cbn [fst]. destruct (wants_dec c) as [W|W].
  - destruct (c_save c) as [p|] eqn:S.
    + destruct (tikz_saved b d c p d' _ H W S) as [(-> & _ & X)|(N & q' & t & SB & D & Q)].
      * right. split; [|reflexivity]. intros t (_ & p' & S' & [(_ & N & _ & D)|(X' & _)]); [|destruct (X' W)]. rewrite S in S'. injection S' as <-. destruct X as [X|X]; [destruct (N X)|destruct (X t D)].
      * destruct Q as [(-> & _ & WR)|(WR & d1 & HD & Q)].
        -- right. split; [|reflexivity]. intros t' (WR' & p' & S' & [(_ & _ & SB' & _)|(X' & _)]); [|destruct (X' W)]. rewrite S in S'. injection S' as <-. rewrite (sibling_unique _ _ _ _ SB' SB) in WR'. congruence.
        -- destruct Q as [(_ & -> & _)|[(X & _)|(X & _)]]; [|destruct (PL W X)|destruct (PL W X)].
           destruct (path_eqb q q') eqn:EQ.
           ++ apply path_eqb_eq in EQ as ->. left. exists t. split; [|exact (proj1 HD)]. split; [exact WR|]. exists p. split; [exact S|]. left. exact (conj W (conj N (conj SB D))).
           ++ right. assert (NE : q <> q') by (intros E; apply path_eqb_eq in E; congruence). split; [|exact (proj2 HD q NE)].
              intros t' (_ & p' & S' & [(_ & _ & SB' & _)|(X' & _)]); [|destruct (X' W)]. rewrite S in S'. injection S' as <-. exact (NE (sibling_unique _ _ _ _ SB' SB)).
    + right. rewrite (returned_text b d c S W) in H. injection H as <- _. split; [|reflexivity]. intros t (_ & p' & S' & _). congruence.
  - destruct (mpl_saved b d c d' _ H W) as [(-> & _ & X)|(pic & P & Q)].
    + right. split; [|reflexivity]. intros t (_ & p' & S' & [(W' & _)|(_ & pic & P & F)]); [destruct (W W')|]. destruct (X pic p' P S') as (e & E). congruence.
    + destruct (c_save c) as [p|] eqn:S.
      * assert (UP : forall pic', picture b c pic' -> pic' = pic).
        { intros pic' P'. assert (BX : exists pl, beam_plotter b (c_loads c) = Ok pl) by (destruct P as (pl & o & B & _); exists pl; exact B). destruct BX as (pl & B).
          apply (picture_iff b c pl pic' B) in P'. pose proof (proj2 (picture_iff b c pl pic B) P) as P2. congruence. }
        destruct Q as (q' & t & F & [(WR & HD & _)|(WR & -> & _)]).
        -- destruct (path_eqb q q') eqn:EQ.
           ++ apply path_eqb_eq in EQ as ->. left. exists t. split; [|exact (proj1 HD)]. split; [exact WR|]. exists p. split; [exact S|]. right. split; [exact W|]. exists pic. split; assumption.
           ++ right. assert (NE : q <> q') by (intros E; apply path_eqb_eq in E; congruence). split; [|exact (proj2 HD q NE)].
              intros t' (_ & p' & S' & [(W' & _)|(_ & pic' & P' & F')]); [destruct (W W')|]. rewrite S in S'. injection S' as <-. rewrite (UP pic' P') in F'. rewrite F in F'. injection F' as E _. exact (NE (eq_sym E)).
        -- right. split; [|reflexivity]. intros t' (WR' & p' & S' & [(W' & _)|(_ & pic' & P' & F')]); [destruct (W W')|]. rewrite S in S'. injection S' as <-. rewrite (UP pic' P') in F'. rewrite F in F'. injection F' as <- _. congruence.
      * right. destruct Q as [-> _]. split; [|reflexivity]. intros t (_ & p' & S' & _). congruence.
Qed.

Lemma session_files b cs : Forall plain cs -> forall d q,
  (exists before c after t, cs = (before ++ c :: after)%list /\ writes b c q t /\ (forall c' t', In c' after -> ~ writes b c' q t') /\
     session g uni us0 writable figure_file latex b d cs q = Some t) \/
  ((forall c t, In c cs -> ~ writes b c q t) /\ session g uni us0 writable figure_file latex b d cs q = d q).
Proof.
  induction 1 as [|c cs P _ IH]; intros d q; [right; split; [intros c t []|reflexivity]|]. cbn [session].
  destruct (IH (fst (plot b d c)) q) as [(l1 & c' & l2 & t & -> & WR & L & E)|(L & E)].
  - left. exists (c :: l1)%list, c', l2, t. split; [reflexivity|]. split; [exact WR|]. split; [exact L|exact E].
  - destruct (plot_step b d c q P) as [(t & WR & X)|(NW & X)].
    + left. exists nil, c, cs, t. split; [reflexivity|]. split; [exact WR|]. split; [intros c' t' I; exact (L c' t' I)|]. rewrite E. exact X.
    + right. split; [|rewrite E; exact X]. intros c' t' [<-|I]; [apply NW|exact (L c' t' I)].
Qed.
End S.

Section S2.
Variable g : R -> string.
Variable uni : nat -> string.
Variable us0 : unit_system.
Variable writable : path -> bool.
Variable figure_file : path -> list schem -> result (path * string).
Variable latex : option (disk -> path -> disk * Z).

Lemma saved_done b d c p d' v : plot g uni us0 writable figure_file latex b d c = (d', Done v) -> wants_tikz c -> c_save c = Some p ->
  exists q t d1, sibling p q "tex" /\ document g uni us0 b c t /\ holds d d1 q t /\
    (~ wants_pdf c -> d' = d1 /\ v = VPath q) /\
    (wants_pdf c -> exists run pdf, latex = Some run /\ run d1 q = (d', 0%Z) /\ sibling p pdf "pdf" /\ d' pdf <> None /\ v = VPath pdf).
Proof.
  intros H W S. destruct (tikz_saved g uni us0 writable figure_file latex b d c p d' _ H W S) as [(_ & (e & E) & _)|(N & q & t & SB & D & Q)]; [discriminate|].
  destruct Q as [(_ & E & _)|(_ & d1 & HD & Q)]; [discriminate|]. exists q, t, d1. split; [exact SB|]. split; [exact D|]. split; [exact HD|].
  destruct Q as [(X & -> & E)|[(_ & _ & _ & E)|(X & run & code & pdf & L & RN & SQ & Q)]]; [|discriminate|].
  - injection E as ->. split; [intros _; split; reflexivity|]. intros Y. destruct (X Y).
  - split; [intros Y; destruct (Y X)|]. intros _. destruct Q as [(-> & E & V)|(_ & V)]; [|discriminate]. injection V as ->. exists run, pdf. exact (conj L (conj RN (conj SQ (conj E eq_refl)))).
Qed.
Lemma figure_done b d c p d' v : plot g uni us0 writable figure_file latex b d c = (d', Done v) -> ~ wants_tikz c -> c_save c = Some p ->
  exists pic q t, picture g uni us0 b c pic /\ figure_file p (c_ax c ++ [pic])%list = Ok (q, t) /\ holds d d' q t /\ v = VAxes (c_ax c ++ [pic])%list.
Proof.
  intros H W S. destruct (mpl_saved g uni us0 writable figure_file latex b d c d' _ H W) as [(_ & (e & E) & _)|(pic & P & Q)]; [discriminate|]. rewrite S in Q.
  destruct Q as (q & t & F & [(_ & HD & V)|(_ & _ & V)]); [|discriminate]. injection V as ->. exists pic, q, t. exact (conj P (conj F (conj HD eq_refl))).
Qed.
End S2.
