(** Proofs about the picture of the reactions. *)
From Coq Require Import ZArith String.
From Verif Require Import Base BaseFacts SectionModel LoadModel ElementModel BeamModel BeamSpec AnalysisModel AnalysisSpec AnalysisFacts2 AnalysisFacts3 ResultsModel ResultsFacts UnitsModel BridgeSpec
  RenderModel RenderSpec RenderFacts RenderFacts2 InPlotModel InPlotSpec InPlotFacts2 SchemModel SchemSpec SchemFacts SchemFacts2 SchemFacts3 SchemFacts4 SymbolModel SymbolSpec SymbolFacts.
Local Notation length := List.length.
Local Open Scope list_scope.
Open Scope R_scope.

Section G.
Variable g : R -> string.
Variable uni : nat -> string.

(** [moment_drawn] for any radius and size. *)
Lemma arc_drawn us L r sh show q : 0 < r -> 0 < sh -> moment_shown g us L show q (draw_moment g us r sh show q).
Proof.
  intros HR HS. pose proof cos22 as C22.
  set (a := radians (if Rleb 0 (m_M q) then 230 else -50)).
  set (e := if Rleb 0 (m_M q) then PI / 2 else - (PI / 2)).
  assert (HD : heading (draw_moment g us r sh show q) = (0.5 * sh * cos (radians 22) * - cos (a + e + PI), 0.5 * sh * cos (radians 22) * - sin (a + e + PI))).
  { unfold heading, draw_moment; cbn [mg_tip mg_back fst snd]. fold a e. rewrite back_middle. unfold minus; cbn [fst snd]. f_equal; ring. }
  assert (CE : cos (a + e + PI) = - cos (a + e)) by apply neg_cos. assert (SE : sin (a + e + PI) = - sin (a + e)) by apply neg_sin.
  assert (RAD : minus (mg_tip (draw_moment g us r sh show q)) (mg_centre (draw_moment g us r sh show q)) = (r * cos a, r * sin a)).
  { unfold draw_moment, minus; cbn [mg_tip mg_centre fst snd]. fold a. f_equal; ring. }
  pose proof (sin2_cos2 a) as SC. unfold Rsqr in SC.
  assert (S : 0 < r * (0.5 * sh * cos (radians 22))) by (apply Rmult_lt_0_compat; [lra|]; apply Rmult_lt_0_compat; lra).
  split; try (rewrite HD, RAD; rewrite CE, SE; unfold dot, cross; cbn [fst snd]).
  - reflexivity.
  - cbn [draw_moment mg_radius]. lra.
  - cbn [draw_moment mg_arc fst snd]. lra.
  - unfold circle_point, draw_moment; cbn [mg_tip mg_centre mg_radius mg_arc fst snd]. unfold radians.
    destruct (Rleb_spec 0 (m_M q)), (Rle_dec 0 (m_M q)); try contradiction; try lra; f_equal; ring.
  - unfold e. destruct (Rleb 0 (m_M q)).
    + rewrite cos_plus, sin_plus, cos_PI2, sin_PI2. ring.
    + rewrite cos_plus, sin_plus, cos_neg, sin_neg, cos_PI2, sin_PI2. ring.
  - intros H. unfold e. destruct (Rleb_spec 0 (m_M q)); [|lra]. rewrite cos_plus, sin_plus, cos_PI2, sin_PI2.
    replace (_ - _) with (r * (0.5 * sh * cos (radians 22)) * (sin a * sin a + cos a * cos a)) by ring. rewrite SC. lra.
  - intros H. unfold e. destruct (Rleb_spec 0 (m_M q)); [lra|]. rewrite cos_plus, sin_plus, cos_neg, sin_neg, cos_PI2, sin_PI2.
    replace (_ - _) with (- (r * (0.5 * sh * cos (radians 22)) * (sin a * sin a + cos a * cos a))) by ring. rewrite SC. lra.
  - intros ->. reflexivity.
  - intros ->. unfold draw_moment; cbn [mg_text mg_radius]. unfold fmt_moment. rewrite worth_val. eexists. split; [reflexivity|lra].
Qed.

Lemma react_length_pos sh m v : 0 < sh -> 0 <= m -> 2.2 * sh <= react_length sh m v.
Proof.
  intros H M. unfold react_length. destruct (Reqb_spec m 0) as [|N]; [lra|]. pose proof (Rabs_pos v). assert (0 <= Rabs v / m) by (apply Rmult_le_pos; [lra|left; apply Rinv_0_lt_compat; lra]). nra.
Qed.
Lemma reaction_drawn us sh m x v : 0 < sh -> 0 <= m -> reaction_shown g us x v (draw_reaction g us sh m x v).
Proof.
  intros H M. pose proof (react_length_pos sh m v H M) as LN. unfold draw_reaction. set (len := react_length sh m v) in *. clearbody len.
  split; cbn [rg_arrow rg_text ca_at ca_text].
  - destruct (Rleb 0 v); cbn; auto.
  - intros V. destruct (Rleb_spec 0 v); [|lra]. cbn. lra.
  - intros V. destruct (Rleb_spec 0 v); [lra|]. cbn. lra.
  - exists (round_sig (Rabs v)). split; [apply sig_near|]. unfold fmt_force. apply worth_val.
  - destruct (Rleb 0 v); cbn; lra.
Qed.
Lemma reaction_reach us sh m x v : 0 < sh -> 0 <= m -> react_reach (draw_reaction g us sh m x v) = react_length sh m v.
Proof.
  intros H M. pose proof (react_length_pos sh m v H M) as LN. unfold react_reach, draw_reaction; cbn [rg_arrow]. destruct (Rleb 0 v); cbn [ar_head ar_tail snd]; [rewrite Rabs_right|rewrite Rabs_left]; lra.
Qed.
Lemma turning_drawn us L sh x M : 0 < sh -> turning_shown g us L x M (draw_turning g us sh x M).
Proof. intros H. exists (round_sig M). split; [apply sig_near|]. apply arc_drawn; lra. Qed.

(** What a picture of reactions is made of. *)
Lemma plot_parts us0 b br u rp : deck b -> plot_reactions g uni us0 b (Some br) u = Ok (Some rp) ->
  exists us p V M o, let sh := 0.05 * deck_length b in let m := fold_left Rmax (map (fun q => Rabs (snd q)) V) 0 in
    resolve us0 u = Ok us /\ beam_plotter b (GivenRows []) = Ok p /\ render_mpl g uni us0 p o = Ok (rp_schem rp) /\ mo_supports o = true /\ no_loads (pl_loads p) = true /\
    reactions_by_node b {| o_d := br_D br; o_R := br_R br; o_Rs := br_Rs br |} = Ok (V, M) /\
    Forall2 (fun q gl => (fst q <= b_nspans b)%nat /\ gl = draw_reaction g us sh m (node_at b (fst q)) (snd q)) V (rp_forces rp) /\
    Forall2 (fun q gl => (fst q <= b_nspans b)%nat /\ gl = draw_turning g us sh (node_at b (fst q)) (snd q)) M (rp_moments rp) /\
    snd (rp_ylim rp) = snd (sc_ylim (rp_schem rp)) /\ fst (rp_ylim rp) <= fst (sc_ylim (rp_schem rp)) /\
    fst (rp_ylim rp) <= - (1.7 * sh + fold_left (fun k q => Rmax k (react_length sh m (snd q))) V (2.2 * sh) + sh).
Proof.
  intros K H. unfold plot_reactions in H. apply rbind_ok in H as (us & U & H). apply rbind_ok in H as (p & B & H). apply rbind_ok in H as (pic & P & H). apply rbind_ok in H as ((V & M) & RN & H).
  apply rbind_ok in H as (rp' & H & E). injection E as ->. cbn [fst snd] in H. unfold render_reactions in H. rewrite (plotter_L b _ p K B), (proj1 (plotter_x b _ p B)) in H.
  apply rbind_ok in H as (vs & EV & H). apply rbind_ok in H as (ms & EM & H). injection H as <-. cbn [rp_schem rp_forces rp_moments rp_ylim fst snd].
  exists us, p, V, M. eexists. split; [exact U|]. split; [exact B|]. split; [exact P|]. split; [reflexivity|].
  split; [apply plotter_parts in B as (lm & sup & d & E & _ & IL & ->); injection E as <-; cbn in IL; injection IL as <-; reflexivity|]. split; [exact RN|].
  split; [|split; [|split; [reflexivity|]]].
  - apply mapM_F2 in EV. revert EV. apply F2_weak. intros q gl _ Q. apply rbind_ok in Q as (x & G & Q). injection Q as <-. apply (get_node b _ _ K) in G as (-> & G). auto.
  - apply mapM_F2 in EM. revert EM. apply F2_weak. intros q gl _ Q. apply rbind_ok in Q as (x & G & Q). injection Q as <-. apply (get_node b _ _ K) in G as (-> & G). auto.
  - match goal with |- context [Rltb ?n ?y] => destruct (Rltb_spec n y) end; split; lra.
Qed.

Lemma fold_len_ge sh m (V : list (nat * R)) q : forall k, In q V -> react_length sh m (snd q) <= fold_left (fun k q => Rmax k (react_length sh m (snd q))) V k.
Proof.
  assert (B : forall V k, k <= fold_left (fun k (q : nat * R) => Rmax k (react_length sh m (snd q))) V k).
  { intros V0. induction V0 as [|c V0 IH]; intros k; cbn; [lra|]. eapply Rle_trans; [apply (Rmax_l k (react_length sh m (snd c)))|apply IH]. }
  induction V as [|c V IH]; intros k []; cbn; [subst c; eapply Rle_trans; [apply (Rmax_r k)|apply B]|apply IH; assumption].
Qed.
Lemma forall2_in_r {A B} (P : A -> B -> Prop) l m y : Forall2 P l m -> In y m -> exists x, In x l /\ P x y.
Proof. intros F. induction F as [|a b l m E F IH]; intros []; [subst; exists a; split; [left; reflexivity|exact E]|]. destruct (IH H) as (x & I & Q). exists x. split; [right; exact I|exact Q]. Qed.

(** Arrows and labels of the forces are in view and below every symbol. *)
Lemma forces_in_view us0 b br u rp gl pt : deck b -> plot_reactions g uni us0 b (Some br) u = Ok (Some rp) -> In gl (rp_forces rp) -> In pt (react_points gl) -> view rp pt.
Proof.
  intros K H I P. pose proof (deck_long b K) as DL. destruct (plot_parts _ _ _ _ _ K H) as (us & p & V & M & o & U & B & R & MS & NL & _ & FV & _ & Y1 & Y2 & Y3).
  destruct (pic_limits g uni _ _ _ _ _ _ K B R) as (XL & _ & YM). rewrite NL in YM. unfold view. rewrite XL, Y1, YM. cbn [fst snd].
  destruct (forall2_in_r _ _ _ _ FV I) as (q & Q & N & ->). pose proof (node_within b (fst q) K N) as NW.
  set (m := fold_left Rmax (map (fun q => Rabs (snd q)) V) 0) in *. assert (M0 : 0 <= m) by apply fold_max_base. pose proof (react_length_pos (0.05 * deck_length b) m (snd q) ltac:(lra) M0) as LN.
  pose proof (fold_len_ge (0.05 * deck_length b) m V q (2.2 * (0.05 * deck_length b)) Q) as LM. unfold react_points, draw_reaction in P; cbn [rg_arrow rg_text ca_at] in P.
  destruct (Rleb 0 (snd q)); destruct P as [<-|[<-|[<-|[]]]]; cbn [fst snd ar_tail ar_head]; lra.
Qed.
Lemma forces_clear us0 b br u rp gl pt ss sp pt' : deck b -> plot_reactions g uni us0 b (Some br) u = Ok (Some rp) -> In gl (rp_forces rp) -> In pt (react_points gl) ->
  In ss (support_symbols (rp_schem rp)) -> In sp ss -> In pt' (extremes sp) -> snd pt < snd pt'.
Proof.
  intros K H I P I2 I3 P2. pose proof (deck_long b K) as DL. destruct (plot_parts _ _ _ _ _ K H) as (us & p & V & M & o & U & B & R & MS & NL & _ & FV & _ & Y1 & Y2 & Y3).
  destruct (forall2_in_r _ _ _ _ FV I) as (q & Q & N & ->).
  set (m := fold_left Rmax (map (fun q => Rabs (snd q)) V) 0) in *. assert (M0 : 0 <= m) by apply fold_max_base. pose proof (react_length_pos (0.05 * deck_length b) m (snd q) ltac:(lra) M0) as LN.
  unfold support_symbols in I2. rewrite (pic_L g uni _ _ _ _ _ _ K B R) in I2. apply in_map_iff in I2 as (su & <- & I2). destruct (support_box (0.05 * deck_length b) su sp pt' ltac:(lra) I3 P2) as (_ & C & _).
  unfold react_points, draw_reaction in P; cbn [rg_arrow rg_text ca_at] in P.
  destruct (Rleb 0 (snd q)); destruct P as [<-|[<-|[<-|[]]]]; cbn [fst snd ar_tail ar_head]; lra.
Qed.
Lemma symbols_in_view us0 b br u rp su sp pt : deck b -> plot_reactions g uni us0 b (Some br) u = Ok (Some rp) -> In su (sc_supports (rp_schem rp)) -> s_kind su <> KFixed ->
  In sp (draw_support (0.05 * sc_L (rp_schem rp)) su) -> In pt (extremes sp) -> view rp pt.
Proof.
  intros K H I NF J P. destruct (plot_parts _ _ _ _ _ K H) as (us & p & V & M & o & U & B & R & MS & NL & _ & FV & _ & Y1 & Y2 & Y3).
  destruct (symbols_inside g uni _ _ _ _ _ _ _ _ _ K B R MS (fun _ => NF) I J P) as (A & C). unfold view. rewrite Y1. split; [exact A|]. lra.
Qed.
(** ...but the arcs are not. *)
Lemma arcs_cut us0 b br u rp gl : deck b -> plot_reactions g uni us0 b (Some br) u = Ok (Some rp) -> In gl (rp_moments rp) ->
  fst (mg_arc gl) < 90 < snd (mg_arc gl) /\ snd (rp_ylim rp) < snd (circle_point gl 90) /\ exists c, mg_text gl = Some c /\ snd (rp_ylim rp) < snd (ca_at c).
Proof.
  intros K H I. pose proof (deck_long b K) as DL. destruct (plot_parts _ _ _ _ _ K H) as (us & p & V & M & o & U & B & R & MS & NL & _ & _ & FM & Y1 & Y2 & Y3).
  destruct (pic_limits g uni _ _ _ _ _ _ K B R) as (XL & _ & YM). rewrite NL in YM. rewrite Y1, YM.
  destruct (forall2_in_r _ _ _ _ FM I) as (q & Q & N & ->). unfold draw_turning, circle_point, draw_moment; cbn [mg_arc mg_centre mg_radius mg_text fst snd].
  split; [lra|]. replace (90 * PI / 180) with (PI / 2) by field. rewrite sin_PI2. split; [lra|]. eexists. split; [reflexivity|]. cbn [ca_at snd]. lra.
Qed.

(** The longest arrow is that of the largest force. *)
Lemma length_order sh m r r' : 0 < sh -> 0 <= m -> Rabs r <= m -> Rabs r' <= m -> (Rabs r < Rabs r' -> react_length sh m r < react_length sh m r') /\ (Rabs r = Rabs r' -> react_length sh m r = react_length sh m r').
Proof.
  intros H M A B. unfold react_length. destruct (Reqb_spec m 0) as [->|N]; [pose proof (Rabs_pos r); split; intros; lra|]. split; [|intros ->; reflexivity].
  intros C. assert (Rabs r / m < Rabs r' / m) by (apply Rmult_lt_compat_r; [apply Rinv_0_lt_compat; lra|exact C]). nra.
Qed.
End G.
