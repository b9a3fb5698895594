(** The picture of the reactions of an analysed beam; examples. *)
From Coq Require Import ZArith String.
From Verif Require Import Base BaseFacts SectionModel LoadModel ElementModel UtilsModel BeamModel BeamSpec AnalysisModel AnalysisSpec AnalysisFacts2 AnalysisFacts3 ResultsModel ResultsFacts UnitsModel BridgeSpec
  RenderModel RenderSpec RenderFacts RenderFacts2 RenderFacts5 InPlotModel InPlotSpec InPlotFacts2 MeshFacts3 SchemModel SchemSpec SchemFacts SchemFacts2 SchemFacts3 SchemFacts4 SymbolModel SymbolSpec SymbolFacts SymbolFacts2.
Local Notation length := List.length.
Local Open Scope list_scope.
Open Scope R_scope.

Lemma filter_pairs (f : nat -> R) l : filter (fun nv => Rltb (/ 10^6) (Rabs (snd nv))) (map (fun m => (m, f m)) l) = map (fun m => (m, f m)) (filter (fun m => Rltb (/ 10^6) (Rabs (f m))) l).
Proof. induction l as [|a l IH]; [reflexivity|]. cbn [map filter]. cbn [snd]. destruct (Rltb _ _); cbn [map]; rewrite IH; reflexivity. Qed.

Section G.
Variable g : R -> string.
Variable uni : nat -> string.

Lemma analysed_nodes gl ill a sps npts check a' br : analyze gl ill a sps npts check = (a', Ok br) -> length (b_R (an_beam a)) = an_ndof a ->
  an_beam a' = an_beam a /\
  reactions_by_node (an_beam a) (output_of br) =
    Ok (map (fun i => (i, reported (an_beam a) (output_of br) (2 * i))) (loaded_nodes (fun i => reported (an_beam a) (output_of br) (2 * i)) (an_n a)),
        map (fun i => (i, reported (an_beam a) (output_of br) (2 * i + 1))) (loaded_nodes (fun i => reported (an_beam a) (output_of br) (2 * i + 1)) (an_n a))).
Proof.
  intros H LR. destruct (analyze_split _ _ _ _ _ _ _ _ H) as (o & Ho & _ & _ & ED & ER & ES). split; [exact (proj1 (analyze_core_state _ _ _ _ _ _ _ Ho))|].
  assert (EO : output_of br = o) by (unfold output_of; rewrite ED, ER, ES; destruct o; reflexivity). rewrite EO. clear EO ED ER ES H br.
  destruct (core_inv _ _ _ _ _ _ _ Ho) as [(kb & rf & S) _]. set (b := an_beam a) in *.
  assert (ND : an_ndof a = (2 * (an_n a + 1))%nat) by reflexivity.
  destruct (spread_reported b o) as (full & E1 & E2 & E3).
  - rewrite (sv_oR _ _ _ _ _ _ S), map_length, LR, ND. reflexivity.
  - rewrite (sv_oRs _ _ _ _ _ _ S), map_length, LR, ND. reflexivity.
  - unfold reactions_by_node. rewrite E1. cbn [rbind]. rewrite LR, ND in E2, E3.
    rewrite (by_node_spec full 0 (reported b o) (an_n a + 1) E2 ltac:(lia) E3), (by_node_spec full 1 (reported b o) (an_n a + 1) E2 ltac:(lia) E3). unfold loaded_nodes. rewrite <- !filter_pairs.
    f_equal. f_equal. f_equal. apply map_ext. intros m. rewrite Nat.add_0_r. reflexivity.
Qed.

Lemma forall2_map_l {A B C} (P : B -> C -> Prop) (f : A -> B) l m : Forall2 P (map f l) m -> Forall2 (fun a c => P (f a) c) l m.
Proof. revert m. induction l as [|a l IH]; intros m F; inversion F; subst; constructor; auto. Qed.

Lemma reactions_pictured gl ill a sps npts check a' br us0 u us rp : deck (an_beam a) -> analyze gl ill a sps npts check = (a', Ok br) -> length (b_R (an_beam a)) = an_ndof a ->
  resolve us0 u = Ok us -> plot_reactions g uni us0 (an_beam a') (Some br) u = Ok (Some rp) ->
  let F i := reported (an_beam a) (output_of br) (2 * i) in let M i := reported (an_beam a) (output_of br) (2 * i + 1) in
  Forall2 (fun i gl => reaction_shown g us (node_at (an_beam a) i) (F i) gl) (loaded_nodes F (an_n a)) (rp_forces rp) /\
  Forall2 (fun i gl => turning_shown g us (deck_length (an_beam a)) (node_at (an_beam a) i) (M i) gl) (loaded_nodes M (an_n a)) (rp_moments rp) /\
  forall j k i i' gl gl', nth_error (loaded_nodes F (an_n a)) j = Some i -> nth_error (rp_forces rp) j = Some gl -> nth_error (loaded_nodes F (an_n a)) k = Some i' -> nth_error (rp_forces rp) k = Some gl' ->
    (Rabs (F i) < Rabs (F i') -> react_reach gl < react_reach gl') /\ (Rabs (F i) = Rabs (F i') -> react_reach gl = react_reach gl').
Proof.
  intros K H LR U P F M. destruct (analysed_nodes _ _ _ _ _ _ _ _ H LR) as (EB & RN). rewrite EB in P. pose proof (deck_long _ K) as DL.
  destruct (plot_parts g uni _ _ _ _ _ K P) as (us' & p & V' & M' & o' & U' & B & RR & MS & NL & RN' & FV & FM & _).
  assert (us' = us) as -> by congruence. fold (output_of br) in RN'. rewrite RN in RN'. fold F M in RN'. assert (EV : forall (x y x' y' : list (nat * R)), Ok (x, y) = Ok (x', y') -> x' = x /\ y' = y) by (intros x y x' y' Q; injection Q as <- <-; auto). apply EV in RN' as (-> & ->). clear EV.
  set (m := fold_left Rmax _ 0) in FV. assert (M0 : 0 <= m) by apply fold_max_base.
  assert (HM : forall i, In i (loaded_nodes F (an_n a)) -> Rabs (F i) <= m) by (intros i I; unfold m; apply InPlotFacts2.fold_max_ge; rewrite map_map; apply in_map_iff; exists i; split; [reflexivity|exact I]).
  clearbody m. apply forall2_map_l in FV. apply forall2_map_l in FM. split; [|split].
  - revert FV. apply F2_weak. intros i gl0 I (_ & ->). apply reaction_drawn; [lra|exact M0].
  - revert FM. apply F2_weak. intros i gl0 I (_ & ->). apply turning_drawn. lra.
  - intros j k i i' gl0 gl1 A C D E. 
    assert (Q : forall j i gl0, nth_error (loaded_nodes F (an_n a)) j = Some i -> nth_error (rp_forces rp) j = Some gl0 -> gl0 = draw_reaction g us (0.05 * deck_length (an_beam a)) m (node_at (an_beam a) i) (F i)).
    { clear - FV. induction FV as [|x y l l' E FV IH]; intros j i gl0 A B; [destruct j; discriminate|]. destruct j; cbn in A, B; [injection A as <-; injection B as <-; exact (proj2 E)|exact (IH j i gl0 A B)]. }
    rewrite (Q _ _ _ A C), (Q _ _ _ D E), !reaction_reach by (lra || exact M0). apply length_order; [lra|exact M0|apply HM; exact (nth_error_In _ _ A)|apply HM; exact (nth_error_In _ _ D)].
Qed.

Lemma reactions_total gl ill a sps npts check a' br us0 u us : deck (an_beam a) -> analyze gl ill a sps npts check = (a', Ok br) -> length (b_R (an_beam a)) = an_ndof a -> an_n a = b_nspans (an_beam a) ->
  (length (b_kf (an_beam a)) <= b_nspans (an_beam a))%nat -> positive_beam (b_lengths (an_beam a)) (b_EIs (an_beam a)) ->
  resolve us0 u = Ok us -> exists rp, plot_reactions g uni us0 (an_beam a') (Some br) u = Ok (Some rp).
Proof.
  intros K H LR N LK PB U. destruct (analysed_nodes _ _ _ _ _ _ _ _ H LR) as (EB & RN). rewrite EB. unfold plot_reactions. rewrite U. cbn [rbind].
  destruct (draws (an_beam a) (GivenRows []) [] [] K ltac:(rewrite LR; unfold an_ndof; rewrite N; reflexivity) eq_refl eq_refl (Forall_nil _)) as (p & B & _). rewrite B. cbn [rbind].
  assert (PL : placed (an_beam a) (pl_loads p)).
  { apply plotter_parts in B as (lm & sup & d & E & _ & IL & ->). injection E as <-. cbn in IL. injection IL as <-. split; intros q []. }
  match goal with |- context [render_mpl g uni us0 p ?o] => destruct (schem_total g uni us0 (an_beam a) (GivenRows []) p o us K B PL LK PB eq_refl) as (pic & RR) end. rewrite RR. cbn [rbind].
  fold (output_of br). rewrite RN. cbn [rbind fst snd]. unfold render_reactions. rewrite (proj1 (plotter_x _ _ _ B)).
  assert (IN : forall f i, In i (loaded_nodes f (an_n a)) -> (i <= b_nspans (an_beam a))%nat) by (intros f i I; apply filter_In in I as (I & _); apply in_seq in I; lia).
  assert (T : forall (C : Type) (d : R -> R -> C) f (h : nat -> R), exists v, mapM (fun q : nat * R => do x <- get (b_terminal (an_beam a)) (fst q); Ok (d x (snd q))) (map (fun i => (i, h i)) (loaded_nodes f (an_n a))) = Ok v).
  { intros C d f h. apply mapM_all. intros q I. apply in_map_iff in I as (i & <- & I). cbn [fst snd]. rewrite (node_get _ _ K (IN _ _ I)). cbn [rbind]. eauto. }
  match goal with |- context [draw_reaction g us ?sh ?m] => destruct (T _ (fun x v => draw_reaction g us sh m x v) (fun i => reported (an_beam a) (output_of br) (2 * i)) (fun i => reported (an_beam a) (output_of br) (2 * i))) as (vs & ->) end. cbn [rbind].
  match goal with |- context [draw_turning g us ?sh] => destruct (T _ (fun x v => draw_turning g us sh x v) (fun i => reported (an_beam a) (output_of br) (2 * i + 1)) (fun i => reported (an_beam a) (output_of br) (2 * i + 1))) as (ms & ->) end. cbn [rbind].
  eauto.
Qed.
Lemma nothing_to_plot us0 b u : plot_reactions g uni us0 b None u = Ok None.
Proof. reflexivity. Qed.
Lemma bad_units us0 b br u e : resolve us0 u = Err e -> plot_reactions g uni us0 b (Some br) u = Err e.
Proof. intros H. unfold plot_reactions. rewrite H. reflexivity. Qed.

(** ** Examples *)
Lemma ff_deck : deck ff_beam.
Proof. constructor; [reflexivity|reflexivity|reflexivity|cbn; lia|]. cbn. repeat (apply Forall_cons || apply Forall_nil); lra. Qed.
Lemma ff_positive : positive_beam (b_lengths ff_beam) (b_EIs ff_beam).
Proof. unfold positive_beam. cbn. repeat constructor; lra. Qed.
Lemma ff_moment gl ill sps : exists a' br, analyze gl ill ff sps None false = (a', Ok br) /\ reported ff_beam (output_of br) 1 = 6.
Proof.
  destruct (ff_results gl ill sps) as (a' & br & e & E & _ & MF & E1). exists a', br. split; [exact E|].
  destruct (analyze_split _ _ _ _ _ _ _ _ E) as (o & Ho & _ & _ & ED & ER & ES).
  assert (EO : output_of br = o) by (unfold output_of; rewrite ED, ER, ES; destruct o; reflexivity). rewrite EO.
  destruct (analyze_reactions _ _ _ _ _ _ _ Ho) as (ef & S & Q).
  - intros i. cbn [an_beam ff]. rewrite ff_prescribed. congruence.
  - specialize (Q 1%nat ltac:(cbn; lia)). cbn [an_beam an_n ff] in Q. rewrite Q. destruct (state_forces gl _ _ _ _ (S 0%nat ltac:(cbn; lia))) as (e' & F1 & F2). cbn [an_beam ff] in F1. rewrite <- ED in F1.
    assert (e' = e) as -> by congruence. unfold nodal_sum. cbn. rewrite F2, E1. lra.
Qed.
Lemma ff_drawn gl ill sps us0 : exists a' br rp, analyze gl ill ff sps None false = (a', Ok br) /\ plot_reactions g uni us0 (an_beam a') (Some br) UNone = Ok (Some rp) /\ rp_moments rp <> [].
Proof.
  destruct (ff_moment gl ill sps) as (a' & br & E & M6). exists a', br.
  destruct (reactions_total gl ill ff sps None false a' br us0 UNone us0 ff_deck E eq_refl eq_refl ltac:(cbn; lia) ff_positive eq_refl) as (rp & P). exists rp. split; [exact E|]. split; [exact P|].
  destruct (reactions_pictured gl ill ff sps None false a' br us0 UNone us0 rp ff_deck E eq_refl eq_refl P) as (_ & F & _). intros Z. rewrite Z in F. inversion F as [Q|]. revert Q.
  unfold loaded_nodes. cbn [an_n ff Nat.add seq filter an_beam Nat.mul]. rewrite M6. rewrite Rabs_right by lra. destruct (Rltb_spec (/ 10^6) 6) as [|N]; [discriminate|]. exfalso. apply N. apply Rlt_le_trans with (/ 1); [|lra].
  apply Rinv_lt_contravar; lra.
Qed.
Lemma arcs_cut_off gl ill sps us0 : exists a' br rp gl0 c, analyze gl ill ff sps None false = (a', Ok br) /\ plot_reactions g uni us0 (an_beam a') (Some br) UNone = Ok (Some rp) /\
  In gl0 (rp_moments rp) /\ fst (mg_arc gl0) < 90 < snd (mg_arc gl0) /\ ~ view rp (circle_point gl0 90) /\ mg_text gl0 = Some c /\ ~ view rp (ca_at c).
Proof.
  destruct (ff_drawn gl ill sps us0) as (a' & br & rp & E & P & N). destruct (rp_moments rp) as [|gl0 t] eqn:EM; [congruence|].
  destruct (analysed_nodes _ _ _ _ _ _ _ _ E eq_refl) as (EB & _). pose proof P as P'. rewrite EB in P'.
  destruct (arcs_cut g uni us0 ff_beam br UNone rp gl0 ff_deck P' ltac:(rewrite EM; left; reflexivity)) as (A & B & c & C & D). exists a', br, rp, gl0, c. split; [exact E|]. split; [exact P|].
  split; [rewrite EM; left; reflexivity|]. split; [exact A|]. split; [intros (_ & V); lra|]. split; [exact C|]. intros (_ & V); lra.
Qed.
Lemma wall_cut_off us0 : exists p pic sp pt ss, beam_plotter ff_beam (GivenRows []) = Ok p /\ render_mpl g uni us0 p (all_on UNone) = Ok pic /\
  In ss (support_symbols pic) /\ In sp ss /\ In pt (extremes sp) /\ ~ inside pic pt.
Proof.
  destruct (draws ff_beam (GivenRows []) [] [] ff_deck eq_refl eq_refl eq_refl (Forall_nil _)) as (p & B & _).
  assert (NL : no_loads (pl_loads p) = true /\ placed ff_beam (pl_loads p)).
  { apply plotter_parts in B as (lm & sup & d & E & _ & IL & ->). injection E as <-. cbn in IL. injection IL as <-. split; [reflexivity|]. split; intros q []. }
  destruct NL as (NL & PL). destruct (schem_total g uni us0 ff_beam (GivenRows []) p (all_on UNone) us0 ff_deck B PL ltac:(cbn; lia) ff_positive eq_refl) as (pic & R). exists p, pic.
  assert (D : documented ff_beam) by (unfold documented; cbn; repeat (apply Forall_cons || apply Forall_nil); left; reflexivity).
  pose proof (supports_drawn _ _ _ ff_deck D B) as [SN SE].
  assert (EX : exists su, In su (pl_supports p) /\ s_node su = 0%nat).
  { assert (I : In 0%nat (map s_node (pl_supports p))).
    { rewrite SN. apply filter_In. split; [apply in_seq; cbn; lia|]. unfold vert, restraint. cbn [b_R ff_beam nth Nat.mul Nat.add]. destruct (Reqb_spec (-1) 0); [lra|reflexivity]. }
    apply in_map_iff in I as (su & A & C). eauto. }
  destruct EX as (su & I & N0). destruct (SE su I) as (_ & SY & _).
  assert (KF : s_kind su = KFixed).
  { apply (symbol_fun ff_beam (s_node su)); [exact SY|]. rewrite N0. cbn. unfold clamped_node, vert, rot, restraint. cbn. lra. }
  assert (I' : In su (sc_supports pic)) by (rewrite (pic_supports g uni _ _ _ _ R); exact I).
  destruct (wall_outside g uni us0 ff_beam (GivenRows []) p (all_on UNone) pic su ff_deck B R eq_refl NL I' KF) as (sp & pt & A & C & Q). exists sp, pt, (draw_support (0.05 * sc_L pic) su).
  split; [exact B|]. split; [exact R|]. split; [unfold support_symbols; apply in_map_iff; exists su; auto|]. auto.
Qed.
End G.

(** A rotational spring alone is drawn as a vertical one. *)
Definition torsion_left : support := {| s_x := 0; s_kind := KTorsion; s_node := 0; s_left := true; s_right := false; s_rot := false |}.
Lemma k05 : infer_supports [0; 0 + 4] [0; 5; -1; -1] = Ok [torsion_left; clamp_right].
Proof. kind. Qed.
Lemma torsion_as_spring g uni us0 : exists c1 c2 b1 b2 p1 p2 pic1 pic2, beam_init c1 = Ok b1 /\ beam_init c2 = Ok b2 /\ documented b1 /\ documented b2 /\
  vert b1 0 = 0 /\ 0 < rot b1 0 /\ 0 < vert b2 0 /\ rot b2 0 = 0 /\
  beam_plotter b1 (GivenRows []) = Ok p1 /\ beam_plotter b2 (GivenRows []) = Ok p2 /\ render_mpl g uni us0 p1 (all_on UNone) = Ok pic1 /\ render_mpl g uni us0 p2 (all_on UNone) = Ok pic2 /\
  support_symbols pic1 = support_symbols pic2 /\ hinge_symbols pic1 = hinge_symbols pic2.
Proof.
  exists (one_span [0; 5; -1; -1]), (one_span [5; 0; -1; -1]). eexists. eexists. 
  assert (DD : forall v r, 0 <= v -> 0 <= r -> Forall (fun r => r = -1 \/ r = 0 \/ 0 < r) [v; r; -1; -1]).
  { intros v r A B. repeat (apply Forall_cons || apply Forall_nil); try (left; reflexivity); right; lra. }
  match goal with |- exists p1 p2 pic1 pic2, _ /\ _ => idtac end.
  assert (X : forall rs b, beam_init (one_span rs) = Ok b -> length rs = 4%nat -> exists p pic, beam_plotter b (GivenRows []) = Ok p /\ render_mpl g uni us0 p (all_on UNone) = Ok pic /\
     infer_supports [0; 0 + 4] rs = Ok (pl_supports p) /\ sc_supports pic = pl_supports p /\ sc_L pic = 4 /\ sc_hinges pic = [] /\ b_R b = rs).
  { intros rs b E L4. destruct rs as [|r0 [|r1 [|r2 [|r3 [|]]]]]; try discriminate. cbn in E. injection E as <-.
    match goal with |- context [beam_plotter ?b _] => set (bb := b) end.
    assert (K : deck bb) by (constructor; [reflexivity|reflexivity|reflexivity|cbn; lia|cbn; repeat (apply Forall_cons || apply Forall_nil); lra]).
    destruct (draws bb (GivenRows []) [] [] K eq_refl eq_refl eq_refl (Forall_nil _)) as (p & B & _).
    assert (PL : placed bb (pl_loads p)) by (pose proof B as B'; apply plotter_parts in B' as (lm & sup & d & Q & _ & IL & ->); injection Q as <-; cbn in IL; injection IL as <-; split; intros q []).
    assert (PB : positive_beam (b_lengths bb) (b_EIs bb)) by (unfold positive_beam; cbn; repeat constructor; lra).
    destruct (schem_total g uni us0 bb (GivenRows []) p (all_on UNone) us0 K B PL ltac:(cbn; lia) PB eq_refl) as (pic & R). exists p, pic. split; [exact B|]. split; [exact R|].
    assert (SL : sc_L pic = 4) by (rewrite (pic_L g uni us0 bb _ p _ pic K B R); unfold deck_length, node_at; cbn; lra).
    destruct (render_parts g uni us0 p _ pic R) as (us & prof & gr & dims & partial & _ & _ & _ & _ & _ & _ & EP). apply plotter_parts in B as (lm & sup & d & _ & IS & _ & EB).
    split; [rewrite EB; exact IS|]. split; [rewrite EP; reflexivity|]. split; [exact SL|]. split; [rewrite EP, EB; reflexivity|reflexivity]. }
  destruct (X [0; 5; -1; -1] _ eq_refl eq_refl) as (p1 & pic1 & B1 & R1 & I1 & S1 & L1 & H1 & _). destruct (X [5; 0; -1; -1] _ eq_refl eq_refl) as (p2 & pic2 & B2 & R2 & I2 & S2 & L2 & H2 & _).
  exists p1, p2, pic1, pic2. split; [reflexivity|]. split; [reflexivity|]. split; [apply DD; lra|]. split; [apply DD; lra|].
  split; [reflexivity|]. split; [unfold rot, restraint; cbn; lra|]. split; [unfold vert, restraint; cbn; lra|]. split; [reflexivity|]. split; [exact B1|]. split; [exact B2|]. split; [exact R1|]. split; [exact R2|].
  rewrite k05 in I1. injection I1 as I1. rewrite k50 in I2. injection I2 as I2. unfold support_symbols, hinge_symbols. rewrite S1, S2, L1, L2, H1, H2, <- I1, <- I2. split; reflexivity.
Qed.

(** Five nodes: a pin with a rotational spring, a roller, a spring, a guide and a rotational
    spring. *)
Definition kinds_ctor : ctor :=
  {| BeamModel.ct_L := [3; 4; 5; 6]; BeamModel.ct_EI := EIAll (RConst 2); BeamModel.ct_R := Some [-1; 3; -1; 0; 5; 0; 0; -1; 0; 4]; BeamModel.ct_LM := None;
     BeamModel.ct_types := repeat (EtNum [1%Z]) 4; BeamModel.ct_D := None; BeamModel.ct_sup := None; BeamModel.ct_GAv := GNone; BeamModel.ct_kf := KNone |}.
Lemma kinds_drawn g uni us0 : exists b p pic, beam_init kinds_ctor = Ok b /\ deck b /\ documented b /\ beam_plotter b OwnLoads = Ok p /\ render_mpl g uni us0 p (all_on UNone) = Ok pic /\
  length (support_symbols pic) = 5%nat /\ symbol b 0 KPin /\ vert b 0 < 0 < rot b 0 /\ symbol b 1 KRoller /\ symbol b 2 KSpring /\ symbol b 3 KGuided /\ no_loads (pl_loads p) = true /\
  (forall su, In su (sc_supports pic) -> s_kind su <> KFixed).
Proof.
  destruct (beam_init kinds_ctor) as [bb|] eqn:E; [|discriminate]. exists bb. cbn in E. injection E as E.
  assert (K : deck bb) by (rewrite <- E; constructor; [reflexivity|reflexivity|reflexivity|cbn; lia|cbn; repeat (apply Forall_cons || apply Forall_nil); lra]).
  assert (D : documented bb) by (rewrite <- E; unfold documented; cbn; repeat (apply Forall_cons || apply Forall_nil); solve [left; lra | right; left; lra | right; right; lra]).
  destruct (draws bb OwnLoads [] [] K ltac:(rewrite <- E; reflexivity) ltac:(rewrite <- E; reflexivity) eq_refl (Forall_nil _)) as (p & B & _).
  assert (NL : no_loads (pl_loads p) = true /\ placed bb (pl_loads p)).
  { pose proof B as B'. apply plotter_parts in B' as (lm & sup & d & Q & _ & IL & ->). rewrite <- E in Q. cbn in Q. injection Q as <-. cbn in IL. injection IL as <-. split; [reflexivity|]. split; intros q []. }
  destruct NL as (NL & PL). assert (PB : positive_beam (b_lengths bb) (b_EIs bb)) by (rewrite <- E; unfold positive_beam; cbn; repeat constructor; lra).
  destruct (schem_total g uni us0 bb OwnLoads p (all_on UNone) us0 K B PL ltac:(rewrite <- E; cbn; lia) PB eq_refl) as (pic & RR). exists p, pic. split; [reflexivity|]. split; [exact K|]. split; [exact D|]. split; [exact B|]. split; [exact RR|].
  assert (NC : forall j, (j <= b_nspans bb)%nat -> ~ clamped_node bb j).
  { intros j J. rewrite <- E in *. cbn in J. unfold clamped_node, vert, rot, restraint. destruct j as [|[|[|[|[|j]]]]]; cbn; lra || lia. }
  assert (S0 : symbol bb 0 KPin) by (cbn; split; [rewrite <- E; unfold vert, restraint; cbn; lra|]; split; [rewrite <- E; unfold rot, restraint; cbn; lra|]; split; [exact NC|intros; lia]).
  pose proof (symbols_drawn g uni us0 bb OwnLoads p (all_on UNone) pic K D B RR eq_refl) as F. pose proof (supports_drawn bb OwnLoads p K D B) as [_ SE].
  split; [|split; [exact S0|split; [rewrite <- E; unfold vert, rot, restraint; cbn; lra|]]].
  - assert (FL : forall (A B : Type) (P : A -> B -> Prop) l m, Forall2 P l m -> length l = length m) by (intros A B' P l m Q; induction Q; cbn; congruence). apply FL in F. rewrite <- F, <- E. unfold vert, rot, restraint. cbn [b_nspans b_R with_R with_D with_LM seq Nat.add Nat.mul filter nth].
    repeat match goal with |- context [Reqb ?a ?b] => destruct (Reqb_spec a b); [try (exfalso; lra)|try (exfalso; lra)] end; reflexivity.
  - split; [cbn; split; [rewrite <- E; unfold vert, restraint; cbn; lra|]; split; [rewrite <- E; unfold rot, restraint; cbn; lra|right; exists 0%nat; split; [lia|exact (proj1 S0)]]|].
    split; [rewrite <- E; unfold symbol, vert, restraint; cbn; lra|]. split; [rewrite <- E; unfold symbol, vert, rot, restraint; cbn; lra|]. split; [exact NL|].
    intros su I KF. rewrite (pic_supports g uni _ _ _ _ RR) in I. cbn [all_on mo_supports] in I. destruct (SE su I) as (_ & SY & _). rewrite KF in SY. cbn in SY.
    apply (NC (s_node su)); [|exact SY]. destruct (le_lt_dec (s_node su) (b_nspans bb)) as [|G]; [assumption|]. exfalso. destruct SY as (V & _). revert V G. rewrite <- E. unfold vert, restraint. cbn [b_nspans b_R with_R with_D with_LM]. intros V G.
    rewrite nth_overflow in V by (cbn in G |- *; lia). lra.
Qed.
