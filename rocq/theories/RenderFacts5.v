(** Proofs: the lines of the TikZ source; small reactions; examples. *)
From Coq Require Import ZArith Ascii String.
From Verif Require Import Base BaseFacts SectionModel LoadModel LoadSpec FoundationModel ElementModel ElementSpec UtilsModel BeamModel BeamSpec CtorFacts AnalysisModel AnalysisSpec
  AnalysisFacts2 AnalysisFacts3 SuperFacts ConstSectFacts ResultsModel ResultsSpec ResultsFacts BridgeSpec UnitsModel RenderModel RenderSpec RenderFacts RenderFacts2 RenderFacts3 RenderFacts4.
Open Scope R_scope.

Ltac find_in H := first [exact H | left; exact H | right; solve [find_in H] | apply in_or_app; first [left; solve [find_in H] | right; solve [find_in H]]].

Section T.
Variable fmt : R -> string.
Variable uni : nat -> string.
Local Open Scope string_scope.

Lemma pictured b s p scale dims labels show us ls : deck b -> beam_plotter b s = Ok p -> tikz_lines fmt uni p scale dims labels show us = Ok ls ->
  pictures fmt (node_name uni) b p ls.
Proof.
  intros K H T. destruct (plotter_parts _ _ _ H) as (lm & sup & d & E1 & E2 & E3 & P).
  assert (X : pl_x p = b_terminal b) by (rewrite P; reflexivity). assert (B : pl_beam p = b) by (rewrite P; reflexivity).
  assert (SN : forall x, In x (pl_supports p) -> (s_node x <= b_nspans b)%nat) by (intros x Hx; rewrite P in Hx; apply (support_nodes b sup K E2 x Hx)).
  pose proof (term_len b p K X) as LT. clear P.
  destruct (load_in fmt uni p scale dims labels show us ls T) as (lds0 & HL0 & INL).
  revert T. unfold tikz_lines. cbv zeta. intros T. set (nodes := map (node_name uni) (seq 0 (List.length (pl_x p)))) in *.
  apply rbind_ok in T as (beams & Hb & T). apply rbind_ok in T as (spl & Hs & T). apply rbind_ok in T as (hin & _ & T).
  apply rbind_ok in T as (lds & Hl & T). apply rbind_ok in T as (dm & _ & T). apply rbind_ok in T as (lb & _ & T). injection T as T.
  rewrite HL0 in Hl. injection Hl as <-.
  assert (NM : forall i, (i <= b_nspans b)%nat -> get nodes i = Ok (node_name uni i)) by (intros i Hi; unfold nodes; apply name_at; lia).
  constructor.
  - intros i Hi. assert (E : nth_error (pl_x p) i = Some (node_at b i)).
    { rewrite X, (dk_term b K), nth_error_map, (nth_error_nth' _ 0%nat) by (rewrite seq_length; lia). rewrite seq_nth by lia. reflexivity. }
    apply numbered_nth in E. apply nth_error_In in E. 
    apply (in_map (fun ix => tab ++ "\point{" ++ node_name uni (fst ix) ++ "}{" ++ fmt (snd ix) ++ "}{0};")) in E. cbn [fst snd] in E.
    rewrite <- T. find_in E.
  - intros m Hm. rewrite B in Hb. destruct (mapM_nth _ _ _ m m Hb) as (l & L1 & L2).
    { rewrite (nth_error_nth' _ 0%nat) by (rewrite seq_length; lia). rewrite seq_nth by lia. reflexivity. }
    replace (m + 1)%nat with (S m) in L1 by lia. rewrite !NM in L1 by lia. cbn [rbind] in L1. injection L1 as <-. rewrite <- T. find_in L2.
  - intros x Hx. destruct (In_nth_error _ _ Hx) as (k & Hk). destruct (mapM_nth _ _ _ _ _ Hs Hk) as (l & L1 & L2). apply (in_map (append tab)) in L2.
    unfold support_tikz in L1. rewrite NM in L1 by (apply SN; exact Hx). cbn [rbind] in L1. injection L1 as <-.
    destruct (s_kind x) eqn:EK; (eexists; rewrite <- T; find_in L2).
  - intros k q m E S Hm. destruct (point_spot fmt uni b p K X lds0 show us k q m HL0 E S Hm) as (f & F1 & F2). exists f. apply INL in F1. split; [exact F1|].
    rewrite node_next in F2. replace (node_at b m + span_length b m - node_at b m)%R with (span_length b m) in F2 by ring. split; [exact F2|].
    assert (G : In ("\begin{scope}[color=red]\load{1}{pl" ++ digits k ++ "}[" ++ (if Rle_dec 0 (p_P q) then "90" else "270") ++ "][18mm]\end{scope}") lds0); [|apply INL; exact G].
    revert HL0. unfold loads_tikz. intros HL0. apply rbind_ok in HL0 as (dl & _ & HL0). apply rbind_ok in HL0 as (pl & Hp & HL0). apply rbind_ok in HL0 as (ml & _ & HL0). injection HL0 as <-.
    destruct (mapM_nth _ _ _ _ _ Hp (numbered_nth _ _ _ E)) as (ss & S1 & S2). unfold point_tikz in S1. apply rbind_ok in S1 as (l0 & _ & S1). injection S1 as <-.
    apply in_or_app. right. apply in_or_app. left. apply (in_concat_of _ _ _ S2). right. left. unfold digits, Rleb. destruct (Rle_dec 0 (p_P q)); reflexivity.
  - intros k q m E S Hm. destruct (moment_spot fmt uni b p K X lds0 show us k q m HL0 E S Hm) as (f & F1 & F2). exists f. apply INL in F1. split; [exact F1|].
    rewrite node_next in F2. replace (node_at b m + span_length b m - node_at b m)%R with (span_length b m) in F2 by ring. split; [exact F2|].
    assert (G : In ("\begin{scope}[color=red]\load{" ++ (if Rle_dec 0 (m_M q) then "3" else "2") ++ "}{ml" ++ digits k ++ "}\end{scope}") lds0); [|apply INL; exact G].
    revert HL0. unfold loads_tikz. intros HL0. apply rbind_ok in HL0 as (dl & _ & HL0). apply rbind_ok in HL0 as (pl & _ & HL0). apply rbind_ok in HL0 as (ml & Hp & HL0). injection HL0 as <-.
    destruct (mapM_nth _ _ _ _ _ Hp (numbered_nth _ _ _ E)) as (ss & S1 & S2). unfold moment_tikz in S1. apply rbind_ok in S1 as (l0 & _ & S1). injection S1 as <-.
    apply in_or_app. right. apply in_or_app. right. apply (in_concat_of _ _ _ S2). right. left. unfold digits, Rleb. destruct (Rle_dec 0 (m_M q)); reflexivity.
  - intros k q m E S Hm. destruct (dist_spot fmt uni b p K X lds0 show us k q m HL0 E S Hm) as (f & g & F1 & F2 & F3 & F4). apply INL in F1, F2.
    rewrite node_next in F3, F4. replace (node_at b m + span_length b m - node_at b m)%R with (span_length b m) in F3, F4 by ring.
    assert (G : exists r, In ("\lineload{1}{dl" ++ digits k ++ "a}{dl" ++ digits k ++ "b}" ++ r) lds0).
    { revert HL0. unfold loads_tikz. intros HL0. apply rbind_ok in HL0 as (dl & Hd & HL0). apply rbind_ok in HL0 as (pl & _ & HL0). apply rbind_ok in HL0 as (ml & _ & HL0). injection HL0 as <-.
      set (dd := dr_dist (pl_loads p)) in *.
      assert (G : (do ls <- mapM (dist_tikz fmt p nodes) (numbered dd);
             do ns <- (if show then mapM (dist_label fmt p us) (numbered dd) else Ok []);
             Ok ("\begin{scope}[color=red]" :: concat ls ++ "\end{scope}" :: concat ns)%list) = Ok dl).
      { destruct dd; [destruct k; discriminate E|exact Hd]. }
      apply rbind_ok in G as (l1 & G1 & G). apply rbind_ok in G as (l2 & G2 & G). injection G as <-.
      destruct (mapM_nth _ _ _ _ _ G1 (numbered_nth _ _ _ E)) as (ss & S1 & S2). unfold dist_tikz in S1. apply rbind_ok in S1 as (u0 & _ & S1). apply rbind_ok in S1 as (u1 & _ & S1). injection S1 as <-.
      eexists. apply in_or_app. left. right. apply in_or_app. left. apply (in_concat_of _ _ _ S2). right. right. left. reflexivity. }
    destruct G as (r & G). exists f, g, r. repeat apply conj; try assumption. apply INL. exact G.
Qed.

(** Capital letters below the supports at the first 26 nodes. *)
Lemma capitals b s p scale dims show us ls x : deck b -> beam_plotter b s = Ok p -> tikz_lines fmt uni p scale dims true show us = Ok ls -> In x (pl_supports p) ->
  (s_node x < 26)%nat ->
  exists r, In (tab ++ "\notation{1}{" ++ String (ascii_of_nat (97 + s_node x)) "" ++ "}{$" ++ String (ascii_of_nat (65 + s_node x)) "" ++ "$}" ++ r) ls.
Proof.
  intros K H T Hx Hn. destruct (letter fmt uni b s p scale dims show us ls x K H T Hx) as (r & L). exists r. revert L. unfold node_name, chr.
  destruct (Nat.ltb_spec (s_node x) 26); [|lia]. destruct (Nat.ltb_spec (97 + s_node x) 128); [|lia]. destruct (Nat.ltb_spec (65 + s_node x) 128); [|lia]. auto.
Qed.
End T.

(** ** A beam with 27 spans *)
Definition long_ctor : ctor :=
  {| BeamModel.ct_L := repeat 1 27; BeamModel.ct_EI := EIAll (RConst 1); BeamModel.ct_R := Some (concat (repeat [-1; 0] 28)); BeamModel.ct_LM := None;
     BeamModel.ct_types := repeat (EtNum [1%Z]) 27; BeamModel.ct_D := None; BeamModel.ct_sup := None; BeamModel.ct_GAv := GNone; BeamModel.ct_kf := KNone |}.
Lemma long_beam : exists b, beam_init long_ctor = Ok b /\ deck b /\ b_nspans b = 27%nat /\ b_R b = concat (repeat [-1; 0] 28) /\ b_LM b = [].
Proof.
  pose proof (ctor_spec long_ctor ltac:(apply le_n)) as C. destruct (beam_init long_ctor) as [b|e].
  - destruct C as (r & ts & V & E1 & _ & _ & _ & _ & E6 & _ & E8 & LO). exists b. split; [reflexivity|]. destruct LO as [N1 N2 N3].
    assert (N : b_nspans b = 27%nat) by (rewrite N1, E1; reflexivity).
    split; [|split; [exact N|split; [rewrite E6; exact (va_R _ _ _ V)|exact E8]]].
    constructor; try assumption; [lia|]. rewrite E1. cbn [ct_L long_ctor]. apply Forall_forall. intros x Hx. apply repeat_spec in Hx. lra.
  - exfalso. destruct C as [_ C]. apply (C (concat (repeat [-1; 0] 28)) (repeat 1%nat 27)). constructor; try reflexivity; cbn.
    + repeat (apply Forall2_cons; [apply (tc_num 1); lia|]). apply Forall2_nil.
    + repeat (apply Forall2_cons; [exact I|]). apply Forall2_nil.
    + repeat (apply Forall2_cons; [exact I|]). apply Forall2_nil.
Qed.

Lemma letters_run_out : exists c b p, beam_init c = Ok b /\ documented b /\ beam_plotter b OwnLoads = Ok p /\
  forall fmt uni scale dims show us, exists ls r, tikz_lines fmt uni p scale dims true show us = Ok ls /\
    In (tab ++ "\notation{1}{p27}{$\$}" ++ r)%string ls.
Proof.
  destruct long_beam as (b & E & K & N & ER & EL). exists long_ctor, b.
  assert (LR : List.length (b_R b) = (2 * (b_nspans b + 1))%nat) by (rewrite ER, N; reflexivity).
  destruct (draws b OwnLoads [] [] K LR ltac:(cbn; rewrite EL; reflexivity) eq_refl (Forall_nil _)) as (p & P & PL). exists p.
  assert (D : documented b).
  { unfold documented. rewrite ER. apply Forall_forall. intros x Hx. apply in_concat in Hx as (l & Hl & Hx). apply repeat_spec in Hl. subst l.
    destruct Hx as [<-|[<-|[]]]; auto. }
  split; [exact E|]. split; [exact D|]. split; [exact P|]. intros fmt uni scale dims show us.
  destruct (drawable fmt uni b OwnLoads p [] scale dims true show us K P ltac:(rewrite PL; reflexivity) (Forall_nil _)) as (ls & T). exists ls.
  pose proof (supports_drawn b OwnLoads p K D P) as [SH _].
  assert (IN : In 27%nat (map s_node (pl_supports p))).
  { rewrite SH, N. apply filter_In. split; [apply in_seq; lia|]. unfold vert, restraint. rewrite ER. change (nth (2 * 27) (concat (repeat [-1; 0] 28)) 0) with (-1).
    destruct (Reqb_spec (-1) 0); [lra|reflexivity]. }
  apply in_map_iff in IN as (x & X1 & X2). destruct (letter fmt uni b OwnLoads p scale dims show us ls x K P T X2) as (r & L). rewrite X1 in L. exists r. split; [exact T|]. exact L.
Qed.

(** ** Restraints that are not shown *)
Definition one_span (rs : list R) : ctor :=
  {| BeamModel.ct_L := [4]; BeamModel.ct_EI := EIAll (RConst 2); BeamModel.ct_R := Some rs; BeamModel.ct_LM := None;
     BeamModel.ct_types := [EtNum [1%Z]]; BeamModel.ct_D := None; BeamModel.ct_sup := None; BeamModel.ct_GAv := GNone; BeamModel.ct_kf := KNone |}.
Ltac kind := unfold infer_supports; cbn; unfold support_step; cbn; unfold support_kind;
  repeat (match goal with
  | |- context [Reqb ?a ?b] => destruct (Reqb_spec a b); [try (exfalso; lra)|try (exfalso; lra)]
  | |- context [Rltb ?a ?b] => destruct (Rltb_spec a b); [try (exfalso; lra)|try (exfalso; lra)]
  end; cbn); reflexivity.
Definition clamp_right : support := {| s_x := 0 + 4; s_kind := KFixed; s_node := 1; s_left := false; s_right := true; s_rot := false |}.
Definition spring_left : support := {| s_x := 0; s_kind := KSpring; s_node := 0; s_left := true; s_right := false; s_rot := false |}.
Lemma k2 : infer_supports [0; 0 + 4] [-2; 0; -1; -1] = Ok [clamp_right].
Proof. kind. Qed.
Lemma k5 : infer_supports [0; 0 + 4] [5; -1; -1; -1] = Ok [spring_left; clamp_right].
Proof. kind. Qed.
Lemma k50 : infer_supports [0; 0 + 4] [5; 0; -1; -1] = Ok [spring_left; clamp_right].
Proof. kind. Qed.

Lemma minus_two : exists c b p, beam_init c = Ok b /\ vert b 0 < 0 /\ beam_plotter b OwnLoads = Ok p /\ forall s, In s (pl_supports p) -> s_node s <> 0%nat.
Proof.
  exists (one_span [-2; 0; -1; -1]). eexists. eexists. split; [reflexivity|]. split; [unfold vert, restraint; cbn; lra|]. split.
  - unfold beam_plotter. cbn -[infer_supports]. rewrite k2. cbn. reflexivity.
  - cbn. intros s [<-|[]]. cbn. lia.
Qed.

Lemma spring_hides_clamp : exists c1 c2 b1 b2 p1 p2, beam_init c1 = Ok b1 /\ beam_init c2 = Ok b2 /\ documented b1 /\ documented b2 /\
  rot b1 0 < 0 /\ rot b2 0 = 0 /\ beam_plotter b1 OwnLoads = Ok p1 /\ beam_plotter b2 OwnLoads = Ok p2 /\
  pl_supports p1 = pl_supports p2 /\ pl_hinges p1 = pl_hinges p2.
Proof.
  exists (one_span [5; -1; -1; -1]), (one_span [5; 0; -1; -1]). do 4 eexists. split; [reflexivity|]. split; [reflexivity|].
  split; [unfold documented; cbn; repeat (apply Forall_cons || apply Forall_nil); solve [left; lra | right; left; lra | right; right; lra]|]. split; [unfold documented; cbn; repeat (apply Forall_cons || apply Forall_nil); solve [left; lra | right; left; lra | right; right; lra]|].
  split; [unfold rot, restraint; cbn [nth b_R with_R with_D with_LM Nat.mul Nat.add]; lra|]. split; [reflexivity|].
  split; [unfold beam_plotter; cbn -[infer_supports]; rewrite k5; cbn; reflexivity|]. split; [unfold beam_plotter; cbn -[infer_supports]; rewrite k50; cbn; reflexivity|]. split; reflexivity.
Qed.

(** ** Loads drawn off their span *)
Lemma deck_sample : deck sample_beam.
Proof.
  constructor; [reflexivity|reflexivity|reflexivity|cbn; lia|]. cbn.
  repeat (apply Forall_cons || apply Forall_nil); lra.
Qed.
Lemma sample_draws lm ls : parse_LM lm = Ok ls -> on_spans sample_beam ls -> exists p, beam_plotter sample_beam (GivenRows lm) = Ok p /\ pl_LM p = lm.
Proof. intros P O. exact (draws sample_beam (GivenRows lm) lm ls deck_sample eq_refl eq_refl P O). Qed.

Lemma overhang_drawn : exists lm p q, beam_plotter sample_beam (GivenRows lm) = Ok p /\ In q (dr_dist (pl_loads p)) /\ d_span q = 0%Z /\ node_at sample_beam 1 < d_x1 q.
Proof.
  exists [Row 1 3 [10; 3; 2]]. 
  assert (O : on_spans sample_beam [(0%Z, LPUDL 10 3 2)]) by (apply Forall_cons; [cbn; lia|apply Forall_nil]).
  destruct (sample_draws [Row 1 3 [10; 3; 2]] [(0%Z, LPUDL 10 3 2)] eq_refl O) as (p & P & _).
  exists p, {| d_span := 0; d_x0 := 0 + 3; d_x1 := 0 + 3 + 2; d_w0 := 10; d_w1 := 10 |}. split; [exact P|].
  destruct (plotter_parts _ _ _ P) as (lm & sup & d & E1 & _ & E3 & ->). injection E1 as <-. cbn in E3. injection E3 as <-. split; [left; reflexivity|]. split; [reflexivity|]. unfold node_at. cbn. lra.
Qed.

Lemma span_zero_drawn : exists lm ls p q, parsed_loads (set_loads sample_beam lm) = Ok ls /\ (forall m, loads_of ls m = []) /\
  beam_plotter sample_beam (GivenRows lm) = Ok p /\ In q (dr_dist (pl_loads p)) /\ d_w0 q = 10 /\ d_x0 q = b_length sample_beam.
Proof.
  exists [Row 0 1 [10]], [((-1)%Z, LUDL 10)].
  assert (Q : exists p, beam_plotter sample_beam (GivenRows [Row 0 1 [10]]) = Ok p).
  { unfold beam_plotter, infer_supports. cbn [resolve_lm rbind sample_beam b_terminal b_R].
    destruct (sample_draws [] [] eq_refl (Forall_nil _)) as (p0 & P0 & _). unfold beam_plotter, infer_supports in P0. cbn [resolve_lm rbind sample_beam b_terminal b_R] in P0.
    apply rbind_ok in P0 as (sup & S0 & _). rewrite S0. cbn. eexists. reflexivity. }
  destruct Q as (p & P). exists p. eexists. split; [reflexivity|]. split; [intros [|m]; reflexivity|]. split; [exact P|].
  destruct (plotter_parts _ _ _ P) as (lm & sup & d & E1 & _ & E3 & ->). injection E1 as <-. cbn in E3. injection E3 as <-. split; [left; reflexivity|]. split; reflexivity.
Qed.

(** ** Small reactions *)
Lemma reported_scaled b N g oA o : combination N g oA 0 oA o -> forall i, reported b o i = g * reported b oA i.
Proof.
  intros (_ & (_ & _ & C1) & (_ & _ & C2)) i. unfold reported. destruct (Rlt_dec (restraint b i) 0); [rewrite C1; ring|]. destruct (Rlt_dec 0 (restraint b i)); [rewrite C2; ring|ring].
Qed.

Lemma bounded (f : nat -> R) n : exists B, 0 < B /\ forall i, (i < n)%nat -> Rabs (f i) <= B.
Proof.
  induction n as [|n (B & B0 & HB)]; [exists 1; split; [lra|intros; lia]|]. exists (Rmax B (Rabs (f n))). split; [apply (Rlt_le_trans _ _ _ B0), Rmax_l|].
  intros i Hi. destruct (Nat.eq_dec i n) as [->|]; [apply Rmax_r|]. apply (Rle_trans _ B); [apply HB; lia|apply Rmax_l].
Qed.

Lemma small_reactions gl ill a A oA : no_settlement (an_beam a) -> Forall wf_row A -> run gl ill a A false = Ok oA -> List.length (b_R (an_beam a)) = an_ndof a ->
  exists g0, 0 < g0 /\ forall g A', 0 < g < g0 -> factor_LM A g = Ok A' -> exists o, run gl ill a A' false = Ok o /\ reactions_by_node (an_beam a) o = Ok ([], []) /\
     forall i, reported (an_beam a) o i = g * reported (an_beam a) oA i.
Proof.
  intros NS WF E LR. destruct (bounded (reported (an_beam a) oA) (an_ndof a)) as (B & B0 & HB). exists (/ 10^6 / B).
  assert (G0 : 0 < / 10^6 / B) by (apply Rdiv_lt_0_compat; [apply Rinv_0_lt_compat; lra|exact B0]). split; [exact G0|].
  intros g A' Hg F. destruct (run_factor gl ill a A A' g false oA NS WF F E) as (o & R1 & C & _). exists o. split; [exact R1|]. pose proof (reported_scaled (an_beam a) _ _ _ _ C) as RS.
  split; [|exact RS]. unfold run in R1. destruct (analyze_core gl ill (with_beam a (set_loads (an_beam a) A')) None false) as [a' r] eqn:Q. cbn in R1. subst r.
  destruct (reactions_listed _ _ _ _ _ _ _ Q LR) as (V & M & E1 & E2 & E3).
  change (reactions_by_node (an_beam a) o = Ok (V, M)) in E1. rewrite E1.
  assert (S : forall i, (i < an_ndof a)%nat -> ~ / 10^6 < Rabs (reported (an_beam a) o i)).
  { intros i Hi. rewrite RS, Rabs_mult, (Rabs_pos_eq g) by lra. specialize (HB i Hi). apply Rle_not_lt. apply (Rle_trans _ (g * B)); [apply Rmult_le_compat_l; lra|].
    apply (Rle_trans _ (/ 10^6 / B * B)); [apply Rmult_le_compat_r; lra|]. right. unfold Rdiv. rewrite Rmult_assoc, Rinv_l by lra. ring. }
  assert (ND : an_ndof a = (2 * (an_n a + 1))%nat) by reflexivity.
  destruct V as [|[n v] V].
  2:{ exfalso. destruct (proj1 (E2 n v) (or_introl eq_refl)) as (N1 & -> & N2). cbn [an_n with_beam] in N1. apply (S (2 * n)%nat); [lia|exact N2]. }
  destruct M as [|[n v] M].
  2:{ exfalso. destruct (proj1 (E3 n v) (or_introl eq_refl)) as (N1 & -> & N2). cbn [an_n with_beam] in N1. apply (S (2 * n + 1)%nat); [lia|exact N2]. }
  reflexivity.
Qed.

Lemma reaction_hidden : exists A o, run sample_gl (fun _ _ => false) sample A false = Ok o /\
  reactions_by_node sample_beam o = Ok ([], []) /\ rsum 3 (fun j => reported sample_beam o (2 * j)) <> 0.
Proof.
  destruct (sample_runs (fun _ _ => false) sample_A sample_A_wf) as (oA & RA).
  assert (NS : no_settlement (an_beam sample)) by (intros i; left; unfold prescribed; cbn; do 6 (destruct i as [|i]; [reflexivity|]); destruct i; reflexivity).
  assert (WF : Forall wf_row sample_A) by (repeat constructor; cbn; lia || exact I).
  destruct (small_reactions sample_gl (fun _ _ => false) sample sample_A oA NS WF RA eq_refl) as (g0 & G0 & H).
  destruct (H (g0 / 2) [Row 1 1 [g0 / 2 * 10]] ltac:(lra)) as (o & O1 & O2 & O3).
  { cbn. repeat f_equal; ring. }
  exists [Row 1 1 [g0 / 2 * 10]], o. split; [exact O1|]. split; [exact O2|].
  assert (T : rsum 3 (fun j => reported sample_beam oA (2 * j)) = 40).
  { unfold run in RA. destruct (analyze_core sample_gl (fun _ _ => false) (with_beam sample (set_loads (an_beam sample) sample_A)) None false) as [a' r] eqn:Q. cbn in RA. subst r.
    refine (analyze_total sample_gl _ (with_beam sample (set_loads (an_beam sample) sample_A)) _ _ _ oA 40 gauss2_rule _ sample_A_on _ Q sample_A_load).
    - intros m mb Hm E. exact (proj1 (proj1 (sample_sound 2 sample_A (le_n 2) m mb Hm E))).
    - intros i Hi. exfalso. apply Hi. unfold prescribed; cbn. do 6 (destruct i as [|i]; [reflexivity|]); destruct i; reflexivity. }
  cbn [rsum] in *. change (an_beam sample) with sample_beam in O3. rewrite !O3. nra.
Qed.

(** ** add_trap with a length but no start *)
Lemma trap_spread : exists a' ld, add_helper sample (AddTrap 1 10 20 None (Some 1)) = Ok a' /\ parsed_loads (an_beam a') = Ok [(0%Z, ld)] /\
  intensity (action_of 4 ld) 3 = 35/2.
Proof.
  eexists. exists (LTrap 10 20 0 None). split; [reflexivity|]. split; [reflexivity|]. cbn. repeat destruct (Rlt_dec _ _); cbn; lra.
Qed.

(** ** Sources, and a sample *)
Lemma source_used b s p : beam_plotter b s = Ok p ->
  match s with
  | OwnLoads => pl_LM p = b_LM b
  | GivenRows lm => pl_LM p = lm
  | GivenCase r => r = Ok (pl_LM p)
  | GivenCombination r => r = Some (Ok (pl_LM p))
  end.
Proof.
  intros H. destruct (plotter_parts _ _ _ H) as (lm & sup & d & E1 & _ & _ & ->). cbn [pl_LM]. destruct s as [|l|r|[r|]]; cbn in E1; try (injection E1 as <-; reflexivity); try discriminate; try (subst; reflexivity).
Qed.

(** ** What is not drawn *)
Definition imposed (lm : list row) : list (Z * load) :=
  flat_map (fun r => match r with Row sp 6 args => [((sp - 1)%Z, LIC args None)] | _ => [] end) lm.
Definition is_imposed (q : Z * load) : bool := match snd q with LIC _ _ => true | _ => false end.
Lemma draw_skips xs lens d q d' : draw_load xs lens d q = Ok d' -> dr_skip d' = (dr_skip d ++ filter is_imposed [q])%list.
Proof.
  unfold draw_load. intros H. apply rbind_ok in H as (off & _ & H). apply rbind_ok in H as (L & _ & H). destruct q as [sp ld]. cbn [fst snd] in H.
  destruct ld as [w|P a|w a c|w1 w2 a co|Ma Mb|mo a|kap EI]; cbn [filter is_imposed snd]; rewrite ?app_nil_r;
    try (injection H as <-; reflexivity).
  destruct (trap_resolve w1 w2 a co L) as [[[[v1 v2] dw] a'] c']. destruct (Rltb 0 c'); injection H as <-; reflexivity.
Qed.
Lemma draws_skip xs lens ls : forall d d', foldM (draw_load xs lens) ls d = Ok d' -> dr_skip d' = (dr_skip d ++ filter is_imposed ls)%list.
Proof.
  induction ls as [|q t IH]; cbn [foldM]; intros d d' H.
  - injection H as <-. cbn. rewrite app_nil_r. reflexivity.
  - apply rbind_ok in H as (d1 & H1 & H). rewrite (IH _ _ H), (draw_skips _ _ _ _ _ H1), <- app_assoc, <- filter_app. reflexivity.
Qed.
Lemma parsed_imposed r l : parse_row r = Ok l -> filter is_imposed l = imposed [r].
Proof.
  destruct r as [sp t args| |]; cbn [parse_row]; try discriminate. unfold imposed. cbn [flat_map]. rewrite app_nil_r.
  destruct (Z.eqb_spec t 1) as [->|N1]; [intros H; apply rbind_ok in H as (w & _ & H); injection H as <-; reflexivity|].
  destruct (Z.eqb_spec t 2) as [->|N2]; [intros H; apply rbind_ok in H as (w & _ & H); apply rbind_ok in H as (a & _ & H); injection H as <-; reflexivity|].
  destruct (Z.eqb_spec t 3) as [->|N3]; [intros H; apply rbind_ok in H as (w & _ & H); apply rbind_ok in H as (a & _ & H); apply rbind_ok in H as (c & _ & H); injection H as <-; reflexivity|].
  destruct (Z.eqb_spec t 4) as [->|N4]; [intros H; apply rbind_ok in H as (w & _ & H); apply rbind_ok in H as (a & _ & H); injection H as <-; reflexivity|].
  destruct (Z.eqb_spec t 5) as [->|N5]; [intros H; apply rbind_ok in H as (w & _ & H); apply rbind_ok in H as (a & _ & H); injection H as <-; reflexivity|].
  destruct (Z.eqb_spec t 6) as [->|N6]; intros H; injection H as <-; [reflexivity|].
  cbn [filter]. destruct t as [|q|q]; try reflexivity. destruct q as [q|q|]; try reflexivity. destruct q as [q|q|]; try reflexivity. destruct q as [q|q|]; try reflexivity. exfalso. apply N6. reflexivity.
Qed.
Lemma skipped_listed b s p : beam_plotter b s = Ok p -> dr_skip (pl_loads p) = imposed (pl_LM p).
Proof.
  intros H. destruct (plotter_parts _ _ _ H) as (lm & sup & d & _ & _ & E3 & ->). cbn [pl_LM pl_loads]. unfold infer_loads in E3.
  apply rbind_ok in E3 as (ls & P & E). rewrite (draws_skip _ _ _ _ _ E). cbn [dr_skip app]. clear E H. revert P. unfold parse_LM. destruct (forallb _ lm); [|discriminate]. cbn [negb].
  intros P. apply rbind_ok in P as (l0 & P & C). injection C as <-. revert l0 P. induction lm as [|r t IH]; cbn [mapM]; intros l0 P.
  - injection P as <-. reflexivity.
  - apply rbind_ok in P as (h & P1 & P). apply rbind_ok in P as (t' & P2 & P). injection P as <-. cbn [concat]. rewrite filter_app, (IH _ P2), (parsed_imposed _ _ P1).
    unfold imposed. cbn [flat_map]. rewrite app_nil_r. reflexivity.
Qed.

Lemma unique_names fmt uni p scale dims labels show us ls : tikz_lines fmt uni p scale dims labels show us = Ok ls -> NoDup (flat_map declared ls).
Proof. intros T. change (flat_map declared ls) with (decls ls). rewrite (lines_declare fmt uni p scale dims labels show us ls T). apply names_nodup. Qed.

Definition sample_rows : list row := [Row 1 1 [10]; Row 2 2 [5; 2]; Row 2 5 [1; 3; 2; 3]; Row 1 4 [7; 1]].
Definition sample_parsed : list (Z * load) := [(0%Z, LUDL 10); (1%Z, LPL 5 2); (1%Z, LTrap 1 3 2 (Some 3)); (0%Z, LML 7 1)].
Lemma sample_on : on_spans sample_beam sample_parsed.
Proof. unfold on_spans. repeat (apply Forall_cons; [cbn; lia|]). apply Forall_nil. Qed.
Lemma sample_fits : Forall (fits sample_beam) sample_parsed.
Proof.
  repeat (apply Forall_cons; [|]); try apply Forall_nil.
  1,4: exists 0%nat; cbn; repeat split; lia || lra.
  all: exists 1%nat; cbn; repeat split; lia || lra.
Qed.
Lemma sample_documented : documented sample_beam.
Proof. unfold documented; cbn; repeat (apply Forall_cons || apply Forall_nil); solve [left; lra | right; left; lra | right; right; lra]. Qed.

Lemma sense_example : exists p p', beam_plotter sample_beam (GivenRows [Row 1 1 [10]]) = Ok p /\ beam_plotter sample_beam (GivenRows [Row 1 1 [-10]]) = Ok p' /\
  forall fmt uni scale dims labels show us, exists ls,
    tikz_lines fmt uni p scale dims labels show us = Ok ls /\ tikz_lines fmt uni p' scale dims labels show us = Ok ls.
Proof.
  assert (O : forall w, on_spans sample_beam [(0%Z, LUDL w)]) by (intros w; apply Forall_cons; [cbn; lia|apply Forall_nil]).
  destruct (sample_draws [Row 1 1 [10]] [(0%Z, LUDL 10)] eq_refl (O 10)) as (p & P & PL).
  destruct (sample_draws [Row 1 1 [-10]] [(0%Z, LUDL (-10))] eq_refl (O (-10))) as (p' & P' & _). exists p, p'. split; [exact P|]. split; [exact P'|].
  intros fmt uni scale dims labels show us.
  destruct (drawable fmt uni sample_beam _ p [(0%Z, LUDL 10)] scale dims labels show us deck_sample P ltac:(rewrite PL; reflexivity) (O 10)) as (ls & T).
  exists ls. split; [exact T|]. rewrite <- T. symmetry. exact (sense_lost fmt uni sample_beam 1 10 p p' scale dims labels show us P P').
Qed.
