(** Proofs: the TikZ source is produced, places the loads where they act, loses the sense of
    distributed loads, and runs out of letters. *)
From Coq Require Import ZArith Ascii String.
From Verif Require Import Base BaseFacts SectionModel LoadModel LoadSpec FoundationModel ElementModel UtilsModel UtilsSpec BeamModel BeamSpec CtorFacts AnalysisModel AnalysisSpec
  AnalysisFacts2 AnalysisFacts3 ResultsModel ResultsSpec ResultsFacts BridgeSpec UnitsModel RenderModel RenderSpec RenderFacts RenderFacts2 RenderFacts3.
Open Scope R_scope.

Lemma mapM_total {A B} (f : A -> result B) l : (forall a, In a l -> exists s, f a = Ok s) -> exists ls, mapM f l = Ok ls.
Proof.
  induction l as [|a l IH]; intros H; cbn [mapM]; [eauto|]. destruct (H a (or_introl eq_refl)) as (s & ->). cbn [rbind].
  destruct IH as (ls & ->); [intros; apply H; right; assumption|]. cbn [rbind]. eauto.
Qed.
Lemma mapM_nth {A B} (f : A -> result B) l ls k a : mapM f l = Ok ls -> nth_error l k = Some a -> exists s, f a = Ok s /\ In s ls.
Proof.
  revert ls k. induction l as [|x l IH]; intros ls [|k]; cbn [mapM nth_error]; intros H E; try discriminate;
    apply rbind_ok in H as (s & Hs & H); apply rbind_ok in H as (ss & Hss & H); injection H as <-.
  - injection E as ->. exists s. split; [exact Hs|left; reflexivity].
  - destruct (IH ss k Hss E) as (t & T1 & T2). exists t. split; [exact T1|right; exact T2].
Qed.
Lemma numbered_nth {A} (l : list A) k a : nth_error l k = Some a -> nth_error (numbered l) k = Some (k, a).
Proof.
  unfold numbered. enough (G : forall n, nth_error l k = Some a -> nth_error (combine (seq n (List.length l)) l) k = Some ((n + k)%nat, a)) by (intros H; apply (G 0%nat H)).
  revert k. induction l as [|x l IH]; intros [|k] n H; cbn in *; try discriminate.
  - injection H as ->. rewrite Nat.add_0_r. reflexivity.
  - rewrite (IH k (S n) H). do 2 f_equal. lia.
Qed.

Section T.
Variable fmt : R -> string.
Variable uni : nat -> string.
Local Open Scope string_scope.
Notation node_name := (node_name uni).

Lemma name_at n i : (i < n)%nat -> get (map node_name (seq 0 n)) i = Ok (node_name i).
Proof.
  intros H. unfold get. rewrite nth_error_map, (nth_error_nth' _ 0%nat) by (rewrite seq_length; exact H). rewrite seq_nth by exact H. reflexivity.
Qed.
Lemma py_name n i : (i < n)%nat -> py_get (map node_name (seq 0 n)) (Z.of_nat i) = Ok (node_name i).
Proof.
  intros H. unfold py_get, py_index. rewrite map_length, seq_length. destruct (Z.leb_spec 0 (Z.of_nat i)); [|lia]. destruct (Z.ltb_spec (Z.of_nat i) (Z.of_nat n)); [|lia].
  cbn [rbind]. rewrite Nat2Z.id. apply name_at. exact H.
Qed.
Lemma py_node b i : deck b -> (i <= b_nspans b)%nat -> py_get (b_terminal b) (Z.of_nat i) = Ok (node_at b i).
Proof.
  intros K H. assert (LT : List.length (b_terminal b) = (b_nspans b + 1)%nat) by (rewrite (dk_term b K), map_length, seq_length; lia).
  unfold py_get, py_index. rewrite LT. destruct (Z.leb_spec 0 (Z.of_nat i)); [|lia]. destruct (Z.ltb_spec (Z.of_nat i) (Z.of_nat (b_nspans b + 1))); [|lia].
  cbn [rbind]. rewrite Nat2Z.id. unfold get. rewrite (dk_term b K). rewrite nth_error_map, (nth_error_nth' _ 0%nat) by (rewrite seq_length; lia).
  rewrite seq_nth by lia. reflexivity.
Qed.

(** The line that places [name] at a fraction [f] of the way along span [m]. *)
Definition spot0 (name : string) (m : nat) (f : R) : string :=
  "\node (" ++ name ++ ") at ($(" ++ node_name m ++ ")!" ++ fmt f ++ "!(" ++ node_name (S m) ++ ")$){};".

Section P.
Variable b : beam.
Variable p : plotter.
Hypothesis K : deck b.
Hypothesis X : pl_x p = b_terminal b.
Hypothesis B : pl_beam p = b.
Let nodes := map node_name (seq 0 (List.length (pl_x p))).

Lemma term_len : List.length (pl_x p) = (b_nspans b + 1)%nat.
Proof. rewrite X, (dk_term b K), map_length, seq_length. lia. Qed.

Lemma place_spot name m x : (m < b_nspans b)%nat -> exists f, place fmt p nodes name (Z.of_nat m) x = Ok (spot0 name m f) /\
  node_at b m + f * (node_at b (S m) - node_at b m) = x.
Proof.
  intros H. unfold place, nodes. rewrite term_len. rewrite py_name by lia. cbn [rbind].
  replace (Z.of_nat m + 1)%Z with (Z.of_nat (S m)) by lia. rewrite py_name by lia. cbn [rbind].
  unfold span_fraction. rewrite X, py_node by (assumption || lia). cbn [rbind].
  replace (Z.of_nat m + 1)%Z with (Z.of_nat (S m)) by lia. rewrite py_node by (assumption || lia). cbn [rbind].
  pose proof (span_pos b m K H) as L. rewrite !node_next. destruct (Reqb_spec (node_at b m + span_length b m - node_at b m) 0) as [Q|Q]; [lra|].
  eexists. split; [reflexivity|]. field. lra.
Qed.

Lemma block_in ls l title : In l ls -> In (tab ++ l) (opt_block title ls).
Proof. intros H. destruct ls as [|x ls]; [destruct H|]. right. apply (in_map (append tab)). exact H. Qed.

Lemma load_in scale dims labels show us ls : tikz_lines fmt uni p scale dims labels show us = Ok ls ->
  exists lds, loads_tikz fmt p nodes show us = Ok lds /\ forall l, In l lds -> In (tab ++ l) ls.
Proof.
  unfold tikz_lines. cbv zeta. fold nodes. intros H.
  apply rbind_ok in H as (beams & Hb & H). apply rbind_ok in H as (sup & Hs & H). apply rbind_ok in H as (hin & Hh & H).
  apply rbind_ok in H as (lds & Hl & H). apply rbind_ok in H as (dm & Hd & H). apply rbind_ok in H as (lb & Hlb & H). injection H as <-.
  exists lds. split; [exact Hl|]. intros l Hin. apply (block_in lds l "% Loads") in Hin.
  right. apply in_or_app. right. right. apply in_or_app. right. right. apply in_or_app. right. right. apply in_or_app. right.
  apply in_or_app. right. apply in_or_app. left. exact Hin.
Qed.

Lemma label_in scale dims show us ls s : tikz_lines fmt uni p scale dims true show us = Ok ls -> In s (pl_supports p) ->
  exists l, label_tikz uni nodes s = Ok l /\ In l ls.
Proof.
  unfold tikz_lines. cbv zeta. fold nodes. intros H Hs0.
  apply rbind_ok in H as (beams & Hb & H). apply rbind_ok in H as (sup & Hs & H). apply rbind_ok in H as (hin & Hh & H).
  apply rbind_ok in H as (lds & Hl & H). apply rbind_ok in H as (dm & Hd & H). apply rbind_ok in H as (lb & Hlb & H). injection H as <-.
  apply rbind_ok in Hlb as (ds & Hds & Hlb). injection Hlb as <-. destruct (In_nth_error _ _ Hs0) as (k & Hk).
  destruct (mapM_nth _ _ _ _ _ Hds Hk) as (l & L1 & L2). exists l. split; [exact L1|].
  right. apply in_or_app. right. right. apply in_or_app. right. right. apply in_or_app. right. right. apply in_or_app. right.
  apply in_or_app. right. apply in_or_app. right. apply in_or_app. right. right. apply in_or_app. left. exact L2.
Qed.

Lemma in_concat_of {A} (ls : list (list A)) s x : In s ls -> In x s -> In x (concat ls).
Proof. intros H1 H2. apply in_concat. exists s. auto. Qed.

Lemma point_spot lds show us k q m : loads_tikz fmt p nodes show us = Ok lds -> nth_error (dr_pts (pl_loads p)) k = Some q -> p_span q = Z.of_nat m -> (m < b_nspans b)%nat ->
  exists f, In (spot0 ("pl" ++ nat_str k) m f) lds /\ node_at b m + f * (node_at b (S m) - node_at b m) = p_x q.
Proof.
  unfold loads_tikz. intros H E S Hm. apply rbind_ok in H as (dl & Hd & H). apply rbind_ok in H as (pl & Hp & H). apply rbind_ok in H as (ml & _ & H). injection H as <-.
  destruct (mapM_nth _ _ _ _ _ Hp (numbered_nth _ _ _ E)) as (s & S1 & S2). unfold point_tikz in S1. rewrite S in S1.
  destruct (place_spot ("pl" ++ nat_str k) m (p_x q) Hm) as (f & F1 & F2). fold nodes in F1. rewrite F1 in S1. cbn [rbind] in S1. injection S1 as <-.
  exists f. split; [|exact F2]. apply in_or_app. right. apply in_or_app. left. apply (in_concat_of _ _ _ S2). left. reflexivity.
Qed.
Lemma moment_spot lds show us k q m : loads_tikz fmt p nodes show us = Ok lds -> nth_error (dr_moms (pl_loads p)) k = Some q -> m_span q = Z.of_nat m -> (m < b_nspans b)%nat ->
  exists f, In (spot0 ("ml" ++ nat_str k) m f) lds /\ node_at b m + f * (node_at b (S m) - node_at b m) = m_x q.
Proof.
  unfold loads_tikz. intros H E S Hm. apply rbind_ok in H as (dl & Hd & H). apply rbind_ok in H as (pl & _ & H). apply rbind_ok in H as (ml & Hp & H). injection H as <-.
  destruct (mapM_nth _ _ _ _ _ Hp (numbered_nth _ _ _ E)) as (s & S1 & S2). unfold moment_tikz in S1. rewrite S in S1.
  destruct (place_spot ("ml" ++ nat_str k) m (m_x q) Hm) as (f & F1 & F2). fold nodes in F1. rewrite F1 in S1. cbn [rbind] in S1. injection S1 as <-.
  exists f. split; [|exact F2]. apply in_or_app. right. apply in_or_app. right. apply (in_concat_of _ _ _ S2). left. reflexivity.
Qed.
Lemma dist_spot lds show us k q m : loads_tikz fmt p nodes show us = Ok lds -> nth_error (dr_dist (pl_loads p)) k = Some q -> d_span q = Z.of_nat m -> (m < b_nspans b)%nat ->
  exists f g, In (spot0 ("dl" ++ nat_str k ++ "a") m f) lds /\ In (spot0 ("dl" ++ nat_str k ++ "b") m g) lds /\
    node_at b m + f * (node_at b (S m) - node_at b m) = d_x0 q /\ node_at b m + g * (node_at b (S m) - node_at b m) = d_x1 q.
Proof.
  unfold loads_tikz. intros H E S Hm. apply rbind_ok in H as (dl & Hd & H). apply rbind_ok in H as (pl & _ & H). apply rbind_ok in H as (ml & _ & H). injection H as <-.
  set (dd := dr_dist (pl_loads p)) in *.
  assert (G : (do ls <- mapM (dist_tikz fmt p nodes) (numbered dd);
             do ns <- (if show then mapM (dist_label fmt p us) (numbered dd) else Ok []);
             Ok ("\begin{scope}[color=red]" :: concat ls ++ "\end{scope}" :: concat ns)%list) = Ok dl).
  { destruct dd; [destruct k; discriminate E|exact Hd]. }
  apply rbind_ok in G as (l1 & G1 & G). apply rbind_ok in G as (l2 & G2 & G). injection G as <-.
  destruct (mapM_nth _ _ _ _ _ G1 (numbered_nth _ _ _ E)) as (s & S1 & S2). unfold dist_tikz in S1. rewrite S in S1.
  destruct (place_spot ("dl" ++ nat_str k ++ "a") m (d_x0 q) Hm) as (f & F1 & F2). destruct (place_spot ("dl" ++ nat_str k ++ "b") m (d_x1 q) Hm) as (g & F3 & F4).
  fold nodes in F1, F3. rewrite F1, F3 in S1. cbn [rbind] in S1. injection S1 as <-. exists f, g.
  split; [|split; [|split; [exact F2|exact F4]]]; apply in_or_app; left; right; apply in_or_app; left; apply (in_concat_of _ _ _ S2); [left|right; left]; reflexivity.
Qed.
End P.

(** ** The source is produced for loads on the spans of the beam *)
Record spans_ok (b : beam) (d : drawn) : Prop := {
  so_dist : forall q, In q (dr_dist d) -> exists m, (m < b_nspans b)%nat /\ d_span q = Z.of_nat m;
  so_pts : forall q, In q (dr_pts d) -> exists m, (m < b_nspans b)%nat /\ p_span q = Z.of_nat m;
  so_moms : forall q, In q (dr_moms d) -> exists m, (m < b_nspans b)%nat /\ m_span q = Z.of_nat m }.

Lemma draw_spans b d sp ld d' : (0 <= sp < Z.of_nat (b_nspans b))%Z -> draw_load (b_terminal b) (b_lengths b) d (sp, ld) = Ok d' -> spans_ok b d -> spans_ok b d'.
Proof.
  intros Hs H [S1 S2 S3]. unfold draw_load in H. cbn [fst snd] in H. apply rbind_ok in H as (off & _ & H). apply rbind_ok in H as (L & _ & H). injection H as <-.
  assert (M : exists m, (m < b_nspans b)%nat /\ sp = Z.of_nat m) by (exists (Z.to_nat sp); lia).
  destruct ld; try (constructor; cbn [dr_dist dr_pts dr_moms add_dist add_pt add_mom add_skip]; auto; intros q' Hq; apply in_app_or in Hq as [Hq|[<-|[]]]; auto; fail);
    try (constructor; assumption).
  destruct (trap_resolve _ _ _ _ _) as [[[[v1 v2] dw] a'] c']. destruct (Rltb 0 c'); [|constructor; assumption].
  constructor; cbn [dr_dist dr_pts dr_moms add_dist]; auto; intros q' Hq; apply in_app_or in Hq as [Hq|[<-|[]]]; auto.
Qed.

Lemma fold_spans b ls : on_spans b ls -> forall d d', foldM (draw_load (b_terminal b) (b_lengths b)) ls d = Ok d' -> spans_ok b d -> spans_ok b d'.
Proof.
  intros O. induction O as [|[sp ld] ls Hs O IH]; cbn [foldM]; intros d d' H S; [injection H as <-; exact S|].
  apply rbind_ok in H as (d1 & H1 & H). apply (IH d1 d' H). apply (draw_spans b d sp ld d1 Hs H1 S).
Qed.

Lemma support_nodes b sup : deck b -> infer_supports (b_terminal b) (b_R b) = Ok sup ->
  forall s, In s sup -> (s_node s <= b_nspans b)%nat /\ (s_left s = Nat.eqb (s_node s) 0) /\ (s_right s = Nat.eqb (s_node s) (b_nspans b)).
Proof.
  intros K H. assert (LT : List.length (b_terminal b) = (b_nspans b + 1)%nat) by (rewrite (dk_term b K), map_length, seq_length; lia).
  unfold infer_supports in H. apply rbind_ok in H as (pin & _ & H). apply rbind_ok in H as (st & Hst & H). injection H as <-. rewrite LT in Hst.
  assert (G : forall is st0 st1, (forall i, In i is -> (i <= b_nspans b)%nat) -> foldM (support_step (b_terminal b) (b_R b)) is st0 = Ok st1 ->
    (forall s, In s (fst st0) -> (s_node s <= b_nspans b)%nat /\ (s_left s = Nat.eqb (s_node s) 0) /\ (s_right s = Nat.eqb (s_node s) (b_nspans b))) ->
    forall s, In s (fst st1) -> (s_node s <= b_nspans b)%nat /\ (s_left s = Nat.eqb (s_node s) 0) /\ (s_right s = Nat.eqb (s_node s) (b_nspans b))).
  { induction is as [|i is IH]; cbn [foldM]; intros st0 st1 Hi F P0; [injection F as <-; exact P0|]. apply rbind_ok in F as (st2 & F1 & F).
    apply (IH st2 st1); [intros; apply Hi; right; assumption|exact F|]. unfold support_step in F1. apply rbind_ok in F1 as (v & _ & F1). apply rbind_ok in F1 as (r & _ & F1).
    destruct (support_kind _ _ _) as [[k|] pin']; [|injection F1 as <-; exact P0]. apply rbind_ok in F1 as (x & _ & F1). injection F1 as <-. cbn [fst].
    intros s Hs. apply in_app_or in Hs as [Hs|[<-|[]]]; [exact (P0 s Hs)|]. cbn [s_node s_left s_right]. rewrite LT. replace (b_nspans b + 1 - 1)%nat with (b_nspans b) by lia.
    split; [apply Hi; left; reflexivity|]. auto. }
  refine (G _ _ _ _ Hst _); [intros i Hi; apply in_seq in Hi; lia|intros s []].
Qed.

Lemma drawable b s p ls scale dims labels show us : deck b -> beam_plotter b s = Ok p -> parse_LM (pl_LM p) = Ok ls -> on_spans b ls ->
  exists lines, tikz_lines fmt uni p scale dims labels show us = Ok lines.
Proof.
  intros K H PL O. destruct (plotter_parts _ _ _ H) as (lm & sup & d & E1 & E2 & E3 & ->). cbn [pl_LM] in PL. unfold infer_loads in E3. rewrite PL in E3. cbn [rbind] in E3.
  assert (SO : spans_ok b d) by (apply (fold_spans b ls O _ _ E3); constructor; cbn; intros ? []).
  pose proof (support_nodes b sup K E2) as SN. pose proof (hinges_shown b K) as HG.
  set (p := {| pl_beam := b; pl_L := _ |}).
  assert (LT : List.length (pl_x p) = (b_nspans b + 1)%nat) by (apply (term_len b p K); reflexivity).
  unfold tikz_lines. cbv zeta. set (nodes := map node_name (seq 0 (List.length (pl_x p)))).
  assert (NM : forall i, (i <= b_nspans b)%nat -> get nodes i = Ok (node_name i)) by (intros i Hi; unfold nodes; apply name_at; lia).
  assert (PS : forall name m x, (m < b_nspans b)%nat -> exists l, place fmt p nodes name (Z.of_nat m) x = Ok l).
  { intros name m x Hm. destruct (place_spot b p K eq_refl name m x Hm) as (f & F & _). eauto. }
  change (pl_beam p) with b. change (pl_supports p) with sup.
  match goal with |- context [mapM ?f (seq 0 (b_nspans b))] => destruct (mapM_total f (seq 0 (b_nspans b))) as (beams & ->) end.
  { intros i Hi. apply in_seq in Hi. rewrite !NM by lia. cbn [rbind]. eauto. }
  cbn [rbind].
  match goal with |- context [mapM ?f sup] => destruct (mapM_total f sup) as (sl & ->) end.
  { intros x Hx. unfold support_tikz. rewrite NM by apply (SN x Hx). cbn [rbind]. eauto. }
  cbn [rbind].
  assert (exists hl, hinges_tikz p nodes = Ok hl) as (hl & ->).
  { unfold hinges_tikz. match goal with |- context [mapM ?f (filter simple_support ?l)] => destruct (mapM_total f (filter simple_support l)) as (h1 & ->) end.
    { intros x Hx. apply filter_In in Hx as [Hx _]. destruct (SN x Hx) as (N1 & N2 & N3). rewrite NM by exact N1. cbn [rbind].
      destruct (s_left x || s_right x) eqn:EE; [eauto|]. apply orb_false_elim in EE as [EL ER]. rewrite N2 in EL. rewrite N3 in ER. apply Nat.eqb_neq in EL. apply Nat.eqb_neq in ER.
      rewrite !NM by lia. cbn [rbind]. eauto. }
    cbn [rbind]. match goal with |- context [mapM ?f ?l] => destruct (mapM_total f l) as (h2 & ->) end.
    { intros x Hx. apply filter_In in Hx as [Hx _]. cbn [pl_hinges p] in Hx. apply HG in Hx as (i & Hi & _ & ->). cbn [h_node]. rewrite NM by lia. cbn [rbind]. eauto. }
    cbn [rbind]. eauto. }
  cbn [rbind].
  assert (exists ll, loads_tikz fmt p nodes show us = Ok ll) as (ll & ->).
  { unfold loads_tikz. change (pl_loads p) with d.
    assert (NB : forall A (l : list A) kx, In kx (numbered l) -> In (snd kx) l).
    { intros A l [k x] Hx. unfold numbered in Hx. apply in_combine_r in Hx. exact Hx. }
    assert (exists dl, match dr_dist d with [] => Ok [] | _ =>
       do ls <- mapM (dist_tikz fmt p nodes) (numbered (dr_dist d));
       do ns <- (if show then mapM (dist_label fmt p us) (numbered (dr_dist d)) else Ok []);
       Ok ("\begin{scope}[color=red]" :: concat ls ++ "\end{scope}" :: concat ns)%list end = Ok dl) as (dl & ->).
    { assert (exists l1, mapM (dist_tikz fmt p nodes) (numbered (dr_dist d)) = Ok l1) as (l1 & ->).
      { apply mapM_total. intros [k q] Hq. apply NB in Hq. cbn [snd] in Hq. destruct (so_dist b d SO q Hq) as (m & M1 & M2). unfold dist_tikz. rewrite M2.
        match goal with |- context [place fmt p nodes ?n ?z ?x] => destruct (PS n m x M1) as (a1 & ->) end. cbn [rbind].
        match goal with |- context [place fmt p nodes ?n ?z ?x] => destruct (PS n m x M1) as (a2 & ->) end. cbn [rbind]. eauto. }
      cbn [rbind].
      assert (exists l2, (if show then mapM (dist_label fmt p us) (numbered (dr_dist d)) else Ok []) = Ok l2) as (l2 & ->).
      { destruct show; [|eauto]. apply mapM_total. intros [k q] Hq. apply NB in Hq. cbn [snd] in Hq. destruct (so_dist b d SO q Hq) as (m & M1 & M2). unfold dist_label, is_partial_dist. rewrite M2.
        change (pl_x p) with (b_terminal b). rewrite (py_node b m K) by lia. cbn [rbind]. replace (Z.of_nat m + 1)%Z with (Z.of_nat (S m)) by lia.
        rewrite (py_node b (S m) K) by lia. cbn [rbind]. eauto. }
      cbn [rbind]. destruct (dr_dist d); eauto. }
    cbn [rbind].
    assert (exists l1, mapM (point_tikz fmt p nodes show us) (numbered (dr_pts d)) = Ok l1) as (l1 & ->).
    { apply mapM_total. intros [k q] Hq. apply NB in Hq. cbn [snd] in Hq. destruct (so_pts b d SO q Hq) as (m & M1 & M2). unfold point_tikz. rewrite M2.
      match goal with |- context [place fmt p nodes ?n ?z ?x] => destruct (PS n m x M1) as (a1 & ->) end. cbn [rbind]. eauto. }
    cbn [rbind].
    assert (exists l2, mapM (moment_tikz fmt p nodes show us) (numbered (dr_moms d)) = Ok l2) as (l2 & ->).
    { apply mapM_total. intros [k q] Hq. apply NB in Hq. cbn [snd] in Hq. destruct (so_moms b d SO q Hq) as (m & M1 & M2). unfold moment_tikz. rewrite M2.
      match goal with |- context [place fmt p nodes ?n ?z ?x] => destruct (PS n m x M1) as (a1 & ->) end. cbn [rbind]. eauto. }
    cbn [rbind]. eauto. }
  cbn [rbind].
  match goal with |- context [if dims then ?e else _] => assert (exists dm, (if dims then e else Ok []) = Ok dm) as (dm & ->) end.
  { destruct dims; [|eauto]. match goal with |- context [mapM ?f (seq 0 (b_nspans b))] => destruct (mapM_total f (seq 0 (b_nspans b))) as (ds & ->) end; [|cbn [rbind]; eauto].
    intros i Hi. apply in_seq in Hi. rewrite !NM by lia. cbn [rbind]. destruct (get_in (pl_x p) i ltac:(lia)) as (x0 & ->). destruct (get_in (pl_x p) (i + 1) ltac:(lia)) as (x1 & ->). cbn [rbind]. eauto. }
  cbn [rbind].
  match goal with |- context [if labels then ?e else _] => assert (exists dm, (if labels then e else Ok []) = Ok dm) as (lb & ->) end.
  { destruct labels; [|eauto]. match goal with |- context [mapM ?f sup] => destruct (mapM_total f sup) as (ds & ->) end; [|cbn [rbind]; eauto].
    intros x Hx. unfold label_tikz. rewrite NM by apply (SN x Hx). cbn [rbind]. eauto. }
  cbn [rbind]. eauto.
Qed.

(** ** The sense of a distributed load is not drawn *)
Lemma sense_lost b i w p p' scale dims labels show us :
  beam_plotter b (GivenRows [Row i 1 [w]]) = Ok p -> beam_plotter b (GivenRows [Row i 1 [(- w)%R]]) = Ok p' ->
  tikz_lines fmt uni p scale dims labels show us = tikz_lines fmt uni p' scale dims labels show us.
Proof.
  intros H H'. destruct (plotter_parts _ _ _ H) as (lm & sup & d & E1 & E2 & E3 & ->). destruct (plotter_parts _ _ _ H') as (lm' & sup' & d' & E1' & E2' & E3' & ->).
  rewrite E2 in E2'. injection E2' as <-. cbn [resolve_lm] in E1, E1'. injection E1 as <-. injection E1' as <-.
  unfold infer_loads in E3, E3'. cbn in E3, E3'. unfold draw_load in E3, E3'. cbn [fst snd] in E3, E3'.
  destruct (py_get (b_terminal b) (i - 1)) as [off|]; [|discriminate]. destruct (py_get (b_lengths b) (i - 1)) as [L|]; [|discriminate].
  cbn in E3, E3'. injection E3 as <-. injection E3' as <-.
  assert (A : Rabs (- w) = Rabs w) by apply Rabs_Ropp.
  unfold tikz_lines. cbv zeta. cbn [pl_x pl_beam pl_supports pl_L pl_loads].
  match goal with |- context [loads_tikz fmt ?p ?n show us] => set (p1 := p); set (nodes := n) end.
  match goal with |- context [loads_tikz fmt ?p nodes show us] => lazymatch p with p1 => fail | _ => set (p2 := p) end end.
  assert (Q : loads_tikz fmt p1 nodes show us = loads_tikz fmt p2 nodes show us).
  { unfold loads_tikz. change (dr_dist (pl_loads p1)) with [{| d_span := (i - 1)%Z; d_x0 := off; d_x1 := (off + L)%R; d_w0 := w; d_w1 := w |}].
    change (dr_dist (pl_loads p2)) with [{| d_span := (i - 1)%Z; d_x0 := off; d_x1 := (off + L)%R; d_w0 := (- w)%R; d_w1 := (- w)%R |}].
    change (dr_pts (pl_loads p1)) with (@nil pload). change (dr_pts (pl_loads p2)) with (@nil pload). change (dr_moms (pl_loads p1)) with (@nil mload). change (dr_moms (pl_loads p2)) with (@nil mload).
    cbn [numbered List.length seq combine mapM].
    assert (D : dist_tikz fmt p1 nodes (0%nat, {| d_span := i - 1; d_x0 := off; d_x1 := off + L; d_w0 := w; d_w1 := w |}) =
                dist_tikz fmt p2 nodes (0%nat, {| d_span := i - 1; d_x0 := off; d_x1 := off + L; d_w0 := - w; d_w1 := - w |})).
    { unfold dist_tikz, place. cbn [pl_loads pl_x p1 p2 add_dist dr_dist dr_pts dr_moms dr_skip app fold_left d_w0 d_w1 d_span d_x0 d_x1].
      assert (W : forall u v, Rabs u = Rabs v -> wmax [{| d_span := (i - 1)%Z; d_x0 := off; d_x1 := (off + L)%R; d_w0 := u; d_w1 := u |}] =
        wmax [{| d_span := (i - 1)%Z; d_x0 := off; d_x1 := (off + L)%R; d_w0 := v; d_w1 := v |}])
        by (intros u v Q; unfold wmax; cbn [fold_left d_w0 d_w1]; rewrite Q; reflexivity).
      rewrite (W _ _ A), !A. reflexivity. }
    assert (G : dist_label fmt p1 us (0%nat, {| d_span := i - 1; d_x0 := off; d_x1 := off + L; d_w0 := w; d_w1 := w |}) =
                dist_label fmt p2 us (0%nat, {| d_span := i - 1; d_x0 := off; d_x1 := off + L; d_w0 := - w; d_w1 := - w |})).
    { unfold dist_label, is_partial_dist. cbn [pl_loads pl_x pl_L p1 p2 d_w0 d_w1 d_span d_x0 d_x1]. rewrite !A.
      replace (- w - - w)%R with (w - w)%R by ring. reflexivity. }
    rewrite D, G. reflexivity. }
  rewrite Q. reflexivity.
Qed.

(** ** Letters *)
Lemma letter b s p scale dims show us ls x : deck b -> beam_plotter b s = Ok p -> tikz_lines fmt uni p scale dims true show us = Ok ls -> In x (pl_supports p) ->
  exists r, In (tab ++ "\notation{1}{" ++ node_name (s_node x) ++ "}{$" ++ chr uni (65 + s_node x) ++ "$}" ++ r) ls.
Proof.
  intros K H T Hx. destruct (label_in p scale dims show us ls x T Hx) as (l & L1 & L2).
  destruct (plotter_parts _ _ _ H) as (lm & sup & d & E1 & E2 & E3 & ->). destruct (support_nodes b sup K E2 x Hx) as (N1 & _).
  unfold label_tikz in L1. cbn [pl_x] in L1.
  rewrite name_at in L1 by (rewrite (dk_term b K), map_length, seq_length; lia). cbn [rbind] in L1. injection L1 as <-.
  eexists. exact L2.
Qed.
End T.
