(** Proofs: annotations of the TikZ source (C80). *)
From Coq Require Import ZArith Ascii String.
From Verif Require Import Base BaseFacts SectionModel LoadModel LoadSpec FoundationModel ElementModel ElementSpec UtilsModel BeamModel BeamSpec CtorFacts AnalysisModel AnalysisSpec
  ResultsModel ResultsSpec ResultsFacts BridgeSpec UnitsModel RenderModel RenderSpec RenderFacts RenderFacts2 RenderFacts3 RenderFacts4 RenderFacts5 TikzSpec.
Open Scope R_scope.

Lemma wmax_fold l m0 : (0 <= m0)%R -> let W := fold_left (fun m d => Rmax m (Rmax (Rabs (d_w0 d)) (Rabs (d_w1 d)))) l m0 in
  (m0 <= W)%R /\ (forall q, In q l -> (Rabs (d_w0 q) <= W)%R /\ (Rabs (d_w1 q) <= W)%R) /\ (W = m0 \/ exists q, In q l /\ (Rabs (d_w0 q) = W \/ Rabs (d_w1 q) = W)).
Proof.
  revert m0. induction l as [|q l IH]; intros m0 H0; cbn [fold_left].
  - split; [lra|]. split; [intros q []|]. left. reflexivity.
  - set (m1 := Rmax m0 (Rmax (Rabs (d_w0 q)) (Rabs (d_w1 q)))). assert (B1 : m0 <= m1) by apply Rmax_l. assert (B2 : Rmax (Rabs (d_w0 q)) (Rabs (d_w1 q)) <= m1) by apply Rmax_r.
    assert (B3 := Rmax_l (Rabs (d_w0 q)) (Rabs (d_w1 q))). assert (B4 := Rmax_r (Rabs (d_w0 q)) (Rabs (d_w1 q))).
    destruct (IH m1) as (A & B & C); [lra|]. cbv zeta. split; [lra|]. split.
    + intros x [<-|I]; [split; lra|exact (B x I)].
    + destruct C as [C|(x & I & C)]; [|right; exists x; split; [right; exact I|exact C]]. rewrite C.
      unfold m1, Rmax. destruct (Rle_dec (Rabs (d_w0 q)) (Rabs (d_w1 q))).
      * destruct (Rle_dec m0 (Rabs (d_w1 q))); [right; exists q; split; [left; reflexivity|right; reflexivity]|left; reflexivity].
      * destruct (Rle_dec m0 (Rabs (d_w0 q))); [right; exists q; split; [left; reflexivity|left; reflexivity]|left; reflexivity].
Qed.
Lemma wmax_largest l : largest l (wmax l).
Proof.
  unfold wmax. destruct (wmax_fold l 0%R (Rle_refl 0)) as (A & B & C). set (W := fold_left _ l 0%R) in *. cbv zeta in *.
  destruct (Reqb_spec W 0) as [E|E].
  - rewrite E in B. assert (Z : forall q, In q l -> d_w0 q = 0%R /\ d_w1 q = 0%R).
    { intros q I. destruct (B q I) as [B1 B2]. split; [revert B1|revert B2]; unfold Rabs; destruct (Rcase_abs _); lra. }
    split; [|right; split; [reflexivity|exact Z]]. intros q I. destruct (Z q I) as [-> ->]. rewrite Rabs_R0. lra.
  - split; [exact B|]. left. split; [lra|]. destruct C as [C|C]; [contradiction|exact C].
Qed.

Section T.
Variable fmt : R -> string.
Variable uni : nat -> string.
Local Open Scope string_scope.

Lemma unit_spaced u : spaced u = with_unit " " u.
Proof. reflexivity. Qed.
Lemma unit_tied u : tied u = with_unit "~" u.
Proof. reflexivity. Qed.

Lemma ok_inj {A} (x y : A) : Ok x = Ok y -> x = y.
Proof. intros [= E]. exact E. Qed.
Lemma app_assoc_s (a b c : string) : (a ++ b) ++ c = a ++ (b ++ c).
Proof. induction a; cbn; congruence. Qed.

Lemma annotate b s p scale dims labels show us ls : deck b -> beam_plotter b s = Ok p -> tikz_lines fmt uni p scale dims labels show us = Ok ls ->
  annotated fmt (node_name uni) b p dims show us ls.
Proof.
  intros K H T. destruct (plotter_parts _ _ _ H) as (lm & sup & d & E1 & E2 & E3 & P).
  assert (X : pl_x p = b_terminal b) by (rewrite P; reflexivity). assert (B : pl_beam p = b) by (rewrite P; reflexivity).
  assert (LL : pl_L p = b_length b) by (rewrite P; reflexivity).
  assert (SN : forall x, In x (pl_supports p) -> (s_node x <= b_nspans b)%nat /\ (s_left x = Nat.eqb (s_node x) 0) /\ (s_right x = Nat.eqb (s_node x) (b_nspans b)))
    by (intros x Hx; rewrite P in Hx; apply (support_nodes b sup K E2 x Hx)).
  assert (HN : forall h, In h (pl_hinges p) -> (h_node h <= b_nspans b)%nat).
  { intros h Hh. rewrite P in Hh. cbn [pl_hinges] in Hh. unfold infer_hinges in Hh. apply in_map_iff in Hh as (i & <- & Hi). apply filter_In in Hi as [Hi _]. apply in_seq in Hi.
    cbn [h_node]. rewrite (dk_term b K), map_length, seq_length in Hi. lia. }
  pose proof (term_len b p K X) as LT. clear P.
  destruct (load_in fmt uni p scale dims labels show us ls T) as (lds0 & HL0 & INL).
  revert T. unfold tikz_lines. cbv zeta. intros T. set (nodes := map (node_name uni) (seq 0 (List.length (pl_x p)))) in *.
  apply rbind_ok in T as (beams & Hb & T). apply rbind_ok in T as (spl & Hs & T). apply rbind_ok in T as (hin & Hh & T).
  apply rbind_ok in T as (lds & Hl & T). apply rbind_ok in T as (dm & Hd & T). apply rbind_ok in T as (lb & _ & T). injection T as T.
  rewrite HL0 in Hl. injection Hl as <-.
  assert (NM : forall i, (i <= b_nspans b)%nat -> get nodes i = Ok (node_name uni i)) by (intros i Hi; unfold nodes; apply name_at; lia).
  assert (XM : forall i, (i <= b_nspans b)%nat -> get (pl_x p) i = Ok (node_at b i)).
  { intros i Hi. unfold get. rewrite X, (dk_term b K), nth_error_map, (nth_error_nth' _ 0%nat) by (rewrite seq_length; lia). rewrite seq_nth by lia. reflexivity. }
  assert (HIN : forall l, In l hin -> In (tab ++ l) ls).
  { intros l Il. apply (block_in hin l "% Hinges") in Il. rewrite <- T. find_in Il. }
  assert (DL : forall k q, nth_error (dr_dist (pl_loads p)) k = Some q -> exists l1 l2,
     mapM (dist_tikz fmt p nodes) (numbered (dr_dist (pl_loads p))) = Ok l1 /\ (if show then mapM (dist_label fmt p us) (numbered (dr_dist (pl_loads p))) else Ok []) = Ok l2 /\
     (forall l, In l (concat l1) -> In l lds0) /\ (forall l, In l (concat l2) -> In l lds0)).
  { intros k q E. revert HL0. unfold loads_tikz. intros HL0. apply rbind_ok in HL0 as (dl & Hdl & HL0). apply rbind_ok in HL0 as (pl & _ & HL0). apply rbind_ok in HL0 as (ml & _ & HL0). injection HL0 as <-.
    set (dd := dr_dist (pl_loads p)) in *.
    assert (G : (do ls <- mapM (dist_tikz fmt p nodes) (numbered dd);
             do ns <- (if show then mapM (dist_label fmt p us) (numbered dd) else Ok []);
             Ok ("\begin{scope}[color=red]" :: concat ls ++ "\end{scope}" :: concat ns)%list) = Ok dl).
    { destruct dd; [destruct k; discriminate E|exact Hdl]. }
    apply rbind_ok in G as (l1 & G1 & G). apply rbind_ok in G as (l2 & G2 & G). injection G as <-. exists l1, l2. split; [exact G1|]. split; [exact G2|].
    split; intros l Il; apply in_or_app; left; right; apply in_or_app; [left; exact Il|right; right; exact Il]. }
  constructor.
  - intros -> m Hm. apply rbind_ok in Hd as (ds & Hds & Hd). injection Hd as <-. rewrite B in Hds. destruct (mapM_nth _ _ _ m m Hds) as (l & L1 & L2).
    { rewrite (nth_error_nth' _ 0%nat) by (rewrite seq_length; lia). rewrite seq_nth by lia. reflexivity. }
    replace (m + 1)%nat with (S m) in L1 by lia. rewrite !NM, !XM in L1 by lia. cbn [rbind] in L1. injection L1 as <-.
    rewrite node_next in L2. replace (node_at b m + span_length b m - node_at b m)%R with (span_length b m) in L2 by ring.
    eexists. rewrite <- T. find_in L2.
  - intros -> k q E. apply INL. revert HL0. unfold loads_tikz. intros HL0. apply rbind_ok in HL0 as (dl & _ & HL0). apply rbind_ok in HL0 as (pl & Hp & HL0). apply rbind_ok in HL0 as (ml & _ & HL0). injection HL0 as <-.
    destruct (mapM_nth _ _ _ _ _ Hp (numbered_nth _ _ _ E)) as (ss & S1 & S2). unfold point_tikz in S1. apply rbind_ok in S1 as (l0 & _ & S1). injection S1 as <-.
    apply in_or_app. right. apply in_or_app. left. apply (in_concat_of _ _ _ S2). right. right. left. reflexivity.
  - intros -> k q E. apply INL. revert HL0. unfold loads_tikz. intros HL0. apply rbind_ok in HL0 as (dl & _ & HL0). apply rbind_ok in HL0 as (pl & _ & HL0). apply rbind_ok in HL0 as (ml & Hp & HL0). injection HL0 as <-.
    destruct (mapM_nth _ _ _ _ _ Hp (numbered_nth _ _ _ E)) as (ss & S1 & S2). unfold moment_tikz in S1. apply rbind_ok in S1 as (l0 & _ & S1). injection S1 as <-.
    apply in_or_app. right. apply in_or_app. right. apply (in_concat_of _ _ _ S2). right. right. left. reflexivity.
  - intros -> k q E. destruct (DL k q E) as (l1 & l2 & G1 & G2 & I1 & I2). apply INL, I2.
    destruct (mapM_nth _ _ _ _ _ G2 (numbered_nth _ _ _ E)) as (ss & S1 & S2). unfold dist_label in S1. apply rbind_ok in S1 as (part & _ & S1). apply ok_inj in S1. unfold Rltb in S1.
    apply (in_concat_of _ _ _ S2). subst ss. unfold digits, intensity_text. destruct (Rlt_dec (Rabs (d_w0 q - d_w1 q)) (/ 10 ^ 9)); destruct part; left; rewrite !app_assoc_s; reflexivity.
  - intros -> k q m E S Hm CP. destruct (DL k q E) as (l1 & l2 & G1 & G2 & I1 & I2).
    destruct (mapM_nth _ _ _ _ _ G2 (numbered_nth _ _ _ E)) as (ss & S1 & S2). unfold dist_label in S1. apply rbind_ok in S1 as (part & HP & S1).
    assert (part = true) as ->.
    { unfold is_partial_dist in HP. rewrite S, X, LL in HP. cbv zeta in HP. rewrite py_node in HP by (assumption || lia). cbn [rbind] in HP.
      replace (Z.of_nat m + 1)%Z with (Z.of_nat (Datatypes.S m)) in HP by lia. rewrite py_node in HP by (assumption || lia). cbn [rbind] in HP. injection HP as <-.
      unfold covers_part in CP. cbv zeta in CP. unfold Rltb. apply orb_true_iff. destruct CP as [C|C]; [left|right]; match goal with |- context [Rlt_dec ?u ?v] => destruct (Rlt_dec u v); [reflexivity|contradiction] end. }
    injection S1 as <-. eexists. apply INL, I2. apply (in_concat_of _ _ _ S2). right. left. reflexivity.
  - exists (wmax (dr_dist (pl_loads p))). split; [apply wmax_largest|]. intros k q E. destruct (DL k q E) as (l1 & l2 & G1 & G2 & I1 & I2). apply INL, I1.
    destruct (mapM_nth _ _ _ _ _ G1 (numbered_nth _ _ _ E)) as (ss & S1 & S2). unfold dist_tikz in S1. apply rbind_ok in S1 as (u0 & _ & S1). apply rbind_ok in S1 as (u1 & _ & S1). apply ok_inj in S1.
    apply (in_concat_of _ _ _ S2). subst ss. right. right. left. unfold digits. replace (3/10)%R with 0.3%R by lra. replace (4/10)%R with 0.4%R by lra. reflexivity.
  - intros x Hx EK. destruct (SN x Hx) as (N1 & N2 & N3). destruct (In_nth_error _ _ Hx) as (k & Hk). destruct (mapM_nth _ _ _ _ _ Hs Hk) as (l & L1 & L2). apply (in_map (append tab)) in L2.
    unfold support_tikz in L1. rewrite NM in L1 by exact N1. cbn [rbind] in L1. injection L1 as <-. rewrite EK, N2, N3 in L2. pose proof (dk_some b K) as Pos.
    split; intros EN; rewrite EN in L2.
    + rewrite (proj2 (Nat.eqb_neq 0 (b_nspans b))) in L2 by lia. cbn [Nat.eqb] in L2. rewrite <- T. find_in L2.
    + rewrite Nat.eqb_refl in L2. rewrite <- T. find_in L2.
  - intros x Hx EK. destruct (SN x Hx) as (N1 & N2 & N3). unfold hinges_tikz in Hh. apply rbind_ok in Hh as (ha & Ha & Hh). apply rbind_ok in Hh as (hb & Hb' & Hh). injection Hh as <-.
    assert (Fx : In x (filter simple_support (pl_supports p))) by (apply filter_In; split; [exact Hx|unfold simple_support; destruct EK as [-> | ->]; reflexivity]).
    destruct (In_nth_error _ _ Fx) as (k & Hk). destruct (mapM_nth _ _ _ _ _ Ha Hk) as (l & L1 & L2).
    rewrite NM in L1 by exact N1. cbn [rbind] in L1. rewrite N2, N3 in L1. split.
    + intros EN. assert (Q : (Nat.eqb (s_node x) 0 || Nat.eqb (s_node x) (b_nspans b))%bool = true) by (apply orb_true_iff; destruct EN as [->|EN]; [left; reflexivity|right; apply Nat.eqb_eq; exact EN]).
      rewrite Q in L1. injection L1 as <-. apply HIN, in_or_app. left. exact L2.
    + intros i EN NE. rewrite EN in *. change (Nat.eqb (S i) 0) with false in L1. cbn [orb] in L1. rewrite (proj2 (Nat.eqb_neq (S i) (b_nspans b)) NE) in L1. replace (S i - 1)%nat with i in L1 by lia. replace (S i + 1)%nat with (S (S i)) in L1 by lia.
      rewrite !NM in L1 by lia. cbn [rbind] in L1. injection L1 as <-. apply HIN, in_or_app. left. exact L2.
  - intros h Ih NS. unfold hinges_tikz in Hh. apply rbind_ok in Hh as (ha & Ha & Hh). apply rbind_ok in Hh as (hb & Hb' & Hh). injection Hh as <-.
    assert (Fh : In h (filter (fun h => negb (existsb (fun s => Nat.eqb (s_node s) (h_node h)) (filter simple_support (pl_supports p)))) (pl_hinges p))).
    { apply filter_In. split; [exact Ih|]. apply negb_true_iff. destruct (existsb _ _) eqn:EX; [|reflexivity]. exfalso. apply existsb_exists in EX as (x & Ix & Ex). apply filter_In in Ix as [Ix Sx]. apply Nat.eqb_eq in Ex.
      destruct (NS x Ix Ex) as [K1 K2]. unfold simple_support in Sx. destruct (s_kind x); try discriminate; congruence. }
    destruct (In_nth_error _ _ Fh) as (k & Hk). destruct (mapM_nth _ _ _ _ _ Hb' Hk) as (l & L1 & L2). rewrite NM in L1 by (apply HN; exact Ih). cbn [rbind] in L1. injection L1 as <-.
    apply HIN, in_or_app. right. exact L2.
Qed.

Lemma concat_head sep a l : l <> [] -> String.concat sep (a :: l) = a ++ sep ++ String.concat sep l.
Proof. destruct l; [congruence|reflexivity]. Qed.
Lemma concat_last sep l z : exists r, String.concat sep (l ++ [z])%list = r ++ z.
Proof.
  induction l as [|a l (r & IH)]; [exists ""; reflexivity|]. cbn [List.app]. rewrite concat_head by (destruct l; discriminate). rewrite IH.
  exists (a ++ sep ++ r). rewrite !app_assoc_s. reflexivity.
Qed.

Lemma source_text p alone scale dims labels show us text : render_tikz fmt uni p alone scale dims labels show us = Ok text ->
  exists ls body, tikz_lines fmt uni p scale dims labels show us = Ok ls /\ body = String.concat newline ls /\ picture body /\ (alone = false -> text = body) /\ (alone = true -> document text body).
Proof.
  unfold render_tikz. intros H. apply rbind_ok in H as (ls & Hl & H). injection H as <-. exists ls, (String.concat newline ls). split; [exact Hl|]. split; [reflexivity|]. split.
  - revert Hl. unfold tikz_lines. cbv zeta. intros Hl. apply rbind_ok in Hl as (beams & _ & Hl). apply rbind_ok in Hl as (spl & _ & Hl). apply rbind_ok in Hl as (hin & _ & Hl).
    apply rbind_ok in Hl as (lds & _ & Hl). apply rbind_ok in Hl as (dm & _ & Hl). apply rbind_ok in Hl as (lb & _ & Hl). injection Hl as <-.
    match goal with |- picture (String.concat newline (?a :: ?l)) => assert (L : exists m, l = (m ++ ["\end{tikzpicture}"])%list) end.
    { eexists. rewrite !app_comm_cons, ?app_assoc, ?app_comm_cons, ?app_assoc. reflexivity. }
    destruct L as (m & ->). rewrite concat_head by (destruct m; discriminate). destruct (concat_last newline m "\end{tikzpicture}") as (r & ->).
    unfold picture. exists ("[background rectangle/.style={fill=white}, show background rectangle]" ++ newline ++ r). rewrite !app_assoc_s. reflexivity.
  - split; [intros ->; reflexivity|]. intros ->. unfold document, wrap_standalone.
    eexists ("[tikz,border=5pt]{standalone}" ++ newline ++ "\usepackage[utf8]{inputenc}" ++ newline ++ "\usepackage{stanli}" ++ newline ++ "\usepackage{tikz}" ++ newline
  ++ "\usetikzlibrary{arrows.meta,arrows,positioning,calc,backgrounds}" ++ newline). rewrite !app_assoc_s. reflexivity.
Qed.
End T.
