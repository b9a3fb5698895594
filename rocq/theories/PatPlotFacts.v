(** Proofs about the drawn load patterns. *)
From Coq Require Import ZArith String Lia.
From Verif Require Import Base BaseFacts LoadModel LoadSpec LoadCasesModel LoadCasesSpec LoadCasesFacts SegmentFacts PatPlotModel PatPlotSpec.
Open Scope R_scope.
Local Notation length := List.length.

Lemma bounds_nth Ls : forall x i, (i <= length Ls)%nat -> nth i (bounds_from x Ls) 0 = x + start Ls i.
Proof.
  unfold start, lsum. induction Ls as [|L Ls IH]; intros x i Hi.
  - cbn in Hi. assert (i = 0%nat) as -> by lia. cbn. ring.
  - destruct i as [|i]; [cbn; ring|]. cbn [bounds_from nth firstn fold_right]. rewrite IH by (cbn in Hi; lia). ring.
Qed.
Lemma boundary_start Ls i : (i < length Ls)%nat -> nth i (boundaries Ls) 0 = start Ls i.
Proof. intros Hi. unfold boundaries. rewrite bounds_nth by lia. ring. Qed.
Lemma clip a b L : 0 <= a < b -> b <= L -> Rmax 0 (Rmin a L) = a /\ Rmax 0 (Rmin (b - a) (L - a)) = b - a.
Proof. intros H1 H2. rewrite (Rmin_left a L) by lra. rewrite Rmax_right by lra. rewrite Rmin_left by lra. rewrite Rmax_right by lra. auto. Qed.

(** The bar of a row on its span. *)
Lemma bar_spread Ls r i a b : well_placed Ls r -> ~ open_trapezoid r -> (i < length Ls)%nat -> on_span i r -> spread (nth i Ls 0) r a b -> row_bar Ls r = Ok [(start Ls i + a, b - a)].
Proof.
  intros [_ W] NO Hi OS SP. destruct (W i a b Hi OS SP) as [H1 H2]. destruct OS as (t & args & ->). cbn [row_bar].
  replace (Z.of_nat i + 1 - 1)%Z with (Z.of_nat i) by lia. rewrite (proj2 (Z.ltb_ge _ _)) by lia. rewrite (proj2 (Z.leb_gt _ _)) by lia. cbn [orb]. rewrite Nat2Z.id, boundary_start by exact Hi.
  set (L := nth i Ls 0) in *. destruct (clip a b L H1 H2) as [C1 C2].
  assert (C3 : Rltb 0 (b - a) = true) by (unfold Rltb; destruct (Rlt_dec 0 (b - a)); [reflexivity|lra]).
  assert (Q : forall a' c', a' = a -> c' = b - a -> (let a0 := Rmax 0 (Rmin a' L) in let c0 := Rmax 0 (Rmin c' (L - a0)) in Ok (if Rltb 0 c0 then [(start Ls i + a0, c0)] else [])) = Ok [(start Ls i + a, b - a)]).
  { intros a' c' -> ->. cbv zeta. rewrite C1, C2, C3. reflexivity. }
  inversion SP; subst; cbn [Z.eqb orb andb length Nat.leb nth]; try (apply Q; [reflexivity|ring]).
  exfalso. apply NO. do 4 eexists. reflexivity.
Qed.
Lemma bar_none Ls r bars : well_placed Ls r -> row_bar Ls r = Ok bars -> bars <> [] -> exists i a b, (i < length Ls)%nat /\ on_span i r /\ spread (nth i Ls 0) r a b /\ ~ open_trapezoid r.
Proof.
  intros [(ls & P) _] H N. destruct r as [s t args| |]; [|injection H as <-; congruence|discriminate]. cbn [row_bar] in H.
  destruct (Z.ltb_spec (s - 1) 0); [injection H as <-; congruence|]. destruct (Z.leb_spec (Z.of_nat (length Ls)) (s - 1)); [injection H as <-; congruence|]. cbn [orb] in H.
  exists (Z.to_nat (s - 1)). assert (OS : on_span (Z.to_nat (s - 1)) (Row s t args)) by (exists t, args; f_equal; lia).
  assert (Hi : (Z.to_nat (s - 1) < length Ls)%nat) by lia.
  cbn [parse_row] in P. cbv zeta in P. destruct (Z.eqb_spec t 1) as [->|T1].
  - destruct args as [|w args]; [discriminate|]. exists 0, (nth (Z.to_nat (s - 1)) Ls 0). split; [exact Hi|]. split; [exact OS|]. split; [constructor|]. intros (? & ? & ? & ? & E). discriminate.
  - cbn [orb] in H. destruct (Z.eqb_spec t 3) as [->|T3].
    + cbn [Z.eqb andb Pos.eqb] in H, P. destruct args as [|w [|a [|c args]]]; try discriminate. exists a, (a + c). split; [exact Hi|]. split; [exact OS|]. split; [constructor|]. intros (? & ? & ? & ? & E). discriminate.
    + destruct (Z.eqb_spec t 5) as [->|T5].
      * cbn [Z.eqb andb Pos.eqb] in H, P. destruct args as [|w1 [|w2 [|a [|c args]]]]; try discriminate.
        -- exists 0, (nth (Z.to_nat (s - 1)) Ls 0). split; [exact Hi|]. split; [exact OS|]. split; [constructor|]. intros (? & ? & ? & ? & E). discriminate.
        -- cbn in H. injection H as <-. congruence.
        -- exists a, (a + c). split; [exact Hi|]. split; [exact OS|]. split; [constructor|]. intros (? & ? & ? & ? & E). discriminate.
      * cbn [andb] in H. injection H as <-. congruence.
Qed.
Lemma bar_covers Ls r bars g : well_placed Ls r -> ~ open_trapezoid r -> row_bar Ls r = Ok bars -> (drawn bars g <-> covers Ls r g).
Proof.
  intros W NO H. split.
  - intros (x & l & HI & Hg). assert (N : bars <> []) by (intros ->; exact HI). destruct (bar_none Ls r bars W H N) as (i & a & b & Hi & OS & SP & _).
    rewrite (bar_spread Ls r i a b W NO Hi OS SP) in H. injection H as <-. destruct HI as [E|[]]. injection E as <- <-. exists i, a, b. repeat (split; [assumption|]). lra.
  - intros (i & a & b & Hi & OS & SP & Hg). rewrite (bar_spread Ls r i a b W NO Hi OS SP) in H. injection H as <-. exists (start Ls i + a), (b - a). split; [left; reflexivity|lra].
Qed.
Lemma bar_open Ls r : open_trapezoid r -> row_bar Ls r = Ok [].
Proof. intros (s & w1 & w2 & a & ->). cbn [row_bar]. destruct (Z.ltb _ _ || Z.leb _ _)%bool; reflexivity. Qed.
Lemma drawn_app l1 l2 g : drawn (l1 ++ l2) g <-> drawn l1 g \/ drawn l2 g.
Proof.
  split.
  - intros (x & l & H & Hg). apply in_app_or in H as [H|H]; [left|right]; exists x, l; auto.
  - intros [(x & l & H & Hg)|(x & l & H & Hg)]; exists x, l; (split; [apply in_or_app; auto|exact Hg]).
Qed.
Lemma drawn_rows Ls rows : forall rs g, Forall (well_placed Ls) rows -> mapM (row_bar Ls) rows = Ok rs ->
  (drawn (concat rs) g <-> exists r, In r rows /\ ~ open_trapezoid r /\ covers Ls r g).
Proof.
  induction rows as [|r rows IH]; intros rs g F H.
  - injection H as <-. split; [intros (x & l & [] & _)|intros (r & [] & _)].
  - inversion F as [|? ? W F']; subst. cbn [mapM] in H. apply rbind_ok in H as (b & Hb & H). apply rbind_ok in H as (bs & Hbs & H). injection H as <-. cbn [concat]. rewrite drawn_app, (IH bs g F' Hbs).
    assert (D : open_trapezoid r \/ ~ open_trapezoid r) by (destruct r as [s t [|w1 [|w2 [|a [|]]]]| |]; try (right; intros (? & ? & ? & ? & E); discriminate); destruct (Z.eq_dec t 5) as [->|T]; [left; do 4 eexists; reflexivity|right; intros (? & ? & ? & ? & E); congruence]).
    destruct D as [D|D].
    + rewrite (bar_open Ls r D) in Hb. injection Hb as <-. split.
      * intros [(x & l & [] & _)|(r' & I & N & C)]; exists r'; split; [right; exact I|auto].
      * intros (r' & [<-|I] & N & C); [contradiction|right; eauto].
    + rewrite (bar_covers Ls r b g W D Hb). split.
      * intros [C|(r' & I & N & C)]; [exists r|exists r']; (split; [cbn; auto|auto]).
      * intros (r' & [<-|I] & N & C); [left; exact C|right; eauto].
Qed.
Lemma drawn_cons bars g : drawn bars g -> bars <> [].
Proof. intros (x & l & H & _) ->. exact H. Qed.
(** Distributed loads are drawn where they act. *)
Lemma regions_exact Ls c bars : Forall (well_placed Ls) (pc_loads c) -> (exists r g, In r (pc_loads c) /\ ~ open_trapezoid r /\ covers Ls r g) -> loaded_regions Ls c = Ok bars ->
  forall g, drawn bars g <-> exists r, In r (pc_loads c) /\ ~ open_trapezoid r /\ covers Ls r g.
Proof.
  intros F (r & g0 & I & N & C) H g. unfold loaded_regions in H. apply rbind_ok in H as (rs & Hr & H). assert (NE : concat rs <> []) by (apply (drawn_cons _ g0); apply (drawn_rows Ls (pc_loads c) rs g0 F Hr); eauto).
  assert (E : bars = concat rs) by (destruct (concat rs); [congruence|injection H as <-; reflexivity]). rewrite E. apply drawn_rows; assumption.
Qed.
Lemma regions_total Ls c : Forall (well_placed Ls) (pc_loads c) -> exists bars, loaded_regions Ls c = Ok bars.
Proof.
  intros F. unfold loaded_regions. assert (M : exists rs, mapM (row_bar Ls) (pc_loads c) = Ok rs).
  { induction F as [|r l W F (rs & IH)]; [exists []; reflexivity|]. cbn [mapM]. rewrite IH. assert (B : exists b, row_bar Ls r = Ok b).
    { destruct W as [(ls & P) _]. destruct r as [s t args| |]; [|eexists; reflexivity|discriminate]. cbn [row_bar]. destruct (Z.ltb _ _ || Z.leb _ _)%bool; [eexists; reflexivity|].
      match goal with |- context [match ?m with Some _ => _ | None => _ end] => destruct m as [[a c0]|] end; eexists; reflexivity. }
    destruct B as (b & ->). eexists. reflexivity. }
  destruct M as (rs & ->). cbn [rbind]. destruct (concat rs); eexists; reflexivity.
Qed.
(** A row whose load is not zero at a point covers it. *)
Lemma intensity_covers Ls i x r : (i < length Ls)%nat -> 0 <= x <= nth i Ls 0 -> row_intensity Ls i x r <> 0 -> covers Ls r (start Ls i + x).
Proof.
  intros Hi Hx H. unfold row_intensity in H. destruct r as [s t args| |]; [|cbn in H; lra|cbn in H; lra]. cbn [parse_row] in H.
  assert (Q : forall ld, (if Z.eqb (s - 1) (Z.of_nat i) then intensity (action_of (nth i Ls 0) ld) x else 0) <> 0 -> on_span i (Row s t args) /\ intensity (action_of (nth i Ls 0) ld) x <> 0).
  { intros ld H0. destruct (Z.eqb_spec (s - 1) (Z.of_nat i)); [|lra]. split; [exists t, args; f_equal; lia|exact H0]. }
  destruct (Z.eqb_spec t 1) as [->|T1]; [|destruct (Z.eqb_spec t 2) as [->|T2]; [|destruct (Z.eqb_spec t 3) as [->|T3]; [|destruct (Z.eqb_spec t 4) as [->|T4]; [|destruct (Z.eqb_spec t 5) as [->|T5]; [|destruct (Z.eqb_spec t 6) as [->|T6]]]]]].
  - destruct args as [|w args]; cbn in H; [lra|]. apply (Q (LUDL w)) in H as [OS H]. exists i, 0, (nth i Ls 0). split; [exact Hi|]. split; [exact OS|]. split; [constructor|lra].
  - destruct args as [|w [|a args]]; cbn in H; try lra. destruct (Z.eqb _ _) in H; lra.
  - destruct args as [|w [|a [|c args]]]; cbn [get nth_error rbind] in H; try lra. apply (Q (LPUDL w a c)) in H as [OS H]. exists i, a, (a + c). split; [exact Hi|]. split; [exact OS|]. split; [constructor|].
    cbn [action_of intensity] in H. destruct (Rlt_dec x a); [lra|]. destruct (Rlt_dec (a + c) x); [lra|]. lra.
  - destruct args as [|w [|a args]]; cbn in H; try lra. destruct (Z.eqb _ _) in H; lra.
  - destruct args as [|w1 [|w2 [|a [|c args]]]]; cbn [get nth_error rbind nth] in H; try lra.
    + apply (Q (LTrap w1 w2 0 None)) in H as [OS H]. exists i, 0, (nth i Ls 0). split; [exact Hi|]. split; [exact OS|]. split; [constructor|lra].
    + apply (Q (LTrap w1 w2 a None)) in H as [OS H]. exists i, a, (nth i Ls 0). split; [exact Hi|]. split; [exact OS|]. split; [constructor|].
      cbn [action_of intensity] in H. destruct (Rlt_dec x a); [lra|]. lra.
    + apply (Q (LTrap w1 w2 a (Some c))) in H as [OS H]. exists i, a, (a + c). split; [exact Hi|]. split; [exact OS|]. split; [constructor|].
      cbn [action_of intensity] in H. destruct (Rlt_dec x a); [lra|]. destruct (Rlt_dec (a + c) x); [lra|]. lra.
  - cbn in H. destruct (Z.eqb _ _) in H; lra.
  - cbn in H. lra.
Qed.
(** Cases without distributed load. *)
Lemma in_insert_Z z y l : In z (insert_Z y l) <-> z = y \/ In z l.
Proof.
  induction l as [|x l IH]; [cbn; intuition|]. cbn [insert_Z]. destruct (Z.ltb_spec y x); [cbn; intuition|]. destruct (Z.eqb_spec y x) as [->|]; [cbn; intuition|]. cbn [In]. rewrite IH. intuition.
Qed.
Lemma in_sorted_Z z l : In z (sorted_Z l) <-> In z l.
Proof. induction l as [|x l IH]; [reflexivity|]. cbn [sorted_Z fold_right]. rewrite in_insert_Z. unfold sorted_Z in IH. rewrite IH. cbn. intuition. Qed.
Lemma names_spans c i : Forall concentrated (pc_loads c) -> (In (Z.of_nat i) (loaded_spans c) <-> names_span c i).
Proof.
  intros F. unfold loaded_spans, names_span. destruct (pc_spans c); [|reflexivity]. rewrite in_sorted_Z, in_flat_map. split.
  - intros (r & I & H). exists r. split; [exact I|]. destruct r as [s t args| |]; cbn in H; try tauto. destruct H as [H|[]]. exists t, args. f_equal. lia.
  - intros (r & I & (t & args & ->)). eexists. split; [exact I|]. cbn. left. lia.
Qed.
Lemma regions_spans Ls c : Forall concentrated (pc_loads c) -> exists bars, loaded_regions Ls c = Ok bars /\
  forall g, drawn bars g <-> exists i, (i < length Ls)%nat /\ names_span c i /\ start Ls i <= g <= start Ls i + nth i Ls 0.
Proof.
  intros F. assert (M : exists rs, mapM (row_bar Ls) (pc_loads c) = Ok rs /\ concat rs = []).
  { induction F as [|r l (s & t & args & -> & T1 & T3 & T5) F (rs & IH & E)]; [exists []; auto|]. cbn [mapM]. rewrite IH.
    assert (B : row_bar Ls (Row s t args) = Ok []).
    { cbn [row_bar]. destruct (Z.ltb _ _ || Z.leb _ _)%bool; [reflexivity|]. rewrite (proj2 (Z.eqb_neq _ _) T1), (proj2 (Z.eqb_neq _ _) T3), (proj2 (Z.eqb_neq _ _) T5). reflexivity. }
    rewrite B. eexists. split; [reflexivity|exact E]. }
  destruct M as (rs & M & E). unfold loaded_regions. rewrite M. cbn [rbind]. rewrite E. eexists. split; [reflexivity|]. intros g. split.
  - intros (x & l & I & Hg). apply in_map_iff in I as (z & Ez & I). apply filter_In in I as [I B]. apply andb_true_iff in B as [B1 B2]. apply Z.leb_le in B1. apply Z.ltb_lt in B2.
    exists (Z.to_nat z). assert (Hi : (Z.to_nat z < length Ls)%nat) by lia. split; [exact Hi|]. split; [apply (names_spans c _ F); rewrite Z2Nat.id by lia; exact I|].
    rewrite boundary_start in Ez by exact Hi. injection Ez as <- <-. exact Hg.
  - intros (i & Hi & N & Hg). exists (start Ls i), (nth i Ls 0). split; [|exact Hg]. apply in_map_iff. exists (Z.of_nat i). rewrite Nat2Z.id, boundary_start by exact Hi. split; [reflexivity|].
    apply filter_In. split; [apply (names_spans c i F), N|]. apply andb_true_iff. split; [apply Z.leb_le; lia|apply Z.ltb_lt; lia].
Qed.
(** Spans that a case names do not matter when it has distributed load. *)
Lemma regions_given Ls c sp : Forall (well_placed Ls) (pc_loads c) -> (exists r g, In r (pc_loads c) /\ ~ open_trapezoid r /\ covers Ls r g) ->
  loaded_regions Ls {| pc_name := pc_name c; pc_loads := pc_loads c; pc_spans := sp |} = loaded_regions Ls c.
Proof.
  intros F (r & g0 & I & N & C). unfold loaded_regions. cbn [pc_loads]. destruct (mapM (row_bar Ls) (pc_loads c)) as [rs|] eqn:Hr; [|reflexivity]. cbn [rbind].
  assert (NE : concat rs <> []) by (apply (drawn_cons _ g0); apply (drawn_rows Ls (pc_loads c) rs g0 F Hr); eauto). destruct (concat rs); [congruence|reflexivity].
Qed.
(** A trapezoid without a length is not drawn beside other loads. *)
Lemma regions_open Ls c o : Forall (well_placed Ls) (pc_loads c) -> (exists r g, In r (pc_loads c) /\ ~ open_trapezoid r /\ covers Ls r g) -> open_trapezoid o ->
  loaded_regions Ls {| pc_name := pc_name c; pc_loads := pc_loads c ++ [o]; pc_spans := pc_spans c |} = loaded_regions Ls c.
Proof.
  intros F (r & g0 & I & N & C) O. unfold loaded_regions. cbn [pc_loads]. destruct (mapM (row_bar Ls) (pc_loads c)) as [rs|] eqn:Hr.
  - assert (M : mapM (row_bar Ls) (pc_loads c ++ [o]) = Ok (rs ++ [[]])).
    { clear - Hr O. revert rs Hr. induction (pc_loads c) as [|r l IH]; intros rs Hr; [injection Hr as <-; cbn [app mapM]; rewrite (bar_open Ls o O); reflexivity|].
      cbn [app mapM] in *. apply rbind_ok in Hr as (b & Hb & Hr). apply rbind_ok in Hr as (bs & Hbs & Hr). injection Hr as <-. rewrite Hb, (IH bs Hbs). reflexivity. }
    rewrite M. cbn [rbind]. rewrite concat_app. cbn [concat app]. rewrite app_nil_r.
    assert (NE : concat rs <> []) by (apply (drawn_cons _ g0); apply (drawn_rows Ls (pc_loads c) rs g0 F Hr); eauto). destruct (concat rs); [congruence|reflexivity].
  - assert (M : exists e, mapM (row_bar Ls) (pc_loads c) = Ok e).
    { destruct (regions_total Ls c F) as (b & Hb). unfold loaded_regions in Hb. apply rbind_ok in Hb as (rs & Hrs & _). eauto. }
    destruct M as (rs & M). congruence.
Qed.
(** The segments of a patterned load. *)
Lemma segment_bar Ls i w a c nm sp : (i < length Ls)%nat -> 0 <= a -> 0 < c -> a + c <= nth i Ls 0 ->
  loaded_regions Ls {| pc_name := nm; pc_loads := [Row (Z.of_nat i + 1) 3 [w; a; c]]; pc_spans := sp |} = Ok [(start Ls i + a, c)].
Proof.
  intros Hi Ha Hc HL. unfold loaded_regions. cbn [pc_loads mapM]. rewrite (bar_spread Ls _ i a (a + c)).
  - cbn [rbind concat app]. replace (a + c - a) with c by ring. reflexivity.
  - split; [eexists; reflexivity|]. intros i' a' b' Hi' (t & args & E) SP. injection E as E _ _. assert (i' = i) as -> by lia. inversion SP; subst. lra.
  - intros (? & ? & ? & ? & E). discriminate.
  - exact Hi.
  - do 2 eexists. reflexivity.
  - constructor.
Qed.
Lemma segments_drawn Ls w n cs : Forall (Rlt 0) Ls -> make_patterned_udl Ls w n = Ok cs -> forall sp, exists cuts, (forall i, cuts i 0%nat = 0 /\ cuts i n = nth i Ls 0) /\ length cs = (length Ls * n)%nat /\
  forall i j, (i < length Ls)%nat -> (j < n)%nat -> cuts i j < cuts i (S j) /\
    exists c, nth_error cs (i * n + j) = Some c /\ loaded_regions Ls {| pc_name := Some (lc_name c); pc_loads := lc_loads c; pc_spans := sp |} = Ok [(start Ls i + cuts i j, cuts i (S j) - cuts i j)].
Proof.
  intros P H sp. destruct (pattern_tiles Ls w n) as [T0 T]. destruct (Nat.eq_dec n 0) as [E|E]; [rewrite (T0 E) in H; discriminate|].
  destruct (T E) as (cs' & cuts & H' & LN & _ & CU & ALL). assert (cs' = cs) as -> by congruence. exists cuts. split; [intros i; destruct (CU i) as (A & B & _); auto|]. split; [exact LN|].
  intros i j Hi Hj. assert (LP : 0 < nth i Ls 0) by (rewrite Forall_forall in P; apply P, nth_In, Hi). destruct (CU i) as (C0 & CN & CS). specialize (CS LP). split; [auto|].
  destruct (ALL i j Hi Hj) as (c & Ec & Lc & _). exists c. split; [exact Ec|]. rewrite Lc.
  assert (MO : forall a b, (a <= b)%nat -> (b <= n)%nat -> cuts i a <= cuts i b).
  { intros a b Hab. induction Hab as [|b Hab IH]; intros Hb; [lra|]. specialize (IH ltac:(lia)). specialize (CS b ltac:(lia)). lra. }
  apply segment_bar; [exact Hi| | |].
  - rewrite <- C0. apply MO; lia.
  - specialize (CS j Hj). lra.
  - rewrite <- CN. replace (cuts i j + (cuts i (S j) - cuts i j)) with (cuts i (S j)) by ring. apply MO; lia.
Qed.
(** The rows of the plot. *)
Lemma rows_drawn Ls cs rows : pattern_rows Ls cs = Ok rows -> length rows = length cs /\
  forall j c, nth_error cs j = Some c -> exists bars, loaded_regions Ls c = Ok bars /\
    nth_error rows j = Some (match pc_name c with Some s => s | None => ("LC " ++ dec (j + 1))%string end, map (fun i => (start Ls i, nth i Ls 0)) (seq 0 (length Ls)), bars).
Proof.
  intros H. unfold pattern_rows in H.
  assert (G : forall cs k rows, mapM (fun p => do bars <- loaded_regions Ls (snd p); Ok (case_label (snd p) (fst p), map (fun i => (nth i (boundaries Ls) 0, nth i Ls 0)) (seq 0 (length Ls)), bars)) (combine (seq k (length cs)) cs) = Ok rows ->
    length rows = length cs /\ forall j c, nth_error cs j = Some c -> exists bars, loaded_regions Ls c = Ok bars /\
      nth_error rows j = Some (case_label c (k + j), map (fun i => (nth i (boundaries Ls) 0, nth i Ls 0)) (seq 0 (length Ls)), bars)).
  { clear. induction cs as [|c cs IH]; intros k rows H; [injection H as <-; split; [reflexivity|intros [|j] c E; discriminate]|].
    cbn [length seq combine mapM fst snd] in H. apply rbind_ok in H as (x & Hx & H). apply rbind_ok in H as (xs & Hxs & H). injection H as <-. apply rbind_ok in Hx as (bars & Hb & Hx). injection Hx as <-.
    destruct (IH (S k) xs Hxs) as [LN NT]. split; [cbn; lia|]. intros [|j] c' E.
    - injection E as <-. exists bars. split; [exact Hb|]. cbn [nth_error]. rewrite Nat.add_0_r. reflexivity.
    - destruct (NT j c' E) as (b & E1 & E2). exists b. split; [exact E1|]. cbn [nth_error]. rewrite E2. replace (S k + j)%nat with (k + S j)%nat by lia. reflexivity. }
  destruct (G cs 0%nat rows H) as [LN NT]. split; [exact LN|]. intros j c E. destruct (NT j c E) as (b & E1 & E2). exists b. split; [exact E1|]. rewrite E2. unfold case_label. cbn [Nat.add].
  assert (M : map (fun i => (nth i (boundaries Ls) 0, nth i Ls 0)) (seq 0 (length Ls)) = map (fun i => (start Ls i, nth i Ls 0)) (seq 0 (length Ls))).
  { apply map_ext_in. intros i Hi. apply in_seq in Hi. rewrite boundary_start by lia. reflexivity. }
  rewrite M. reflexivity.
Qed.
