From Coq Require Import Lia ZArith Sorted String.
From Verif Require Import Base BaseFacts Linalg SectionModel FlexModel LoadModel LoadSpec FoundationModel ElementModel ElementSpec UtilsModel BeamModel BeamSpec AnalysisModel AnalysisSpec
  BalanceFacts AnalysisFacts AnalysisFacts2 SuperFacts MechFacts AnalysisFacts3 HistoryFacts CtorFacts ResultsModel ResultsSpec ResultsFacts EnvelopeModel EnvelopeSpec EnvelopeFacts LoadCasesModel LoadCasesSpec LoadCasesFacts SegmentFacts
  ShapeFacts VehicleModel VehicleSpec VehicleFacts BridgeModel BridgeSpec BridgeFacts CritFacts BridgeFacts2 BridgeFacts3 BridgeFacts4 LMFacts CombFacts CombCases InfModel InfSpec InfFacts.
Open Scope R_scope.
Local Notation length := List.length.
Local Open Scope list_scope.

(** ** Nearest entries *)
Lemma argmin_first {A} (g : A -> R) (d : A) l : l <> [] -> (argmin (map g l) < length l)%nat /\
  forall j, (j < length l)%nat -> g (nth (argmin (map g l)) l d) <= g (nth j l d) /\ ((j < argmin (map g l))%nat -> g (nth (argmin (map g l)) l d) < g (nth j l d)).
Proof.
  intros N. set (vs := map g l). assert (NV : vs <> []) by (unfold vs; destruct l; [congruence|discriminate]).
  destruct (row_min_least vs NV) as [I1 I2]. destruct (index_of_spec (row_min vs) vs I1) as (A1 & B & C). unfold argmin. set (q := index_of (row_min vs) vs) in *.
  assert (Lv : length vs = length l) by (unfold vs; apply map_length).
  assert (G : forall j, (j < length l)%nat -> nth j vs 0 = g (nth j l d)).
  { intros j Hj. rewrite (nth_indep vs 0 (g d)) by lia. unfold vs. apply map_nth. }
  split; [lia|]. intros j Hj. rewrite <- !G by lia. rewrite B. assert (LE : row_min vs <= nth j vs 0) by (apply I2, nth_In; lia).
  split; [exact LE|]. intros Hq. specialize (C j Hq). lra.
Qed.
Lemma nth_removelast {A} (l : list A) j d : (j + 1 < length l)%nat -> nth j (removelast l) d = nth j l d.
Proof.
  revert j. induction l as [|x l IH]; intros j Hj; [cbn in Hj; lia|]. destruct l as [|y l]; [cbn in Hj; lia|]. change (removelast (x :: y :: l)) with (x :: removelast (y :: l)).
  destruct j as [|j]; [reflexivity|]. change (nth j (removelast (y :: l)) d = nth j (y :: l) d). apply IH. cbn in Hj |- *. lia.
Qed.
Lemma removelast_len {A} (l : list A) : length (removelast l) = (length l - 1)%nat.
Proof. induction l as [|x [|y l] IH]; [reflexivity|reflexivity|]. change (removelast (x :: y :: l)) with (x :: removelast (y :: l)). cbn [length] in *. rewrite IH. lia. Qed.
Lemma nth_tl {A} (l : list A) j d : nth j (List.tl l) d = nth (j + 1) l d.
Proof. replace (j + 1)%nat with (S j) by lia. destruct l; [destruct j; reflexivity|reflexivity]. Qed.
Lemma nth_inner l j : (j + 2 < length l)%nat -> nth j (List.tl (removelast l)) 0 = nth (j + 1) l 0.
Proof. intros H. rewrite nth_tl. apply nth_removelast. lia. Qed.
Lemma inner_len (l : list R) : length (List.tl (removelast l)) = (length l - 2)%nat.
Proof. assert (E := removelast_len l). destruct (removelast l); cbn [List.tl length] in *; lia. Qed.
Lemma station_nearest xs p : List.tl (removelast xs) <> [] -> read_station xs p (argmin (map (fun x => Rabs (x - p)) (List.tl (removelast xs))) + 1).
Proof.
  intros N. destruct (argmin_first (fun x => Rabs (x - p)) 0 _ N) as [A B]. set (q := argmin _) in *. rewrite inner_len in *. split; [lia|].
  intros j Hj. destruct (B (j - 1)%nat ltac:(lia)) as [B1 B2]. rewrite (nth_inner xs q), (nth_inner xs (j - 1)) in B1 by lia. rewrite (nth_inner xs q), (nth_inner xs (j - 1)) in B2 by lia.
  replace (j - 1 + 1)%nat with j in * by lia. split; [exact B1|]. intros Hlt. apply B2. lia.
Qed.
Lemma nearest_unique f P p k k' : nearest f P p k -> nearest f P p k' -> k = k'.
Proof.
  intros [A B] [A' B']. destruct (Nat.lt_trichotomy k k') as [H|[H|H]]; [|exact H|].
  - destruct (B k' A') as [C _]. destruct (B' k A) as [_ D]. specialize (D H). lra.
  - destruct (B' k A) as [C _]. destruct (B k' A') as [_ D]. specialize (D H). lra.
Qed.

(** ** Members *)
Lemma node_succ b i : node_at b (i + 1) = node_at b i + nth i (b_lengths b) 0.
Proof. unfold node_at. replace (i + 1)%nat with (S i) by lia. reflexivity. Qed.
Lemma lookup_member b p : deck b -> exists sp, get_local_span_coords b p = Ok sp /\
  member_of b p (if Z.eqb (fst sp) (-1) then (b_nspans b - 1)%nat else Z.to_nat (fst sp)).
Proof.
  intros D. pose proof (dk_some _ D) as N. destruct (deck_lookup b p D) as [A B].
  destruct (Rlt_dec p 0) as [H|H]; [|destruct (Rlt_dec (deck_length b) p) as [H'|H']].
  - exists ((-1)%Z, 0). rewrite (B (or_introl H)). split; [reflexivity|]. cbn [fst]. rewrite Z.eqb_refl. split; [lia|]. right. split; [left; exact H|reflexivity].
  - exists ((-1)%Z, 0). rewrite (B (or_intror H')). split; [reflexivity|]. cbn [fst]. rewrite Z.eqb_refl. split; [lia|]. right. split; [right; lra|reflexivity].
  - destruct (A ltac:(lra)) as (i & x & E & Hi & Ep & Hx & Hl). exists (Z.of_nat i, x). split; [exact E|]. cbn [fst]. destruct (Z.eqb_spec (Z.of_nat i) (-1)); [lia|]. rewrite Nat2Z.id.
    split; [exact Hi|]. rewrite node_succ. destruct Hl as [Hl|[Hl ->]]; [left; lra|]. right. split; [|reflexivity]. right.
    unfold deck_length. replace (b_nspans b) with (b_nspans b - 1 + 1)%nat by lia. rewrite node_succ. lra.
Qed.
Lemma node_mono b : deck b -> forall i j, (i < j)%nat -> (j <= b_nspans b)%nat -> node_at b i < node_at b j.
Proof.
  intros D i j Hij. induction j as [|j IH]; [lia|]. intros Hj. replace (S j) with (j + 1)%nat by lia. rewrite node_succ. assert (P := deck_nth b D j ltac:(lia)).
  destruct (Nat.eq_dec i j) as [->|Ne]; [lra|]. specialize (IH ltac:(lia) ltac:(lia)). lra.
Qed.
Lemma member_of_unique b p i j : deck b -> member_of b p i -> member_of b p j -> i = j.
Proof.
  intros D [Hi A] [Hj B].
  assert (N0 : node_at b 0 = 0) by reflexivity.
  assert (G : forall i j, (i < b_nspans b)%nat -> (j < b_nspans b)%nat -> node_at b i <= p < node_at b (i + 1) -> node_at b j <= p < node_at b (j + 1) -> (i <= j)%nat).
  { intros u v Hu Hv Hu' Hv'. destruct (Nat.le_gt_cases u v) as [H|H]; [exact H|]. exfalso.
    assert (node_at b (v + 1) <= node_at b u); [|lra]. destruct (Nat.eq_dec (v + 1) u) as [->|Ne]; [lra|]. left. apply node_mono; [exact D|lia|lia]. }
  assert (Q : forall u, (u < b_nspans b)%nat -> node_at b u <= p < node_at b (u + 1) -> 0 <= p < deck_length b).
  { intros u Hu Hp. assert (0 <= node_at b u) by (destruct u; [lra|rewrite <- N0; left; apply node_mono; [exact D|lia|lia]]).
    assert (node_at b (u + 1) <= deck_length b); [|lra]. unfold deck_length. destruct (Nat.eq_dec (u + 1) (b_nspans b)) as [->|Ne]; [lra|]. left. apply node_mono; [exact D|lia|lia]. }
  destruct A as [A|[A ->]], B as [B|[B ->]]; [|specialize (Q i Hi A); lra|specialize (Q j Hj B); lra|reflexivity].
  apply Nat.le_antisymm; apply G; assumption.
Qed.

(** ** Supports *)
Lemma cumsum_nth Ls : forall x m, nth_error (cumsum_from x Ls) m = if Nat.leb m (length Ls) then Some (x + rsum m (fun k => nth k Ls 0)) else None.
Proof.
  induction Ls as [|L t IH]; intros x [|m]; cbn [cumsum_from nth_error].
  - cbn. f_equal. ring.
  - cbn [Nat.leb length]. destruct m; reflexivity.
  - cbn. f_equal. ring.
  - rewrite IH. cbn [length Nat.leb]. destruct (Nat.leb m (length t)); [|reflexivity]. f_equal.
    assert (S : forall n, rsum (S n) (fun k => nth k (L :: t) 0) = L + rsum n (fun k => nth k t 0)).
    { induction n as [|n IHn]; [cbn; ring|]. change (rsum (S n) (fun k => nth k (L :: t) 0) + nth n t 0 = L + (rsum n (fun k => nth k t 0) + nth n t 0)). rewrite IHn. ring. }
    rewrite S. ring.
Qed.
Lemma evens_nth {A} (l : list A) d m : nth m (evens l) d = nth (2 * m) l d.
Proof.
  revert l. induction m as [|m IH]; intros l.
  - destruct l as [|x [|y t]]; reflexivity.
  - destruct l as [|x [|y t]]; [reflexivity|cbn; destruct m; reflexivity|]. replace (2 * S m)%nat with (S (S (2 * m))) by lia. cbn [evens nth]. apply IH.
Qed.
Lemma evens_len {A} : forall n (l : list A) m, (length l <= n)%nat -> (m < length (evens l))%nat <-> (2 * m < length l)%nat.
Proof.
  induction n as [|n IH]; intros [|x [|y t]] m Hn; cbn [length evens] in *; try lia. destruct m as [|m]; [lia|].
  specialize (IH t m ltac:(lia)). lia.
Qed.
Definition side {A} (off : nat) (l : list A) : list A := match off with O => evens l | _ => odds l end.
Lemma side_nth off l m : (off <= 1)%nat -> nth m (side off l) 0 = nth (2 * m + off) l 0.
Proof.
  intros H. destruct off as [|[|off]]; [| |lia]; cbn [side].
  - rewrite evens_nth. f_equal. lia.
  - unfold odds. rewrite evens_nth, nth_tl. reflexivity.
Qed.
Lemma side_len off (l : list R) m : (off <= 1)%nat -> (m < length (side off l))%nat <-> (2 * m + off < length l)%nat.
Proof.
  intros H. destruct off as [|[|off]]; [| |lia]; cbn [side].
  - rewrite (evens_len (length l)) by lia. lia.
  - unfold odds. rewrite (evens_len (length l)) by (destruct l; cbn; lia). destruct l; cbn [List.tl length]; lia.
Qed.
Lemma where_eq_in x l m : In m (where_eq x l) <-> (m < length l)%nat /\ nth m l 0 = x.
Proof.
  unfold where_eq. rewrite filter_In, in_seq. destruct (Reqb_spec (nth m l 0) x); intuition (try discriminate; try lia).
Qed.
Lemma filter_seq_sorted P : forall n s, StronglySorted lt (filter P (seq s n)).
Proof.
  induction n as [|n IH]; intros s; [constructor|]. cbn [seq filter]. destruct (P s); [|apply IH]. constructor; [apply IH|].
  apply Forall_forall. intros x Hx. apply filter_In in Hx as [Hx _]. apply in_seq in Hx. lia.
Qed.
Lemma sorted_nth (l : list nat) : StronglySorted lt l -> forall i j, (i < j < length l)%nat -> (nth i l 0 < nth j l 0)%nat.
Proof.
  induction 1 as [|x l S IH F]; intros i j Hij; [cbn in Hij; lia|]. destruct j as [|j]; [lia|]. destruct i as [|i]; cbn [nth].
  - rewrite Forall_forall in F. apply F, nth_In. cbn in Hij. lia.
  - apply IH. cbn in Hij. lia.
Qed.
Lemma filter_map_S (P : nat -> bool) l : filter P (map S l) = map S (filter (fun i => P (S i)) l).
Proof. induction l as [|u l IH]; [reflexivity|]. cbn [map filter]. destruct (P (S u)); cbn [map]; rewrite IH; reflexivity. Qed.
Lemma mask_nth rs : forall k j, (j < length rs)%nat -> nth j rs 0 = -1 -> nth_error (mask_from k rs) j = Some (k + length (filter (fun i => Reqb (nth i rs 0%R) (-1)%R) (seq 0 j)))%nat.
Proof.
  induction rs as [|r t IH]; intros k j Hj E; [cbn in Hj; lia|]. cbn [mask_from]. destruct j as [|j].
  - cbn in E. subst r. destruct (Reqb_spec (-1) (-1)); [|congruence]. cbn. f_equal. lia.
  - assert (SH : filter (fun i => Reqb (nth i (r :: t) 0) (-1)) (seq 1 j) = map S (filter (fun i => Reqb (nth i t 0) (-1)) (seq 0 j))).
    { rewrite <- seq_shift. apply filter_map_S. }
    change (seq 0 (S j)) with (0%nat :: seq 1 j). cbn [filter]. change (nth 0 (r :: t) 0) with r. rewrite SH. clear SH. cbn in E, Hj. destruct (Reqb_spec r (-1)) as [->|N]; cbn [nth_error length].
    + rewrite IH by (exact E || lia). rewrite map_length. f_equal. lia.
    + rewrite IH by (exact E || lia). rewrite map_length. reflexivity.
Qed.
Lemma support_spec' ints b poi off k : deck b -> (off <= 1)%nat -> plain_restraints b -> support_index ints b poi off = Ok k ->
  ints = true /\ exists n, read_support b off poi n /\ k = rank (fun j => Rltb (restraint b j) 0) (2 * n + off).
Proof.
  intros D Ho PR H. unfold support_index in H. fold (side off (b_R b)) in H. set (nodes := cumsum_from 0 (b_lengths b)) in *. set (sups := where_eq (-1) (side off (b_R b))) in *.
  assert (NN : forall m x, nth_error nodes m = Some x <-> (m <= b_nspans b)%nat /\ x = node_at b m).
  { intros m x. unfold nodes. rewrite cumsum_nth, <- (dk_n _ D). destruct (Nat.leb_spec m (b_nspans b)).
    - unfold node_at. rewrite Rplus_0_l. split; [intros E; injection E as <-; auto|intros [_ ->]; reflexivity].
    - split; [discriminate|lia]. }
  assert (NL : length nodes = S (b_nspans b)).
  { assert (A : nth_error nodes (b_nspans b) <> None) by (rewrite (proj2 (NN _ _) (conj (le_n _) eq_refl)); discriminate). apply nth_error_Some in A.
    assert (B : nth_error nodes (S (b_nspans b)) = None) by (destruct (nth_error nodes (S (b_nspans b))) eqn:E; [apply NN in E; lia|reflexivity]). apply nth_error_None in B. lia. }
  assert (SI : forall m, In m sups <-> (2 * m + off < length (b_R b))%nat /\ restraint b (2 * m + off) = -1).
  { intros m. unfold sups. rewrite where_eq_in, side_len, side_nth by exact Ho. reflexivity. }
  apply rbind_ok in H as (locs & HL & H).
  assert (LS : locs = map (node_at b) sups /\ forall m, In m sups -> (m <= b_nspans b)%nat).
  { clear - HL NN. revert locs HL. induction sups as [|m l IH]; intros locs HL; cbn [mapM] in HL.
    - injection HL as <-. split; [reflexivity|intros m []].
    - apply rbind_ok in HL as (x & Hx & HL). apply rbind_ok in HL as (xs & Hxs & HL). injection HL as <-. destruct (IH _ Hxs) as [-> B]. apply get_ok in Hx. apply NN in Hx as [Hm ->].
      split; [reflexivity|]. intros u [<-|Hu]; [exact Hm|exact (B u Hu)]. }
  destruct LS as [-> SB]. assert (SN : sups <> []) by (destruct sups; [discriminate|discriminate]).
  assert (H' : (do c <- get (map (node_at b) sups) (argmin (map (fun x => Rabs (x - poi)) (map (node_at b) sups)));
     do n <- get (where_eq c nodes) 0; do k <- get (mask_from 0 (b_R b)) (2 * n + off); if ints then Ok k else Err IndexError) = Ok k) by (destruct (map (node_at b) sups); [discriminate|exact H]).
  clear H. rewrite map_map in H'. apply rbind_ok in H' as (c & Hc & H). apply rbind_ok in H as (n & Hn & H). apply rbind_ok in H as (k' & Hk & H).
  destruct ints; [|discriminate]. apply ok_inj in H. subst k'. split; [reflexivity|].
  destruct (argmin_first (fun m => Rabs (node_at b m - poi)) 0%nat sups SN) as [AQ AM]. set (q := argmin _) in *.
  apply get_ok in Hc. rewrite nth_error_map in Hc. destruct (nth_error sups q) as [m|] eqn:Eq; [|discriminate]. injection Hc as <-.
  assert (Em : nth q sups 0%nat = m) by (apply nth_error_nth; exact Eq). rewrite Em in AM.
  assert (Hm : In m sups) by (eapply nth_error_In; exact Eq). assert (Bm := SB m Hm). apply SI in Hm as [Lm Rm].
  apply get_ok in Hn. apply nth_error_In in Hn. apply where_eq_in in Hn as [Ln En]. rewrite NL in Ln.
  assert (n = m).
  { assert (E : nth_error nodes n = Some (node_at b n)) by (apply NN; split; [lia|reflexivity]). rewrite (nth_error_nth _ _ _ E) in En.
    destruct (Nat.lt_trichotomy n m) as [X|[X|X]]; [|exact X|].
    - assert (Y := node_mono b D n m X Bm). lra.
    - assert (Y := node_mono b D m n X ltac:(lia)). lra. }
  subst n. exists m. split.
  - split; [auto|]. intros j [Hj Rj].
    assert (Ij : In j sups). { apply SI. split; [|exact Rj]. destruct (Nat.lt_ge_cases (2 * j + off) (length (b_R b))) as [Y|Y]; [exact Y|]. unfold restraint in Rj. rewrite nth_overflow in Rj by exact Y. lra. }
    destruct (In_nth _ _ 0%nat Ij) as (u & Hu & Eu). destruct (AM u Hu) as [B1 B2]. rewrite Eu in B1, B2. split; [exact B1|]. intros Hlt. apply B2.
    destruct (Nat.lt_trichotomy u q) as [X|[X|X]]; [exact X| |]; exfalso.
    + subst u. lia.
    + assert (Y := sorted_nth sups (filter_seq_sorted _ _ _) q u (conj X Hu)). rewrite Em, Eu in Y. lia.
  - apply get_ok in Hk. rewrite mask_nth in Hk by assumption. injection Hk as <-. cbn [Nat.add]. unfold rank. f_equal. apply filter_ext_in. intros i Hi. apply in_seq in Hi. unfold restraint.
    unfold plain_restraints in PR. rewrite Forall_forall in PR. assert (I : In (nth i (b_R b) 0) (b_R b)) by (apply nth_In; lia). specialize (PR _ I).
    destruct (Reqb_spec (nth i (b_R b) 0) (-1)) as [E|E], (Rltb_spec (nth i (b_R b) 0) 0) as [E'|E']; try reflexivity; lra.
Qed.
