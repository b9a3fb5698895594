(** The traverse theorems, critical values and shear sections. *)
From Coq Require Import Lia ZArith Sorted.
From Verif Require Import Base BaseFacts Linalg SectionModel FlexModel LoadModel LoadSpec FoundationModel ElementModel UtilsModel BeamModel BeamSpec AnalysisModel AnalysisSpec
  AnalysisFacts2 HistoryFacts CtorFacts ResultsModel ResultsSpec ResultsFacts EnvelopeModel EnvelopeSpec EnvelopeFacts LoadCasesModel LoadCasesSpec LoadCasesFacts SegmentFacts
  ShapeFacts VehicleModel VehicleSpec BridgeModel BridgeSpec BridgeFacts CritFacts.
Open Scope R_scope.
Local Notation length := List.length.

(** ** Shear sections *)
Lemma support_from b rs : forall Ls i x, (2 * (i + length Ls) < length rs)%nat -> 
  (forall j, (j <= length Ls)%nat -> x + start Ls j = node_at b (i + j)) ->
  exists xs, support_xs_from i x Ls rs = Ok xs /\ forall s, In s xs <-> exists j, (i <= j <= i + length Ls)%nat /\ nth (2 * j) rs 0 <> 0 /\ s = node_at b j.
Proof.
  induction Ls as [|L Ls IH]; intros i x HL HX; cbn [support_xs_from length] in *; rewrite (get_nth rs (2 * i) 0) by lia; cbn [rbind].
  - assert (E := HX 0%nat (le_n _)). unfold start, lsum in E. cbn in E. rewrite Nat.add_0_r, Rplus_0_r in E.
    eexists. split; [reflexivity|]. intros s. destruct (Reqb_spec (nth (2 * i) rs 0) 0) as [Z|Z]; split.
    + intros [].
    + intros (j & Hj & NZ & _). replace j with i in NZ by lia. contradiction.
    + intros [<-|[]]. exists i. split; [lia|]. auto.
    + intros (j & Hj & _ & ->). replace j with i by lia. left. exact E.
  - destruct (IH (i + 1)%nat (x + L)) as (xs & Exs & IN).
    + lia.
    + intros j Hj. rewrite <- Nat.add_assoc, (Nat.add_1_l j), <- HX by lia. unfold start, lsum. cbn [firstn fold_right]. ring.
    + rewrite Exs. cbn [rbind]. eexists. split; [reflexivity|]. intros s. rewrite in_app_iff, IN.
      assert (E := HX 0%nat ltac:(lia)). unfold start, lsum in E. cbn in E. rewrite Nat.add_0_r, Rplus_0_r in E.
      split.
      * intros [H|(j & Hj & NZ & ->)]; [|exists j; split; [lia|auto]]. destruct (Reqb_spec (nth (2 * i) rs 0) 0) as [Z|Z]; [destruct H|].
        destruct H as [<-|[]]. exists i. split; [lia|auto].
      * intros (j & Hj & NZ & ->). destruct (Nat.eq_dec j i) as [->|N].
        -- left. destruct (Reqb_spec (nth (2 * i) rs 0) 0) as [Z|Z]; [contradiction|]. left. exact E.
        -- right. exists j. split; [lia|auto].
Qed.
Lemma support_spec b : deck b -> (2 * b_nspans b < length (b_R b))%nat -> exists xs, vertical_support_xs b = Ok xs /\ forall s, In s xs <-> vertical_support b s.
Proof.
  intros D HL. unfold vertical_support_xs. rewrite (dk_n _ D) in HL. destruct (support_from b (b_R b) (b_lengths b) 0 0 HL) as (xs & E & IN).
  - intros j Hj. cbn [Nat.add]. rewrite Rplus_0_l. unfold node_at. rewrite rsum_start by exact Hj. reflexivity.
  - exists xs. split; [exact E|]. intros s. rewrite IN. unfold vertical_support, restraint. rewrite (dk_n _ D). split; intros (j & Hj & H); exists j; (split; [lia|exact H]).
Qed.

Lemma insert_pt_in p l x : In x (insert_pt p l) <-> x = p \/ In x l.
Proof.
  induction l as [|q l IH]; cbn [insert_pt].
  - split; [intros [<-|[]]; auto|intros [->|[]]; left; reflexivity].
  - destruct (Rltb p q); [cbn; intuition|]. destruct (Reqb_spec p q) as [->|N]; [cbn; intuition|]. cbn [In]. rewrite IH. intuition.
Qed.
Lemma insert_pt_sorted p l : StronglySorted Rlt l -> StronglySorted Rlt (insert_pt p l).
Proof.
  induction 1 as [|q l S IH F]; cbn [insert_pt]; [constructor; constructor|]. unfold Rltb. destruct (Rlt_dec p q) as [L|L].
  - constructor; [constructor; assumption|]. constructor; [exact L|]. eapply Forall_impl; [|exact F]. intros; lra.
  - destruct (Reqb_spec p q) as [->|N]; [constructor; assumption|]. constructor; [exact IH|]. apply Forall_forall. intros x Hx. apply insert_pt_in in Hx.
    destruct Hx as [->|Hx]; [lra|]. rewrite Forall_forall in F. apply F, Hx.
Qed.
Lemma sorted_set_spec l : StronglySorted Rlt (sorted_set l) /\ forall x, In x (sorted_set l) <-> In x l.
Proof.
  unfold sorted_set. assert (G : forall acc, StronglySorted Rlt acc -> StronglySorted Rlt (fold_left (fun acc p => insert_pt p acc) l acc) /\
    forall x, In x (fold_left (fun acc p => insert_pt p acc) l acc) <-> In x acc \/ In x l).
  { induction l as [|p l IH]; intros acc S; cbn [fold_left]; [split; [exact S|]; cbn; intuition|]. destruct (IH _ (insert_pt_sorted p acc S)) as [A B]. split; [exact A|].
    intros x. rewrite B, insert_pt_in. cbn. intuition. }
  destruct (G [] (SSorted_nil _)) as [A B]. split; [exact A|]. intros x. rewrite B. cbn. intuition.
Qed.

Lemma resolve_spec b points dv : deck b -> (2 * b_nspans b < length (b_R b))%nat ->
  exists sps pts, resolve_shear_points b points dv = Ok (sps, pts) /\ StronglySorted Rlt pts /\ (forall x, In x pts <-> requested b points dv x) /\
    forall i x, In x (sps i) <-> (i < b_nspans b)%nat /\ 0 <= x < nth i (b_lengths b) 0 /\ requested b points dv (node_at b i + x).
Proof.
  intros D HR. destruct (support_spec b D HR) as (sx & Esx & Isx). unfold resolve_shear_points.
  set (sup := match dv with Some d => _ | None => _ end).
  assert (Hsup : exists l, sup = Ok l /\ forall x, In x l <-> exists d s, dv = Some d /\ vertical_support b s /\ (x = s - d \/ x = s + d)).
  { unfold sup. destruct dv as [d|].
    - rewrite Esx. cbn [rbind]. eexists. split; [reflexivity|]. intros x. rewrite in_flat_map. split.
      + intros (s & Hs & Hx). apply Isx in Hs. exists d, s. split; [reflexivity|]. split; [exact Hs|]. cbn in Hx. intuition.
      + intros (d' & s & E & Hs & Hx). injection E as <-. exists s. split; [apply Isx; exact Hs|]. cbn. intuition.
    - eexists. split; [reflexivity|]. intros x. split; [intros []|intros (d & s & E & _); discriminate]. }
  clearbody sup. destruct Hsup as (sl & -> & Isl). cbn [rbind].
  set (all := (match points with Some p => p | None => [] end ++ sl)%list).
  set (flt := filter (fun g => (Rltb 0 g && Rltb g (b_length b))%bool) all).
  destruct (sorted_set_spec flt) as [SS IN]. set (pts := sorted_set flt) in *.
  assert (RQ : forall x, In x pts <-> requested b points dv x).
  { intros x. rewrite IN. unfold flt. rewrite filter_In. unfold all. rewrite in_app_iff, Isl. rewrite (dk_len _ D). unfold requested, deck_length, Rltb.
    split.
    - intros [H E]. destruct (Rlt_dec 0 x) as [X0|]; [|discriminate]. destruct (Rlt_dec x _) as [X1|]; [|discriminate]. split; [lra|].
      destruct H as [H|H]; [left|right; exact H]. destruct points as [p|]; [exists p; auto|destruct H].
    - intros [H H']. split; [|destruct (Rlt_dec 0 x); [destruct (Rlt_dec x _); [reflexivity|lra]|lra]].
      destruct H' as [(l & -> & Hl)|H']; [left; exact Hl|right; exact H']. }
  clearbody pts.
  assert (LK : forall g, In g pts -> exists i x, get_local_span_coords b g = Ok (Z.of_nat i, x) /\ (i < b_nspans b)%nat /\ g = node_at b i + x /\ 0 <= x < nth i (b_lengths b) 0).
  { intros g Hg. apply RQ in Hg. destruct Hg as [Hg _]. destruct (deck_lookup b g D) as [On _]. destruct (On ltac:(lra)) as (i & x & E & Hi & Eg & X0 & X1).
    exists i, x. split; [exact E|]. split; [exact Hi|]. split; [exact Eg|]. split; [exact X0|]. destruct X1 as [X1|[X1 X2]]; [exact X1|]. exfalso.
    unfold deck_length in Hg. replace (b_nspans b) with (S i) in Hg by (pose proof (dk_some _ D); lia). rewrite node_at_S in Hg. lra. }
  assert (ML : exists loc, mapM (get_local_span_coords b) pts = Ok loc /\ Forall2 (fun g p => get_local_span_coords b g = Ok p) pts loc).
  { clear - LK. induction pts as [|g pts IH]; [exists []; split; [reflexivity|constructor]|]. destruct IH as (loc & E & F); [intros; apply LK; right; assumption|].
    destruct (LK g (or_introl eq_refl)) as (i & x & Eg & _). exists ((Z.of_nat i, x) :: loc). cbn [mapM]. rewrite Eg, E. split; [reflexivity|]. constructor; assumption. }
  destruct ML as (loc & -> & F). cbn [rbind]. eexists _, pts. split; [reflexivity|]. split; [exact SS|]. split; [exact RQ|].
  intros i x. rewrite in_map_iff. split.
  - intros ((z & y) & <- & Hf). apply filter_In in Hf. destruct Hf as [Hin Hz]. cbn [fst snd] in *. apply Z.eqb_eq in Hz. subst z.
    destruct (In_nth_error _ _ Hin) as (q & Hq). assert (exists g, In g pts /\ get_local_span_coords b g = Ok (Z.of_nat i, y)) as (g & Hg & Eg).
    { clear - F Hin. induction F as [|g p l m A F IH]; [destruct Hin|]. destruct Hin as [->|Hin]; [exists g; split; [left; reflexivity|exact A]|].
      destruct (IH Hin) as (g' & H1 & H2). exists g'. split; [right; exact H1|exact H2]. }
    destruct (LK g Hg) as (i' & x' & E & Hi & Ex & HX). rewrite E in Eg. injection Eg as Ei <-. apply Nat2Z.inj in Ei. subst i'.
    split; [exact Hi|]. split; [exact HX|]. apply RQ. rewrite <- Ex. exact Hg.
  - intros (Hi & HX & HQ). apply RQ in HQ. destruct (LK _ HQ) as (i' & x' & E & Hi' & Ex & HX').
    assert (M : forall i j, (i <= j <= length (b_lengths b))%nat -> node_at b i <= node_at b j).
    { intros i0 j0. apply node_at_mono. intros m Hm. apply deck_nth; [exact D|]. rewrite (dk_n _ D). exact Hm. }
    assert (i = i') as <-.
    { rewrite (dk_n _ D) in *. destruct (Nat.lt_trichotomy i i') as [L|[L|L]]; [|exact L|].
      - exfalso. assert (A := M (S i) i' ltac:(lia)). rewrite node_at_S in A. lra.
      - exfalso. assert (A := M (S i') i ltac:(lia)). rewrite node_at_S in A. lra. }
    assert (x = x') as <- by lra.
    exists (Z.of_nat i, x). split; [reflexivity|]. apply filter_In. split; [|apply Z.eqb_refl].
    clear - F HQ E. induction F as [|g p l m A F IH]; [destruct HQ|]. destruct HQ as [->|HQ]; [left; congruence|right; apply IH; exact HQ].
Qed.

(** Nearest stations. *)
Lemma nearest_left xs x : (exists y, In y xs /\ y < x) -> 
  let l := filter (fun k => Rltb (nth k xs 0) x) (seq 0 (length xs)) in
  l <> [] /\ just_before xs x (nth (argmax (map (fun k => nth k xs 0) l)) l 0%nat).
Proof.
  intros (y & Hy & Hlt) l. assert (N : l <> []).
  { apply (In_nth _ _ 0) in Hy. destruct Hy as (k & Hk & <-). intros E. assert (In k l) as X; [|rewrite E in X; destruct X].
    apply filter_In. split; [apply in_seq; lia|]. unfold Rltb. destruct (Rlt_dec _ _); [reflexivity|lra]. }
  split; [exact N|]. set (vs := map (fun k => nth k xs 0) l). assert (NV : vs <> []) by (unfold vs; destruct l; [congruence|discriminate]).
  destruct (row_max_greatest vs NV) as [I1 I2]. destruct (index_of_spec (row_max vs) vs I1) as (A & B & _). unfold argmax. set (q := index_of (row_max vs) vs) in *.
  assert (Lv : length vs = length l) by (unfold vs; apply map_length).
  assert (EQ : nth (nth q l 0%nat) xs 0 = row_max vs).
  { transitivity (nth q vs (nth 0 xs 0)); [unfold vs; symmetry; apply (map_nth (fun k => nth k xs 0))|]. rewrite (nth_indep vs _ 0) by lia. exact B. }
  assert (IQ : In (nth q l 0%nat) l) by (apply nth_In; lia). apply filter_In in IQ. destruct IQ as [IQ1 IQ2]. apply in_seq in IQ1.
  split; [lia|]. split; [unfold Rltb in IQ2; destruct (Rlt_dec _ _); [assumption|discriminate]|].
  intros z Hz Hzx. rewrite EQ. apply I2. apply (In_nth _ _ 0) in Hz. destruct Hz as (k & Hk & <-). unfold vs. apply (in_map (fun k => nth k xs 0)). apply filter_In. split; [apply in_seq; lia|].
  unfold Rltb. destruct (Rlt_dec _ _); [reflexivity|lra].
Qed.
Lemma nearest_right xs x : (exists y, In y xs /\ x < y) -> 
  let l := filter (fun k => Rltb x (nth k xs 0)) (seq 0 (length xs)) in
  l <> [] /\ just_after xs x (nth (argmin (map (fun k => nth k xs 0) l)) l 0%nat).
Proof.
  intros (y & Hy & Hlt) l. assert (N : l <> []).
  { apply (In_nth _ _ 0) in Hy. destruct Hy as (k & Hk & <-). intros E. assert (In k l) as X; [|rewrite E in X; destruct X].
    apply filter_In. split; [apply in_seq; lia|]. unfold Rltb. destruct (Rlt_dec _ _); [reflexivity|lra]. }
  split; [exact N|]. set (vs := map (fun k => nth k xs 0) l). assert (NV : vs <> []) by (unfold vs; destruct l; [congruence|discriminate]).
  destruct (row_min_least vs NV) as [I1 I2]. destruct (index_of_spec (row_min vs) vs I1) as (A & B & _). unfold argmin. set (q := index_of (row_min vs) vs) in *.
  assert (Lv : length vs = length l) by (unfold vs; apply map_length).
  assert (EQ : nth (nth q l 0%nat) xs 0 = row_min vs).
  { transitivity (nth q vs (nth 0 xs 0)); [unfold vs; symmetry; apply (map_nth (fun k => nth k xs 0))|]. rewrite (nth_indep vs _ 0) by lia. exact B. }
  assert (IQ : In (nth q l 0%nat) l) by (apply nth_In; lia). apply filter_In in IQ. destruct IQ as [IQ1 IQ2]. apply in_seq in IQ1.
  split; [lia|]. split; [unfold Rltb in IQ2; destruct (Rlt_dec _ _); [assumption|discriminate]|].
  intros z Hz Hzx. rewrite EQ. apply I2. apply (In_nth _ _ 0) in Hz. destruct Hz as (k & Hk & <-). unfold vs. apply (in_map (fun k => nth k xs 0)). apply filter_In. split; [apply in_seq; lia|].
  unfold Rltb. destruct (Rlt_dec _ _); [reflexivity|lra].
Qed.
Lemma nearest_support xs x : xs <> [] -> let s := nth (argmin (map (fun y => Rabs (y - x)) xs)) xs 0 in In s xs /\ forall y, In y xs -> Rabs (s - x) <= Rabs (y - x).
Proof.
  intros N s. set (vs := map (fun y => Rabs (y - x)) xs) in s. assert (NV : vs <> []) by (unfold vs; destruct xs; [congruence|discriminate]).
  destruct (row_min_least vs NV) as [I1 I2]. destruct (index_of_spec (row_min vs) vs I1) as (A & B & _). unfold s, argmin. set (q := index_of (row_min vs) vs) in *.
  assert (Lv : length vs = length xs) by (unfold vs; apply map_length). split; [apply nth_In; lia|].
  intros y Hy. assert (E : Rabs (nth q xs 0 - x) = row_min vs).
  { transitivity (nth q vs (Rabs (0 - x))); [unfold vs; symmetry; apply (map_nth (fun y => Rabs (y - x)))|]. rewrite (nth_indep vs _ 0) by lia. exact B. }
  rewrite E. apply I2. unfold vs. apply (in_map (fun y => Rabs (y - x))). exact Hy.
Qed.

Lemma shear_block_spec b e x : deck b -> (2 * b_nspans b < length (b_R b))%nat -> length (e_Vmax e) = length (e_x e) -> length (e_Vmin e) = length (e_x e) ->
  (exists y, In y (e_x e) /\ y < x) -> (exists y, In y (e_x e) /\ x < y) ->
  exists s, shear_block b e x = Ok [s] /\ section_shear b e x s.
Proof.
  intros D HR L1 L2 HL HG. destruct (nearest_left _ _ HL) as [NL JL]. destruct (nearest_right _ _ HG) as [NR JR]. cbv zeta in *.
  destruct (support_spec b D HR) as (sx & Esx & Isx). unfold shear_block.
  set (l := filter (fun k => Rltb (nth k (e_x e) 0) x) (seq 0 (length (e_x e)))) in *. set (r := filter (fun k => Rltb x (nth k (e_x e) 0)) (seq 0 (length (e_x e)))) in *.
  set (il := nth (argmax (map (fun k => nth k (e_x e) 0) l)) l 0%nat) in *. set (ir := nth (argmin (map (fun k => nth k (e_x e) 0) r)) r 0%nat) in *.
  destruct l as [|l0 lt]; [congruence|]. destruct r as [|r0 rt]; [congruence|]. cbv zeta. fold il ir.
  destruct JL as (A1 & A2 & A3). destruct JR as (B1 & B2 & B3).
  rewrite (get_nth (e_Vmax e) il 0), (get_nth (e_Vmax e) ir 0), (get_nth (e_Vmin e) il 0), (get_nth (e_Vmin e) ir 0) by lia. cbn [rbind]. rewrite Esx. cbn [rbind].
  eexists. split; [reflexivity|]. constructor; cbn [se_x se_Vmax_left se_Vmax_right se_Vmin_left se_Vmin_right se_Vmax se_Vmin se_support]; try reflexivity.
  - exists il. split; [split; [exact A1|split; assumption]|]. auto.
  - exists ir. split; [split; [exact B1|split; assumption]|]. auto.
  - destruct sx as [|s0 st].
    + intros y Hy. apply Isx in Hy. destruct Hy.
    + destruct (nearest_support (s0 :: st) x ltac:(discriminate)) as [I1 I2]. cbv zeta in *. set (s := nth _ (s0 :: st) 0) in *. clearbody s.
      split; [apply Isx, I1|]. split; [intros y' Hy'; apply I2, Isx, Hy'|]. unfold Rltb. destruct (Rlt_dec x s); split; intros; try discriminate; try reflexivity; try assumption; contradiction.
Qed.
