(** Proofs: the drawing against the analysed loads, reactions by node, helpers. *)
From Coq Require Import ZArith String.
From Verif Require Import Base BaseFacts SectionModel LoadModel LoadSpec FoundationModel ElementModel UtilsModel BeamModel BeamSpec AnalysisModel AnalysisSpec AnalysisFacts2
  ResultsModel ResultsSpec BridgeSpec RenderModel RenderSpec RenderFacts.
Open Scope R_scope.

Lemma plotter_parts b s p : beam_plotter b s = Ok p ->
  exists lm sup d, resolve_lm b s = Ok lm /\ infer_supports (b_terminal b) (b_R b) = Ok sup /\
    infer_loads (b_terminal b) (b_lengths b) lm = Ok d /\
    p = {| pl_beam := b; pl_L := b_length b; pl_x := b_terminal b; pl_LM := lm; pl_supports := sup; pl_loads := d;
        pl_hinges := infer_hinges (b_terminal b) (b_types b) |}.
Proof.
  unfold beam_plotter. intros H. apply rbind_ok in H as (lm & E1 & H). apply rbind_ok in H as (sup & E2 & H). apply rbind_ok in H as (d & E3 & H).
  injection H as <-. exists lm, sup, d. auto.
Qed.

Lemma supports_drawn b s p : deck b -> documented b -> beam_plotter b s = Ok p -> shows_supports b (pl_supports p).
Proof. intros K D H. destruct (plotter_parts _ _ _ H) as (lm & sup & d & E1 & E2 & E3 & ->). apply supports_shown; assumption. Qed.

Lemma hinges_drawn b s p : deck b -> beam_plotter b s = Ok p -> forall h, In h (pl_hinges p) <->
  exists i, (0 < i < b_nspans b)%nat /\ (loose_right b (i - 1) \/ loose_left b i) /\ h = {| h_x := node_at b i; h_node := i |}.
Proof. intros K H. destruct (plotter_parts _ _ _ H) as (lm & sup & d & E1 & E2 & E3 & ->). apply hinges_shown. exact K. Qed.

Lemma attach_same_action b p q L : attach_EI b p = Ok q -> fst q = fst p /\ action_of L (snd q) = action_of L (snd p).
Proof.
  destruct p as [s ld]. unfold attach_EI. destruct ld; intros H;
    try (injection H as <-; split; reflexivity).
  apply rbind_ok in H as (i & _ & H). apply rbind_ok in H as (e & _ & H). injection H as <-. split; reflexivity.
Qed.

Lemma attach_actions b ls ls' L m : mapM (attach_EI b) ls = Ok ls' -> actions L (loads_of ls' m) = actions L (loads_of ls m).
Proof.
  revert ls'. induction ls as [|p ls IH]; cbn [mapM]; intros ls' H; [injection H as <-; reflexivity|].
  apply rbind_ok in H as (q & Hq & H). apply rbind_ok in H as (qs & Hqs & H). injection H as <-.
  destruct (attach_same_action b p q L Hq) as [E1 E2]. specialize (IH qs Hqs). unfold loads_of in *. cbn [filter]. rewrite E1.
  destruct (Z.eqb (fst p) (Z.of_nat m)); [|exact IH]. cbn [map actions fold_right]. unfold actions in IH. rewrite IH, E2. reflexivity.
Qed.

Lemma loads_drawn b s p ls m : deck b -> beam_plotter b s = Ok p -> parsed_loads (set_loads b (pl_LM p)) = Ok ls -> (m < b_nspans b)%nat ->
  shows_action b m (pl_loads p) (actions (span_length b m) (loads_of ls m)).
Proof.
  intros K H E Hm. destruct (plotter_parts _ _ _ H) as (lm & sup & d & E1 & E2 & E3 & ->). cbn [pl_LM pl_loads] in *.
  unfold parsed_loads in E. apply rbind_ok in E as (l0 & P & E). cbn [b_LM set_loads with_LM] in P.
  rewrite (attach_actions _ _ _ _ _ E). unfold infer_loads in E3. rewrite P in E3. cbn [rbind] in E3. apply fold_shows; assumption.
Qed.

(** ** Where the symbols are *)
Definition no_overhang (L : R) (ld : load) : Prop := match ld with LPUDL _ a c => a + c <= L | _ => True end.

Lemma node_next b m : node_at b (S m) = node_at b m + span_length b m.
Proof. reflexivity. Qed.

Lemma span_pos b m : deck b -> (m < b_nspans b)%nat -> 0 < span_length b m.
Proof.
  intros K Hm. pose proof (dk_pos b K) as P. rewrite Forall_forall in P. apply P. unfold span_length. apply nth_In. rewrite <- (dk_n b K). exact Hm.
Qed.

Lemma draw_placed b d m ld d' : deck b -> (m < b_nspans b)%nat -> on_member (span_length b m) ld -> no_overhang (span_length b m) ld ->
  draw_load (b_terminal b) (b_lengths b) d (Z.of_nat m, ld) = Ok d' -> placed b d -> placed b d'.
Proof.
  intros K Hm OM NO H [P1 P2 P3]. unfold draw_load in H. cbn [fst snd] in H.
  apply rbind_ok in H as (off & Eo & H). apply rbind_ok in H as (L & EL & H). injection H as <-.
  apply py_get_nat in Eo. apply py_get_nat in EL. apply (terminal_at b m off K) in Eo. subst off.
  assert (LL : L = span_length b m) by (unfold span_length; symmetry; apply nth_error_nth; exact EL). subst L.
  pose proof (span_pos b m K Hm) as LP. set (L := span_length b m) in *.
  assert (DIST : forall q, d_span q = Z.of_nat m -> node_at b m <= d_x0 q -> d_x0 q <= d_x1 q -> d_x1 q <= node_at b m + L -> placed b (add_dist d q)).
  { intros q Q1 Q2 Q3 Q4. constructor; cbn [dr_dist dr_pts dr_moms add_dist]; auto. intros q' Hq. apply in_app_or in Hq as [Hq|[<-|[]]]; auto.
    exists m. unfold in_span. rewrite node_next. fold L. repeat split; auto; lra. }
  destruct ld as [w|P a|w a c|w1 w2 a co|Ma Mb|mo a|kap EI]; cbn [on_member no_overhang] in *.
  - apply DIST; cbn; auto; lra.
  - constructor; cbn [dr_dist dr_pts dr_moms add_pt]; auto. intros q' Hq. apply in_app_or in Hq as [Hq|[<-|[]]]; auto.
    exists m. unfold in_span. rewrite node_next. fold L. cbn. repeat split; auto; lra.
  - apply DIST; cbn; auto; lra.
  - unfold trap_resolve. set (c := match co with Some c => c | None => L - a end). destruct (Rleb_spec L a) as [A1|A1]; cbn [orb].
    { destruct (Rltb_spec 0 0); [lra|]. constructor; assumption. }
    destruct (Rleb_spec c 0) as [C1|C1].
    { destruct (Rltb_spec 0 0); [lra|]. constructor; assumption. }
    destruct (Rltb_spec L (a + c)).
    + destruct (Rltb 0 (L - a)); [|constructor; assumption]. apply DIST; cbn; auto; lra.
    + destruct (Rltb 0 c); [|constructor; assumption]. apply DIST; cbn; auto; lra.
  - constructor; assumption.
  - constructor; cbn [dr_dist dr_pts dr_moms add_mom]; auto. intros q' Hq. apply in_app_or in Hq as [Hq|[<-|[]]]; auto.
    exists m. unfold in_span. rewrite node_next. fold L. cbn. repeat split; auto; lra.
  - constructor; assumption.
Qed.

(** Rows given on the beam, within their spans and without partial loads that overhang. *)
Lemma all_placed b s p ls : deck b -> beam_plotter b s = Ok p -> parse_LM (pl_LM p) = Ok ls -> Forall (fits b) ls -> placed b (pl_loads p).
Proof.
  intros K H E F. destruct (plotter_parts _ _ _ H) as (lm & sup & d & E1 & E2 & E3 & ->). cbn [pl_LM pl_loads] in *.
  unfold infer_loads in E3. rewrite E in E3. cbn [rbind] in E3.
  assert (G : forall d0, placed b d0 -> foldM (draw_load (b_terminal b) (b_lengths b)) ls d0 = Ok d -> placed b d).
  { clear E E3. induction F as [|[sp ld] ls (m & M1 & M2 & M3 & M4) F IH]; intros d0 P0 G; [injection G as <-; exact P0|].
    cbn [foldM] in G. apply rbind_ok in G as (d1 & G1 & G). cbn [fst snd] in *. subst sp. apply (IH d1); [|exact G].
    apply (draw_placed b d0 m ld d1 K M1 M3 M4 G1 P0). }
  refine (G _ _ E3). constructor; cbn; intros ? [].
Qed.

(** ** Drawing succeeds *)
Lemma get_in {A} (l : list A) i : (i < List.length l)%nat -> exists v, get l i = Ok v.
Proof. intros H. unfold get. destruct (nth_error l i) eqn:E; [eauto|]. apply nth_error_None in E. lia. Qed.

Lemma draws b s lm ls : deck b -> List.length (b_R b) = (2 * (b_nspans b + 1))%nat -> resolve_lm b s = Ok lm -> parse_LM lm = Ok ls -> on_spans b ls ->
  exists p, beam_plotter b s = Ok p /\ pl_LM p = lm.
Proof.
  intros K LR E P O. assert (LT : List.length (b_terminal b) = (b_nspans b + 1)%nat) by (rewrite (dk_term b K), map_length, seq_length; lia).
  assert (S0 : exists sup, infer_supports (b_terminal b) (b_R b) = Ok sup).
  { unfold infer_supports. rewrite LT.
    assert (AF : forall is, (forall i, In i is -> (i <= b_nspans b)%nat) -> exists q, any_fixed (b_R b) is = Ok q).
    { induction is as [|i t IH]; intros Hi; cbn [any_fixed]; [eauto|]. assert (i <= b_nspans b)%nat by (apply Hi; left; reflexivity).
      destruct (IH ltac:(intros; apply Hi; right; assumption)) as (q & Q).
      destruct (get_in (b_R b) (2 * i) ltac:(lia)) as (v & ->). cbn [rbind]. destruct (Reqb v (-1)); [|eauto].
      destruct (get_in (b_R b) (2 * i + 1) ltac:(lia)) as (r & ->). cbn [rbind]. destruct (Reqb r (-1)); eauto. }
    destruct (AF (seq 0 (b_nspans b + 1))) as (pin & ->); [intros i Hi; apply in_seq in Hi; lia|]. cbn [rbind].
    assert (SF : forall is st, (forall i, In i is -> (i <= b_nspans b)%nat) -> exists q, foldM (support_step (b_terminal b) (b_R b)) is st = Ok q).
    { induction is as [|i t IH]; intros st Hi; cbn [foldM]; [eauto|]. assert (i <= b_nspans b)%nat by (apply Hi; left; reflexivity).
      assert (exists st', support_step (b_terminal b) (b_R b) st i = Ok st') as (st' & ->).
      { unfold support_step. destruct (get_in (b_R b) (2 * i) ltac:(lia)) as (v & ->). destruct (get_in (b_R b) (2 * i + 1) ltac:(lia)) as (r & ->). cbn [rbind].
        destruct (support_kind _ _ _) as [[k|] pin']; [|eauto]. destruct (get_in (b_terminal b) i ltac:(lia)) as (x & ->). cbn [rbind]. eauto. }
      cbn [rbind]. apply IH. intros; apply Hi; right; assumption. }
    destruct (SF (seq 0 (b_nspans b + 1)) ([], pin)) as (q & ->); [intros i Hi; apply in_seq in Hi; lia|]. cbn [rbind]. eauto. }
  assert (L0 : forall d, exists d', foldM (draw_load (b_terminal b) (b_lengths b)) ls d = Ok d').
  { clear P E. induction O as [|[sp ld] ls Hsp O IH]; intros d; cbn [foldM]; [eauto|]. cbn [fst] in Hsp.
    assert (PG : forall l : list R, (b_nspans b <= List.length l)%nat -> exists v, py_get l sp = Ok v).
    { intros l Hl. unfold py_get, py_index. destruct (Z.leb_spec 0 sp); [|lia]. destruct (Z.ltb_spec sp (Z.of_nat (List.length l))); [|lia]. cbn [rbind].
      apply get_in. lia. }
    assert (exists d1, draw_load (b_terminal b) (b_lengths b) d (sp, ld) = Ok d1) as (d1 & ->).
    { unfold draw_load. cbn [fst snd]. destruct (PG (b_terminal b) ltac:(lia)) as (off & ->). cbn [rbind].
      destruct (PG (b_lengths b) ltac:(rewrite <- (dk_n b K); lia)) as (L & ->). cbn [rbind]. eauto. }
    cbn [rbind]. apply IH. }
  destruct S0 as (sup & S0). destruct (L0 {| dr_dist := []; dr_pts := []; dr_moms := []; dr_skip := [] |}) as (d & L1).
  unfold beam_plotter. rewrite E. cbn [rbind]. rewrite S0. cbn [rbind]. unfold infer_loads. rewrite P. cbn [rbind]. rewrite L1. cbn [rbind]. eexists. split; reflexivity.
Qed.

(** ** Reactions by node *)
Definition count (f : R -> bool) (l : list R) : nat := List.length (filter f l).

Lemma spread_spec rs : forall react springs, List.length react = count (fun r => Rltb r 0) rs -> List.length springs = count (Rltb 0) rs ->
  exists full, spread rs react springs = Ok full /\ List.length full = List.length rs /\
    forall i, (i < List.length rs)%nat -> nth i full 0 =
      if Rlt_dec (nth i rs 0) 0 then nth (count (fun r => Rltb r 0) (firstn i rs)) react 0
      else if Rlt_dec 0 (nth i rs 0) then nth (count (Rltb 0) (firstn i rs)) springs 0 else 0.
Proof.
  induction rs as [|r rs IH]; intros react springs H1 H2.
  - exists []. cbn. split; [reflexivity|]. split; [reflexivity|]. intros; lia.
  - cbn [spread]. unfold count in H1, H2. cbn [filter] in H1, H2. destruct (Rltb_spec r 0) as [N|N].
    + destruct (Rltb_spec 0 r) as [Q|_]; [lra|]. destruct react as [|v react]; [discriminate|]. cbn in H1. injection H1 as H1.
      destruct (IH react springs H1 H2) as (full & -> & E2 & E3). cbn [rbind]. exists (v :: full). split; [reflexivity|]. split; [cbn; lia|].
      intros [|i] Hi; cbn [nth firstn].
      * destruct (Rlt_dec r 0); [reflexivity|lra].
      * unfold count. cbn [filter]. destruct (Rltb_spec r 0); [|lra]. destruct (Rltb_spec 0 r); [lra|]. cbn [List.length nth]. apply E3. cbn in Hi. lia.
    + destruct (Rltb_spec 0 r) as [Q|Q].
      * destruct springs as [|v springs]; [discriminate|]. cbn in H2. injection H2 as H2.
        destruct (IH react springs H1 H2) as (full & -> & E2 & E3). cbn [rbind]. exists (v :: full). split; [reflexivity|]. split; [cbn; lia|].
        intros [|i] Hi; cbn [nth firstn].
        -- destruct (Rlt_dec r 0); [lra|]. destruct (Rlt_dec 0 r); [reflexivity|lra].
        -- unfold count. cbn [filter]. destruct (Rltb_spec r 0); [lra|]. destruct (Rltb_spec 0 r); [|lra]. cbn [List.length nth]. apply E3. cbn in Hi. lia.
      * destruct (IH react springs H1 H2) as (full & -> & E2 & E3). cbn [rbind]. exists (0 :: full). split; [reflexivity|]. split; [cbn; lia|].
        intros [|i] Hi; cbn [nth firstn].
        -- destruct (Rlt_dec r 0); [lra|]. destruct (Rlt_dec 0 r); [lra|reflexivity].
        -- unfold count. cbn [filter]. destruct (Rltb_spec r 0); [lra|]. destruct (Rltb_spec 0 r); [lra|]. cbn [List.length nth]. apply E3. cbn in Hi. lia.
Qed.

Lemma map_nth_seq (rs : list R) i : (i <= List.length rs)%nat -> map (fun j => nth j rs 0) (seq 0 i) = firstn i rs.
Proof.
  revert i. induction rs as [|r rs IH]; intros [|i] H; try reflexivity; [cbn in H; lia|]. cbn [seq map firstn nth]. f_equal.
  rewrite <- seq_shift, map_map. cbn in H. apply IH. lia.
Qed.
Lemma filter_map_length {A B} (f : B -> bool) (g : A -> B) l : List.length (filter f (map g l)) = List.length (filter (fun x => f (g x)) l).
Proof. induction l as [|a l IH]; cbn; [reflexivity|]. destruct (f (g a)); cbn; auto. Qed.
Lemma rank_count (f : R -> bool) b i : (i <= List.length (b_R b))%nat -> rank (fun j => f (restraint b j)) i = count f (firstn i (b_R b)).
Proof. intros H. unfold rank, count. rewrite <- map_nth_seq by exact H. rewrite filter_map_length. reflexivity. Qed.

Lemma spread_reported b o : List.length (o_R o) = rank (fun j => Rltb (restraint b j) 0) (List.length (b_R b)) ->
  List.length (o_Rs o) = rank (fun j => Rltb 0 (restraint b j)) (List.length (b_R b)) ->
  exists full, spread (b_R b) (o_R o) (o_Rs o) = Ok full /\ List.length full = List.length (b_R b) /\
    forall i, (i < List.length (b_R b))%nat -> nth i full 0 = reported b o i.
Proof.
  intros H1 H2. rewrite (rank_count (fun r => Rltb r 0)), firstn_all in H1 by lia. rewrite (rank_count (Rltb 0)), firstn_all in H2 by lia.
  destruct (spread_spec _ _ _ H1 H2) as (full & E1 & E2 & E3). exists full. split; [exact E1|]. split; [exact E2|]. intros i Hi. rewrite E3 by exact Hi.
  unfold reported. fold (restraint b i). rewrite (rank_count (fun r => Rltb r 0)), (rank_count (Rltb 0)) by lia. reflexivity.
Qed.

Lemma by_node_spec full q f n : List.length full = (2 * n)%nat -> (q < 2)%nat -> (forall i, (i < 2 * n)%nat -> nth i full 0 = f i) ->
  by_node full q = filter (fun nv => Rltb (/ 10^6) (Rabs (snd nv))) (map (fun m => (m, f (2 * m + q)%nat)) (seq 0 n)).
Proof.
  intros H Hq E. unfold by_node. rewrite H. replace (2 * n / 2)%nat with n by (rewrite Nat.mul_comm, Nat.div_mul; lia). f_equal.
  apply map_ext_in. intros m Hm. apply in_seq in Hm. rewrite E by lia. reflexivity.
Qed.

Lemma by_node_in full q f n : List.length full = (2 * n)%nat -> (q < 2)%nat -> (forall i, (i < 2 * n)%nat -> nth i full 0 = f i) ->
  forall m v, In (m, v) (by_node full q) <-> (m < n)%nat /\ v = f (2 * m + q)%nat /\ / 10^6 < Rabs v.
Proof.
  intros H Hq E m v. rewrite (by_node_spec full q f n H Hq E), filter_In, in_map_iff. cbn [snd]. split.
  - intros [(k & Ek & Hk) T]. apply in_seq in Hk. injection Ek as E1 E2. subst k. subst v. revert T. unfold Rltb. destruct (Rlt_dec _ _) as [G|G]; [intros _|discriminate]. split; [lia|]. split; [reflexivity|exact G].
  - intros (Hm & -> & T). split; [|destruct (Rltb_spec (/ 10^6) (Rabs (f (2 * m + q)%nat))); [reflexivity|contradiction]].
    exists m. split; [reflexivity|]. apply in_seq. lia.
Qed.

Lemma reactions_listed gl ill a npts check a' o : analyze_core gl ill a npts check = (a', Ok o) -> List.length (b_R (an_beam a)) = an_ndof a ->
  exists V M, reactions_by_node (an_beam a) o = Ok (V, M) /\
    (forall n v, In (n, v) V <-> (n <= an_n a)%nat /\ v = reported (an_beam a) o (2 * n) /\ / 10^6 < Rabs v) /\
    (forall n v, In (n, v) M <-> (n <= an_n a)%nat /\ v = reported (an_beam a) o (2 * n + 1) /\ / 10^6 < Rabs v).
Proof.
  intros H LR. destruct (core_inv _ _ _ _ _ _ _ H) as [(kb & rf & S) _]. set (b := an_beam a) in *.
  assert (ND : an_ndof a = (2 * (an_n a + 1))%nat) by reflexivity.
  destruct (spread_reported b o) as (full & E1 & E2 & E3).
  - rewrite (sv_oR _ _ _ _ _ _ S), map_length, LR, ND. reflexivity.
  - rewrite (sv_oRs _ _ _ _ _ _ S), map_length, LR, ND. reflexivity.
  - unfold reactions_by_node. rewrite E1. cbn [rbind]. eexists _, _. split; [reflexivity|]. rewrite LR, ND in E2, E3.
    split; intros m v.
    + rewrite (by_node_in full 0 (reported b o) (an_n a + 1) E2 ltac:(lia) E3). rewrite Nat.add_0_r. split; intros (A & B & C); repeat split; auto; lia.
    + rewrite (by_node_in full 1 (reported b o) (an_n a + 1) E2 ltac:(lia) E3). split; intros (A & B & C); repeat split; auto; lia.
Qed.

(** ** Helpers *)
Lemma parse_snoc lm r ls x : parse_LM lm = Ok ls -> is_list_row r = true -> parse_row r = Ok x -> parse_LM (lm ++ [r]) = Ok (ls ++ x)%list.
Proof.
  unfold parse_LM. rewrite forallb_app. destruct (forallb is_list_row lm); cbn [negb]; [|discriminate]. intros H R1 P. cbn [forallb]. rewrite R1. cbn [andb negb].
  apply rbind_ok in H as (l & E & H). injection H as <-. rewrite mapM_app, E. cbn [rbind mapM]. rewrite P. cbn [rbind]. rewrite concat_app. cbn. rewrite app_nil_r. reflexivity.
Qed.

Lemma helper_spec a h a' ls : add_helper a h = Ok a' -> parsed_loads (an_beam a) = Ok ls ->
  (1 <= helper_span h <= Z.of_nat (List.length (b_EIs (an_beam a))))%Z ->
  (match h with AddTrap _ _ _ None (Some _) => False | _ => True end) ->
  exists ld, parsed_loads (an_beam a') = Ok (ls ++ [((helper_span h - 1)%Z, ld)])%list /\
    (forall L, 0 < L -> exists A, meant L h = Some A /\ forces A = forces (action_of L ld) /\ moments A = moments (action_of L ld) /\
       forall t, intensity A t = intensity (action_of L ld) t) /\
    (forall i k, h = AddIC i k -> exists e, nth_error (b_EIs (an_beam a)) (Z.to_nat (i - 1)) = Some e /\ ld = LIC k (Some e)).
Proof.
  intros H P HS HT. unfold add_helper in H. apply rbind_ok in H as (r & Er & H). injection H as <-. cbn [an_beam with_beam].
  unfold parsed_loads in P. apply rbind_ok in P as (l0 & P0 & P1).
  assert (GO : forall ld0 ld, is_list_row r = true -> parse_row r = Ok [((helper_span h - 1)%Z, ld0)] ->
    attach_EI (an_beam a) ((helper_span h - 1)%Z, ld0) = Ok ((helper_span h - 1)%Z, ld) ->
    parsed_loads (add_load (an_beam a) r) = Ok (ls ++ [((helper_span h - 1)%Z, ld)])%list).
  { intros ld0 ld G1 G2 G3. unfold parsed_loads. cbn [b_LM add_load with_LM]. rewrite (parse_snoc _ _ _ _ P0 G1 G2). cbn [rbind].
    rewrite mapM_app. change (mapM (attach_EI (add_load (an_beam a) r)) l0) with (mapM (attach_EI (an_beam a)) l0). rewrite P1. cbn [rbind mapM].
    change (attach_EI (add_load (an_beam a) r)) with (attach_EI (an_beam a)). rewrite G3. cbn [rbind]. reflexivity. }
  assert (EI : exists e, py_index (List.length (b_EIs (an_beam a))) (helper_span h - 1) = Ok (Z.to_nat (helper_span h - 1)) /\
     nth_error (b_EIs (an_beam a)) (Z.to_nat (helper_span h - 1)) = Some e).
  { unfold py_index. destruct (Z.leb_spec 0 (helper_span h - 1)); [|lia].
    destruct (Z.ltb_spec (helper_span h - 1) (Z.of_nat (List.length (b_EIs (an_beam a))))); [|lia].
    destruct (nth_error (b_EIs (an_beam a)) (Z.to_nat (helper_span h - 1))) eqn:E; [eauto|]. apply nth_error_None in E. lia. }
  destruct h as [i w|i p x|i w x c|i m x|i k|i w1 w2 [x|] [c|]]; cbn [helper_row helper_span meant] in *; try discriminate; try contradiction; injection Er as <-.
  - exists (LUDL w). split; [exact (GO _ _ eq_refl eq_refl eq_refl)|]. split; [|intros; discriminate]. intros L HL. eexists. repeat split; reflexivity.
  - exists (LPL p x). split; [exact (GO _ _ eq_refl eq_refl eq_refl)|]. split; [|intros; discriminate]. intros L HL. eexists. repeat split; reflexivity.
  - exists (LPUDL w x c). split; [exact (GO _ _ eq_refl eq_refl eq_refl)|]. split; [|intros; discriminate]. intros L HL. eexists. repeat split; reflexivity.
  - exists (LML m x). split; [exact (GO _ _ eq_refl eq_refl eq_refl)|]. split; [|intros; discriminate]. intros L HL. eexists. repeat split; reflexivity.
  - destruct EI as (e & E1 & E2). exists (LIC k (Some e)). split; [apply (GO (LIC k None)); try reflexivity|].
    + unfold attach_EI. rewrite E1. cbn [rbind]. unfold get. rewrite E2. reflexivity.
    + split; [|intros i' k' Q; injection Q as <- <-; exists e; auto]. intros L HL. eexists. repeat split; reflexivity.
  - exists (LTrap w1 w2 x (Some c)). split; [exact (GO _ _ eq_refl eq_refl eq_refl)|]. split; [|intros; discriminate]. intros L HL. eexists. repeat split; reflexivity.
  - exists (LTrap w1 w2 0 None). split; [exact (GO _ _ eq_refl eq_refl eq_refl)|]. split; [|intros; discriminate]. intros L HL. eexists. repeat split.
    cbn. intros t. destruct (Rlt_dec t 0); [reflexivity|]. destruct (Rlt_dec (0 + L) t); destruct (Rlt_dec (0 + (L - 0)) t); try lra.
    f_equal. f_equal. f_equal; [lra|]. f_equal. lra.
Qed.
