(** Facts about load patterns. *)
From Coq Require Import Lia Ascii String DecimalString.
From Verif Require Import Base BaseFacts SectionModel LoadModel LoadSpec LMFacts FoundationModel UtilsModel BeamModel AnalysisModel AnalysisSpec
  ResultsModel ResultsSpec ResultsFacts EnvelopeModel EnvelopeSpec EnvelopeFacts LoadCasesModel LoadCasesSpec LoadCasesFacts SegmentFacts ShapeFacts PatternModel PatternSpec.
Open Scope R_scope.
Local Notation length := List.length.
Local Open Scope list_scope.

Lemma digits_no_dash d : forall r t e, (NilEmpty.string_of_uint d ++ String "-" r = NilEmpty.string_of_uint e ++ String "-" t)%string ->
  NilEmpty.string_of_uint d = NilEmpty.string_of_uint e /\ r = t.
Proof.
  induction d; intros r t e E; destruct e; cbn in E; try discriminate E; injection E as E; try (cbn; auto; fail);
    match goal with IH : forall r t e, _ -> _ |- _ => destruct (IH _ _ _ E) as [H1 H2]; cbn; rewrite H1; auto end.
Qed.
Lemma hog_name_inj i j : hog_name i = hog_name j -> i = j.
Proof.
  unfold hog_name. intros H. apply prefix_inj in H. change ("-" ++ dec (i + 1))%string with (String "-" (dec (i + 1))) in H.
  change ("-" ++ dec (j + 1))%string with (String "-" (dec (j + 1))) in H. apply digits_no_dash in H as [H _]. apply dec_inj, H.
Qed.

(** * Rows *)
Lemma factor_row_both r g1 g2 : wf_row r -> exists p r1 r2, parse_row r = Ok [p] /\ factor_row g1 r = Ok r1 /\ factor_row g2 r = Ok r2 /\
  row_span r2 = Some (fst p + 1)%Z /\ parse_row r1 = Ok [scale_pl g1 p] /\ parse_row r2 = Ok [scale_pl g2 p].
Proof.
  intros Hw. destruct (row_parse_factor g1 r Hw) as (p & r1 & P & F1 & _ & P1). destruct (row_parse_factor g2 r Hw) as (p' & r2 & P' & F2 & _ & P2).
  rewrite P in P'. injection P' as <-. exists p, r1, r2. repeat apply conj; try assumption.
  apply wf_cases in Hw.
  destruct Hw as (s & t & args & -> & [[-> (w & tl & ->)]|[[-> (Q & a & tl & ->)]|[[-> (w & a & c & tl & ->)]|[[-> (m & a & tl & ->)]|[[-> (w1 & w2 & tl & ->)]|[-> (k & tl & ->)]]]]]]);
    cbn in P, F2; injection P as <-; injection F2 as <-; cbn; f_equal; lia.
Qed.
Definition named (spans : list nat) (z : Z) : bool := existsb (fun k => Z.eqb (z + 1) (Z.of_nat k)) spans.
Definition pick_scale (spans : list nat) (gmin gmax : R) (p : Z * load) : Z * load := if named spans (fst p) then scale_pl gmax p else scale_pl gmin p.
Lemma choose_rows spans gmin gmax LM : Forall wf_row LM -> exists w1 w2 ps, factor_LM LM gmin = Ok w1 /\ factor_LM LM gmax = Ok w2 /\ parse_LM LM = Ok ps /\
  length w1 = length w2 /\
  Forall2 (fun r p => parse_row r = Ok [p]) (choose_max w1 w2 spans) (map (pick_scale spans gmin gmax) ps) /\
  Forall2 (fun r p => parse_row r = Ok [p]) w2 (map (scale_pl gmax) ps).
Proof.
  intros W. assert (G : exists w1 w2 ps, factor_LM LM gmin = Ok w1 /\ factor_LM LM gmax = Ok w2 /\ Forall2 (fun r p => parse_row r = Ok [p]) LM ps /\
    length w1 = length w2 /\
    Forall2 (fun r p => parse_row r = Ok [p]) (choose_max w1 w2 spans) (map (pick_scale spans gmin gmax) ps) /\
    Forall2 (fun r p => parse_row r = Ok [p]) w2 (map (scale_pl gmax) ps)).
  { induction W as [|r LM Hr W IH]; [exists [], [], []; repeat apply conj; constructor|].
    destruct IH as (w1 & w2 & ps & E1 & E2 & F & L & C & M). destruct (factor_row_both r gmin gmax Hr) as (p & r1 & r2 & P & F1 & F2 & Sp & P1 & P2).
    exists (r1 :: w1), (r2 :: w2), (p :: ps). unfold factor_LM in *. cbn [mapM]. rewrite F1, F2, E1, E2. cbn [rbind].
    repeat apply conj; try reflexivity; try (constructor; assumption); [cbn; lia|].
    cbn [map choose_max combine]. constructor; [|exact C]. cbn [fst snd]. rewrite Sp. unfold pick_scale, named.
    destruct (existsb _ spans); [exact P2|exact P1]. }
  destruct G as (w1 & w2 & ps & E1 & E2 & F & R). exists w1, w2, ps. split; [exact E1|]. split; [exact E2|]. split; [apply parse_singles, F|exact R].
Qed.
Lemma choose_app a b c d spans : length a = length c -> choose_max (a ++ b) (c ++ d) spans = choose_max a c spans ++ choose_max b d spans.
Proof.
  intros H. unfold choose_max. rewrite <- map_app. f_equal. revert c H. induction a as [|x a IH]; intros [|y c] H; cbn in *; try discriminate; [reflexivity|].
  f_equal. apply IH. lia.
Qed.
Lemma loads_of_app l k i : loads_of (l ++ k) i = loads_of l i ++ loads_of k i.
Proof. unfold loads_of. rewrite filter_app, map_app. reflexivity. Qed.
Lemma loads_of_pick spans gmin gmax ps i :
  loads_of (map (pick_scale spans gmin gmax) ps) i = map (scale_load (if named spans (Z.of_nat i) then gmax else gmin)) (loads_of ps i).
Proof.
  unfold loads_of. induction ps as [|p ps IH]; [reflexivity|]. cbn [map filter].
  assert (Ef : fst (pick_scale spans gmin gmax p) = fst p) by (unfold pick_scale; destruct (named spans (fst p)); reflexivity). rewrite Ef.
  destruct (Z.eqb_spec (fst p) (Z.of_nat i)) as [E|N]; [|exact IH]. cbn [map]. rewrite IH.
  unfold pick_scale. rewrite E. destruct (named spans (Z.of_nat i)); reflexivity.
Qed.
Lemma loads_of_scale g ps i : loads_of (map (scale_pl g) ps) i = map (scale_load g) (loads_of ps i).
Proof.
  unfold loads_of. induction ps as [|p ps IH]; [reflexivity|]. cbn [map filter]. change (fst (scale_pl g p)) with (fst p).
  destruct (Z.eqb (fst p) (Z.of_nat i)); [|exact IH]. cbn [map]. f_equal. exact IH.
Qed.
Lemma named_iff spans i : named spans (Z.of_nat i) = true <-> In (S i) spans.
Proof.
  unfold named. rewrite existsb_exists. split.
  - intros (k & Hk & E). apply Z.eqb_eq in E. replace (S i) with k by lia. exact Hk.
  - intros H. exists (S i). split; [exact H|]. apply Z.eqb_eq. lia.
Qed.

(** * Cases *)
Section Cases.
Variable p : lpattern.
Variable N : nat.
Variables g q : list row.
Hypothesis Hg : Forall wf_row g.
Hypothesis Hq : Forall wf_row q.

Lemma case_loads spans : exists g1 g2 q1 q2 pg pq ps, factor_LM g (lp_gmin p) = Ok g1 /\ factor_LM g (lp_gmax p) = Ok g2 /\
  factor_LM q (lp_qmin p) = Ok q1 /\ factor_LM q (lp_qmax p) = Ok q2 /\ parse_LM g = Ok pg /\ parse_LM q = Ok pq /\
  parse_LM (choose_max (g1 ++ q1) (g2 ++ q2) spans) = Ok ps /\ 
  (forall i, loads_of ps i = map (scale_load (if named spans (Z.of_nat i) then lp_gmax p else lp_gmin p)) (loads_of pg i) ++
                             map (scale_load (if named spans (Z.of_nat i) then lp_qmax p else lp_qmin p)) (loads_of pq i)) /\
  exists pm, parse_LM (g2 ++ q2) = Ok pm /\
  forall i, loads_of pm i = map (scale_load (lp_gmax p)) (loads_of pg i) ++ map (scale_load (lp_qmax p)) (loads_of pq i).
Proof.
  destruct (choose_rows spans (lp_gmin p) (lp_gmax p) g Hg) as (g1 & g2 & pg & E1 & E2 & P1 & L1 & C1 & M1).
  destruct (choose_rows spans (lp_qmin p) (lp_qmax p) q Hq) as (q1 & q2 & pq & E3 & E4 & P2 & L2 & C2 & M2).
  exists g1, g2, q1, q2, pg, pq, (map (pick_scale spans (lp_gmin p) (lp_gmax p)) pg ++ map (pick_scale spans (lp_qmin p) (lp_qmax p)) pq).
  repeat (split; [assumption|]). split; [rewrite choose_app by exact L1; apply parse_singles, Forall2_app; assumption|]. split.
  - intros i. rewrite loads_of_app, !loads_of_pick. reflexivity.
  - exists (map (scale_pl (lp_gmax p)) pg ++ map (scale_pl (lp_qmax p)) pq). split; [apply parse_singles, Forall2_app; assumption|].
    intros i. rewrite loads_of_app, !loads_of_scale. reflexivity.
Qed.

Lemma hog_cases (f : nat -> list row) (sp : nat -> list nat) n : foldM (fun cs i => pat_add cs (hog_name i) (f i) (sp i)) (seq 1 n) [] =
  Ok (map (fun i => ({| lc_name := hog_name i; lc_loads := f i; lc_pos := None |}, sp i)) (seq 1 n)).
Proof.
  induction n as [|n IH]; [reflexivity|]. rewrite seq_S, foldM_app, IH. cbn [rbind foldM]. unfold pat_add. rewrite has_name_false.
  - cbn [rbind]. rewrite map_app. reflexivity.
  - intros c Hc. rewrite map_map in Hc. cbn [fst] in Hc. apply in_map_iff in Hc as (i & <- & Hi). apply in_seq in Hi. cbn [lc_name].
    intros E. apply hog_name_inj in E. lia.
Qed.
Lemma hog_other i s : match s with String "M" (String "a" (String "x" (String " " (String "h" _)))) => False | _ => True end -> hog_name i <> s.
Proof. intros H E. subst s. exact H. Qed.
Lemma pat_fresh cs name lm sp : ~ In name (map (fun c => lc_name (fst c)) cs) ->
  pat_add cs name lm sp = Ok (cs ++ [({| lc_name := name; lc_loads := lm; lc_pos := None |}, sp)]).
Proof.
  intros H. unfold pat_add. rewrite has_name_false; [reflexivity|]. intros c Hc E. apply H. apply in_map_iff in Hc as (d & <- & Hd).
  apply in_map_iff. exists d. auto.
Qed.

(** The cases as a list. *)
Lemma cases_list g1 g2 q1 q2 : lp_dead p = Some g -> lp_live p = Some q ->
  factor_LM g (lp_gmin p) = Ok g1 -> factor_LM g (lp_gmax p) = Ok g2 -> factor_LM q (lp_qmin p) = Ok q1 -> factor_LM q (lp_qmax p) = Ok q2 ->
  let mk := fun name lm (sp : list nat) => ({| lc_name := name; lc_loads := lm; lc_pos := None |}, sp) in
  let ch := choose_max (g1 ++ q1) (g2 ++ q2) in
  to_load_cases p N = Ok (map (fun i => mk (hog_name i) (ch [i; (i + 1)%nat]) [i; (i + 1)%nat]) (seq 1 (N - 1)) ++
    [mk "Max odd spans"%string (ch (odd_spans N)) (odd_spans N); mk "Max even spans"%string (ch (even_spans N)) (even_spans N);
     mk "All spans max"%string (g2 ++ q2) (seq 1 N)]).
Proof.
  intros Dg Dq E1 E2 E3 E4 mk ch. unfold to_load_cases. rewrite Dg, Dq, E2, E4. cbn [rbind]. rewrite E1, E3. cbn [rbind]. rewrite hog_cases. cbn [rbind].
  set (H := map _ (seq 1 (N - 1))). assert (HH : forall s, (forall i, hog_name i <> s) -> ~ In s (map (fun c => lc_name (fst c)) H)).
  { intros s Hs Hi. unfold H in Hi. rewrite map_map in Hi. apply in_map_iff in Hi as (i & Ei & _). exact (Hs i Ei). }
  rewrite pat_fresh by (apply HH; intros i; apply hog_other; exact I). cbn [rbind].
  rewrite pat_fresh. 2: { rewrite map_app, in_app_iff. intros [Hi|[Hi|[]]]; [|discriminate Hi]. revert Hi. apply HH. intros i. apply hog_other. exact I. }
  cbn [rbind].
  rewrite pat_fresh. 2: { rewrite !map_app, !in_app_iff. intros [[Hi|[Hi|[]]]|[Hi|[]]]; [|discriminate Hi|discriminate Hi]. revert Hi. apply HH. intros i. apply hog_other. exact I. }
  rewrite <- !app_assoc. reflexivity.
Qed.
End Cases.

Lemma odd_spans_in N k : In k (odd_spans N) <-> (1 <= k <= N)%nat /\ Nat.Odd k.
Proof. unfold odd_spans. rewrite filter_In, in_seq, Nat.odd_spec. intuition lia. Qed.
Lemma even_spans_in N k : In k (even_spans N) <-> (1 <= k <= N)%nat /\ Nat.Even k.
Proof. unfold even_spans. rewrite filter_In, in_seq, Nat.even_spec. intuition lia. Qed.

Lemma patterns_spec p N g q : lp_dead p = Some g -> lp_live p = Some q -> Forall wf_row g -> Forall wf_row q ->
  exists cs pg pq, to_load_cases p N = Ok cs /\ unique_names (map fst cs) /\ parse_LM g = Ok pg /\ parse_LM q = Ok pq /\
  Forall2 (fun c a => lc_name (fst c) = fst a /\ (forall k, In k (snd c) <-> (1 <= k <= N)%nat /\ snd a k) /\
    exists ps, parse_LM (lc_loads (fst c)) = Ok ps /\
    forall i, (i < N)%nat -> carries (lp_gmax p) (lp_gmin p) (lp_qmax p) (lp_qmin p) (snd a) (S i) (loads_of pg i) (loads_of pq i) (loads_of ps i))
    cs (arrangements N).
Proof.
  intros Dg Dq Hg Hq.
  destruct (case_loads p g q Hg Hq []) as (g1 & g2 & q1 & q2 & pg & pq & _ & E1 & E2 & E3 & E4 & P1 & P2 & _ & _ & pm & Pm & Lm).
  assert (CL : forall spans, exists ps, parse_LM (choose_max (g1 ++ q1) (g2 ++ q2) spans) = Ok ps /\
    forall i, loads_of ps i = map (scale_load (if named spans (Z.of_nat i) then lp_gmax p else lp_gmin p)) (loads_of pg i) ++
                              map (scale_load (if named spans (Z.of_nat i) then lp_qmax p else lp_qmin p)) (loads_of pq i)).
  { intros spans. destruct (case_loads p g q Hg Hq spans) as (h1 & h2 & k1 & k2 & rg & rq & ps & F1 & F2 & F3 & F4 & Q1 & Q2 & Ps & Ls & _).
    assert (h1 = g1) by congruence. assert (h2 = g2) by congruence. assert (k1 = q1) by congruence. assert (k2 = q2) by congruence.
    assert (rg = pg) by congruence. assert (rq = pq) by congruence. subst. exists ps. auto. }
  eexists. exists pg, pq. split; [exact (cases_list p N g q g1 g2 q1 q2 Dg Dq E1 E2 E3 E4)|]. cbv zeta.
  assert (One : forall spans (A : nat -> Prop), (forall k, In k spans <-> (1 <= k <= N)%nat /\ A k) ->
    exists ps, parse_LM (choose_max (g1 ++ q1) (g2 ++ q2) spans) = Ok ps /\
    forall i, (i < N)%nat -> carries (lp_gmax p) (lp_gmin p) (lp_qmax p) (lp_qmin p) A (S i) (loads_of pg i) (loads_of pq i) (loads_of ps i)).
  { intros spans A HA. destruct (CL spans) as (ps & Ps & Ls). exists ps. split; [exact Ps|]. intros i Hi. rewrite Ls.
    destruct (named spans (Z.of_nat i)) eqn:Nm.
    - apply named_iff, HA in Nm as [_ Nm]. split; [reflexivity|tauto].
    - split; [|reflexivity]. intros HS. exfalso. assert (T : named spans (Z.of_nat i) = true) by (apply named_iff, HA; split; [lia|exact HS]). congruence. }
  split; [|split; [exact P1|split; [exact P2|]]].
  - unfold unique_names. rewrite map_map, map_app, map_map. cbn [fst lc_name map]. apply NoDup_app'.
    + assert (Inj : forall l, NoDup l -> NoDup (map hog_name l)).
      { intros l Hl. induction Hl as [|x l Hx Hl IH]; cbn; constructor; auto. intros Hi. apply in_map_iff in Hi as (y & Ey & Hy). apply hog_name_inj in Ey as ->. tauto. }
      apply Inj, seq_NoDup.
    + repeat constructor; cbn; intuition discriminate.
    + intros x Hx Hi. apply in_map_iff in Hx as (i & <- & _). cbn in Hi. destruct Hi as [Hi|[Hi|[Hi|[]]]]; symmetry in Hi; revert Hi; apply hog_other; exact I.
  - unfold arrangements. apply Forall2_app.
    + assert (G : forall l, (forall i, In i l -> (1 <= i < N)%nat) -> Forall2 (fun c a => lc_name (fst c) = fst a /\ (forall k, In k (snd c) <-> (1 <= k <= N)%nat /\ snd a k) /\
        exists ps, parse_LM (lc_loads (fst c)) = Ok ps /\
        forall i, (i < N)%nat -> carries (lp_gmax p) (lp_gmin p) (lp_qmax p) (lp_qmin p) (snd a) (S i) (loads_of pg i) (loads_of pq i) (loads_of ps i))
        (map (fun i => ({| lc_name := hog_name i; lc_loads := choose_max (g1 ++ q1) (g2 ++ q2) [i; (i + 1)%nat]; lc_pos := None |}, [i; (i + 1)%nat])) l)
        (map (fun i => ("Max hogging spans " ++ dec i ++ "-" ++ dec (i + 1), fun k => k = i \/ k = S i)%string) l)).
      { induction l as [|i l IH]; intros Hl; cbn [map]; constructor; [|apply IH; intros; apply Hl; right; assumption].
        specialize (Hl i (or_introl eq_refl)). cbn [fst snd lc_name lc_loads].
        assert (HA : forall k, In k [i; (i + 1)%nat] <-> (1 <= k <= N)%nat /\ (k = i \/ k = S i)) by (intros k; cbn; intuition lia).
        split; [reflexivity|]. split; [exact HA|]. apply One, HA. }
      apply G. intros i Hi. apply in_seq in Hi. lia.
    + apply Forall2_cons; [|apply Forall2_cons; [|apply Forall2_cons; [|constructor]]]; cbn [fst snd lc_name lc_loads]; (split; [reflexivity|]).
      * split; [apply odd_spans_in|]. apply One, odd_spans_in.
      * split; [apply even_spans_in|]. apply One, even_spans_in.
      * split; [intros k; rewrite in_seq; intuition lia|]. exists pm. split; [exact Pm|]. intros i _. rewrite Lm. split; [reflexivity|tauto].
Qed.
Lemma pattern_unset p N : lp_dead p = None \/ lp_live p = None -> to_load_cases p N = Err ValueError.
Proof. unfold to_load_cases. intros [E|E]; rewrite E; [reflexivity|]. destruct (lp_dead p); reflexivity. Qed.

Section Analysis.
Variable gl : nat -> list (R * R).
Variable ill : nat -> mat -> bool.
Lemma pattern_envelope p t npts g q vr : lp_dead p = Some g -> lp_live p = Some q -> Forall wf_row g -> Forall wf_row q -> Forall (Rlt 0) (b_lengths (t_beam t)) ->
  forall cs, to_load_cases p (b_nspans (t_beam t)) = Ok cs ->
  Forall2 (fun c r => analyse_loads gl ill t (lc_loads (fst c)) (match npts with Some n => Some n | None => t_npts t end) = Ok r) cs vr ->
  exists e, pattern_analyze gl ill p t npts = Ok e /\ e_nres e = length vr /\ envelope_of vr e.
Proof.
  intros Dg Dq Hg Hq HL cs Hc F. set (np := match npts with Some n => Some n | None => t_npts t end) in *.
  assert (F' : Forall2 (fun lm r => analyse_loads gl ill t lm np = Ok r) (map (fun c => lc_loads (fst c)) cs) vr) by (clear -F; induction F; cbn; constructor; auto).
  destruct (runs_compat gl ill t np _ vr HL F') as (n & s & C).
  assert (NE : vr <> []).
  { intros ->. inversion F as [Z|]. subst cs. destruct (patterns_spec p (b_nspans (t_beam t)) g q Dg Dq Hg Hq) as (cs' & pg & pq & Hc' & _ & _ & _ & F2). rewrite Hc in Hc'. injection Hc' as <-.
    unfold arrangements in F2. destruct (map _ (seq 1 _)); inversion F2. }
  destruct (c21 n s vr NE C) as (e & E & _ & _ & Hr & Ho). exists e. split; [|auto]. unfold pattern_analyze. rewrite Hc. cbn [rbind]. fold np.
  replace (mapM _ cs) with (Ok vr); [exact E|]. symmetry. clear -F. induction F as [|c r cs vr H F IH]; [reflexivity|]. cbn [mapM]. rewrite H, IH. reflexivity.
Qed.
Lemma pattern_converse p t npts e : pattern_analyze gl ill p t npts = Ok e ->
  exists cs vr, to_load_cases p (b_nspans (t_beam t)) = Ok cs /\
    Forall2 (fun c r => analyse_loads gl ill t (lc_loads (fst c)) (match npts with Some n => Some n | None => t_npts t end) = Ok r) cs vr /\ envelope_of vr e.
Proof.
  unfold pattern_analyze. intros H. apply rbind_ok in H as (cs & Hc & H). apply rbind_ok in H as (vr & Hv & H).
  exists cs, vr. split; [exact Hc|]. split; [apply mapM_ok, Hv|]. exact (built_envelope _ _ (env_built _ _ H)).
Qed.
End Analysis.

Lemma set_loads_spec : forall p0 p N g q gmax gmin qmax qmin, Forall wf_row g -> Forall wf_row q ->
  p = set_live (set_dead p0 g gmax gmin) q qmax qmin \/ p = set_dead (set_live p0 q qmax qmin) g gmax gmin ->
  exists cs pg pq, to_load_cases p N = Ok cs /\ unique_names (map fst cs) /\ parse_LM g = Ok pg /\ parse_LM q = Ok pq /\
  Forall2 (fun c a => lc_name (fst c) = fst a /\ (forall k, In k (snd c) <-> (1 <= k <= N)%nat /\ snd a k) /\
    exists ps, parse_LM (lc_loads (fst c)) = Ok ps /\
    forall i, (i < N)%nat -> carries gmax gmin qmax qmin (snd a) (S i) (loads_of pg i) (loads_of pq i) (loads_of ps i))
    cs (arrangements N).
Proof. intros p0 p N g q gmax gmin qmax qmin Hg Hq [->| ->]; [exact (patterns_spec (set_live (set_dead p0 g gmax gmin) q qmax qmin) N g q eq_refl eq_refl Hg Hq)|exact (patterns_spec (set_dead (set_live p0 q qmax qmin) g gmax gmin) N g q eq_refl eq_refl Hg Hq)]. Qed.
