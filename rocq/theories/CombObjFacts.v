(** Facts about programs with load combinations. *)
From Coq Require Import String Lia Lra.
From Verif Require Import Base BaseFacts Linalg SectionModel FlexModel LoadModel LoadSpec UtilsModel ElementModel BeamModel AnalysisModel AnalysisSpec ResultsModel ResultsSpec ResultsFacts
  LoadCasesModel LoadCasesSpec LoadCasesFacts CaseExample CombCases EnvelopeModel EnvelopeSpec EnvelopeFacts ShapeFacts EnvReadModel EnvReadSpec EnvReadFacts CombObjModel CombObjSpec FoundationModel ElementSpec.
Open Scope R_scope.
Local Notation length := List.length.
Local Open Scope list_scope.

Section G.
Variable gl : nat -> list (R * R).
Variable ill : nat -> mat -> bool.
Local Notation run := (prun gl ill).
Local Notation ex := (pexec gl ill).

Lemma prun_snoc ks k : run (ks ++ [k]) = fst (ex (run ks) k).
Proof. unfold prun. rewrite fold_left_app. reflexivity. Qed.

(** *** What a call leaves alone *)
Lemma put_coll_same st h cs c : coll_is st h c -> coll_is (put_coll st h cs) h {| cl_beam := cl_beam c; cl_cases := cs |}.
Proof.
  clear gl ill. unfold coll_is, put_coll. intros E. rewrite E. cbn [pg_colls]. assert (H : (h < length (pg_colls st))%nat) by (apply nth_error_Some; rewrite E; discriminate).
  rewrite nth_error_app2 by (rewrite firstn_length; lia). rewrite firstn_length. replace (h - _)%nat with 0%nat by lia. reflexivity.
Qed.
Lemma put_coll_other st h cs h' c : h' <> h -> coll_is st h' c -> coll_is (put_coll st h cs) h' c.
Proof.
  clear gl ill. unfold coll_is, put_coll. intros N E. destruct (nth_error (pg_colls st) h) as [c0|] eqn:E0; [|exact E]. cbn [pg_colls].
  assert (H : (h < length (pg_colls st))%nat) by (apply nth_error_Some; rewrite E0; discriminate).
  destruct (Nat.lt_ge_cases h' h).
  - rewrite nth_error_app1 by (rewrite firstn_length; lia). rewrite <- E. rewrite <- (firstn_skipn h (pg_colls st)) at 2. rewrite nth_error_app1 by (rewrite firstn_length; lia). reflexivity.
  - rewrite nth_error_app2 by (rewrite firstn_length; lia). rewrite firstn_length. replace (h' - Nat.min h (length (pg_colls st)))%nat with (S (h' - S h)) by lia. cbn [nth_error].
    rewrite <- E. rewrite <- (firstn_skipn (S h) (pg_colls st)) at 2. rewrite nth_error_app2 by (rewrite firstn_length; lia). rewrite firstn_length. f_equal. lia.
Qed.
Lemma put_coll_combs st h cs : pg_combs (put_coll st h cs) = pg_combs st.
Proof. clear gl ill. unfold put_coll. destruct (nth_error (pg_colls st) h); reflexivity. Qed.

Lemma combs_kept st k j cb : comb_is st j cb -> comb_is (fst (ex st k)) j cb.
Proof.
  unfold comb_is. intros E. assert (A : forall l, nth_error (pg_combs st ++ l) j = Some cb) by (intros l; rewrite nth_error_app1; [exact E|apply nth_error_Some; rewrite E; discriminate]).
  destruct k; cbn [pexec fst].
  - exact E.
  - destruct (nth_error _ h) as [c|]; [|exact E]. destruct (lcs_add _ _); cbn [fst]; [rewrite put_coll_combs|]; exact E.
  - destruct (nth_error _ h) as [c|]; [|exact E]. cbn [fst]. rewrite put_coll_combs. exact E.
  - destruct (nth_error _ h) as [c|]; [|exact E]. cbn [fst]. rewrite put_coll_combs. exact E.
  - destruct (nth_error _ h) as [c|]; [|exact E]. destruct (target_combination _ _ _ _ _ _ _ _ _); cbn [fst put_comb pg_combs]; [apply A|exact E].
  - apply A.
Qed.
Lemma colls_kept st k h c : coll_is st h c -> ~ edits_coll k h -> coll_is (fst (ex st k)) h c.
Proof.
  intros E N. destruct k; cbn [pexec fst edits_coll] in *.
  - unfold coll_is in *. cbn [pg_colls]. rewrite nth_error_app1; [exact E|apply nth_error_Some; rewrite E; discriminate].
  - destruct (nth_error (pg_colls st) h0) as [c0|]; [|exact E]. destruct (lcs_add _ _); cbn [fst]; [apply put_coll_other; [congruence|exact E]|exact E].
  - destruct (nth_error (pg_colls st) h0) as [c0|]; [|exact E]. apply put_coll_other; [congruence|exact E].
  - destruct (nth_error (pg_colls st) h0) as [c0|]; [|exact E]. apply put_coll_other; [congruence|exact E].
  - destruct (nth_error (pg_colls st) h0) as [c0|]; [|exact E]. destruct (target_combination _ _ _ _ _ _ _ _ _); exact E.
  - exact E.
Qed.
(** An edited collection keeps its beam and its cases in order; it only grows. *)
Lemma change_names name f cs : (forall c, lc_name (f c) = lc_name c) -> map lc_name (change_case name f cs) = map lc_name cs.
Proof. clear gl ill. intros H. induction cs as [|c cs IH]; [reflexivity|]. cbn. destruct (String.eqb _ _); cbn; [rewrite H|rewrite IH]; reflexivity. Qed.
Lemma coll_grows st k h c : coll_is st h c -> exists c' more, coll_is (fst (ex st k)) h c' /\ cl_beam c' = cl_beam c /\ map lc_name (cl_cases c') = map lc_name (cl_cases c) ++ more.
Proof.
  intros E. assert (same : exists c' more, coll_is st h c' /\ cl_beam c' = cl_beam c /\ map lc_name (cl_cases c') = map lc_name (cl_cases c) ++ more).
  { exists c, []. rewrite app_nil_r. auto. }
  assert (PUT : forall h0 c0 cs more, coll_is st h0 c0 -> map lc_name cs = map lc_name (cl_cases c0) ++ more ->
    exists c' more, coll_is (put_coll st h0 cs) h c' /\ cl_beam c' = cl_beam c /\ map lc_name (cl_cases c') = map lc_name (cl_cases c) ++ more).
  { intros h0 c0 cs more E0 H. destruct (Nat.eq_dec h0 h) as [->|N].
    - unfold coll_is in *. rewrite E in E0. injection E0 as <-. exists {| cl_beam := cl_beam c; cl_cases := cs |}, more. split; [apply put_coll_same; exact E|]. split; [reflexivity|exact H].
    - exists c, []. split; [apply put_coll_other; [congruence|exact E]|]. rewrite app_nil_r. auto. }
  destruct k; cbn [pexec fst].
  - exists c, []. rewrite app_nil_r. split; [|auto]. unfold coll_is in *. cbn [pg_colls]. rewrite nth_error_app1; [exact E|apply nth_error_Some; rewrite E; discriminate].
  - destruct (nth_error (pg_colls st) h0) as [c0|] eqn:E0; [|exact same]. unfold lcs_add. destruct (has_name _ _); cbn [fst]; [exact same|].
    eapply PUT; [exact E0|]. rewrite map_app. reflexivity.
  - destruct (nth_error (pg_colls st) h0) as [c0|] eqn:E0; [|exact same]. cbn [fst]. unfold lcs_set. destruct (has_name _ _).
    + apply (PUT h0 c0 _ [] E0). rewrite change_names, app_nil_r; [reflexivity|reflexivity].
    + eapply PUT; [exact E0|]. rewrite map_app. reflexivity.
  - destruct (nth_error (pg_colls st) h0) as [c0|] eqn:E0; [|exact same]. cbn [fst]. unfold lcs_load. destruct (has_name _ _).
    + apply (PUT h0 c0 _ [] E0). rewrite change_names, app_nil_r; [reflexivity|reflexivity].
    + eapply PUT; [exact E0|]. rewrite map_app. reflexivity.
  - destruct (nth_error (pg_colls st) h0) as [c0|]; [|exact same]. destruct (target_combination _ _ _ _ _ _ _ _ _); exact same.
  - exact same.
Qed.
Lemma runs_kept ks ks' : (forall j cb, comb_is (run ks) j cb -> comb_is (run (ks ++ ks')) j cb) /\
  (forall h c, coll_is (run ks) h c -> Forall (fun k => ~ edits_coll k h) ks' -> coll_is (run (ks ++ ks')) h c) /\
  (forall h c, coll_is (run ks) h c -> exists c' more, coll_is (run (ks ++ ks')) h c' /\ cl_beam c' = cl_beam c /\ map lc_name (cl_cases c') = map lc_name (cl_cases c) ++ more).
Proof.
  induction ks' as [|k ks' IH] using rev_ind.
  - rewrite app_nil_r. split; [auto|]. split; [auto|]. intros h c H. exists c, []. rewrite app_nil_r. auto.
  - rewrite app_assoc, prun_snoc. destruct IH as (I1 & I2 & I3). split; [|split].
    + intros j cb H. apply combs_kept, I1, H.
    + intros h c H F. apply Forall_app in F. destruct F as [F1 F2]. inversion F2. subst. apply colls_kept; auto.
    + intros h c H. destruct (I3 h c H) as (c1 & m1 & A & B & C). destruct (coll_grows _ k h c1 A) as (c2 & m2 & A2 & B2 & C2). exists c2, (m1 ++ m2).
      split; [exact A2|]. split; [congruence|]. rewrite C2, C, app_assoc. reflexivity.
Qed.

(** *** The combination a target gives *)
Lemma target_made st h name x sense resp sel unsel : snd (ex st (PTarget h name x sense resp sel unsel)) = Ok tt ->
  exists c tc, coll_is st h c /\ target_combination gl ill (cl_beam c) (cl_cases c) x sense resp sel unsel = Ok tc /\
  coll_is (fst (ex st (PTarget h name x sense resp sel unsel))) h c /\
  comb_is (fst (ex st (PTarget h name x sense resp sel unsel))) (length (pg_combs st)) {| cb_name := name; cb_factors := FSeq (tc_factors tc); cb_bound := Some h |}.
Proof.
  cbn [pexec]. unfold coll_is, comb_is. destruct (nth_error (pg_colls st) h) as [c|] eqn:E; [|discriminate]. destruct (target_combination _ _ _ _ _ _ _ _ _) as [tc|e] eqn:T; [|discriminate].
  intros _. exists c, tc. cbn [fst put_comb pg_colls pg_combs]. rewrite nth_error_app2, Nat.sub_diag by lia. auto.
Qed.
Lemma target_kept ks h name x sense resp sel unsel ks' :
  snd (ex (run ks) (PTarget h name x sense resp sel unsel)) = Ok tt ->
  exists c tc cb, coll_is (run ks) h c /\ target_combination gl ill (cl_beam c) (cl_cases c) x sense resp sel unsel = Ok tc /\
  cb_bound cb = Some h /\ cb_factors cb = FSeq (tc_factors tc) /\
  comb_is (run ((ks ++ [PTarget h name x sense resp sel unsel]) ++ ks')) (length (pg_combs (run ks))) cb /\
  coll_is (run (ks ++ [PTarget h name x sense resp sel unsel])) h c.
Proof.
  intros H. destruct (target_made _ _ _ _ _ _ _ _ H) as (c & tc & A & B & C & D).
  rewrite <- prun_snoc in C, D. exists c, tc, {| cb_name := name; cb_factors := FSeq (tc_factors tc); cb_bound := Some h |}.
  split; [exact A|]. split; [exact B|]. split; [reflexivity|]. split; [reflexivity|]. split; [|exact C]. apply (proj1 (runs_kept _ ks')), D.
Qed.

Lemma bound_response st cb h c resp : cb_bound cb = Some h -> coll_is st h c -> cb_response gl ill st cb None resp = lcs_combine gl ill (cl_beam c) (cl_cases c) (cb_factors cb) resp.
Proof. intros B C. unfold cb_response, resolve, get. rewrite B. unfold coll_is in C. rewrite C. reflexivity. Qed.

Lemma target_lengths t cs x sense resp sel unsel tc : target_combination gl ill t cs x sense resp sel unsel = Ok tc -> length (tc_factors tc) = length (tc_values tc).
Proof.
  unfold target_combination. destruct (sense_of sense); [|discriminate]. intros H. apply rbind_ok in H. destruct H as (xB & _ & H). apply rbind_ok in H. destruct H as (vs & _ & H). injection H as <-.
  cbn [tc_factors tc_values]. unfold target_factors. apply map_length.
Qed.
Lemma target_stays_best ks h name x sense resp sel unsel ks' (minimum : bool) :
  snd (ex (run ks) (PTarget h name x sense resp sel unsel)) = Ok tt ->
  In (lower sense) (if minimum then min_words else max_words) ->
  let st := run ((ks ++ [PTarget h name x sense resp sel unsel]) ++ ks') in
  exists cb c, comb_is st (length (pg_combs (run ks))) cb /\ cb_name cb = name /\
    (Forall (fun k => ~ edits_coll k h) ks' -> coll_is st h c /\ best gl ill minimum st cb c x resp sel unsel).
Proof.
  intros H W. cbn zeta. destruct (target_made _ _ _ _ _ _ _ _ H) as (c & tc & A & B & C & D). rewrite <- prun_snoc in C, D.
  eexists. exists c. split; [apply (proj1 (runs_kept _ ks')), D|]. split; [reflexivity|]. intros F.
  assert (C' := proj1 (proj2 (runs_kept _ ks')) h c C F). split; [exact C'|].
  assert (TL := target_lengths _ _ _ _ _ _ _ _ B).
  destruct minimum.
  - destruct (target_minimum gl ill _ _ _ _ _ _ _ _ W B) as (xs & BB & E1 & E2 & E3 & _ & _ & O).
    assert (L : length (tc_factors tc) = length (cl_cases c)) by (rewrite TL, E3, map_length; exact E2).
    exists xs, (matvec (tc_factors tc) BB). split; [rewrite (bound_response _ _ h c resp (eq_refl : cb_bound {| cb_name := name; cb_factors := FSeq (tc_factors tc); cb_bound := Some h |} = Some h) C'); apply combine_1; assumption|].
    intros f Hf. destruct (O f Hf) as (y & z & Y & Z & Le). exists z. split; [exact Z|]. rewrite (combine_1 _ _ _ _ _ _ _ _ E1 L) in Y. injection Y as <-. exact Le.
  - destruct (target_maximum gl ill _ _ _ _ _ _ _ _ W B) as (xs & BB & E1 & E2 & E3 & _ & _ & O).
    assert (L : length (tc_factors tc) = length (cl_cases c)) by (rewrite TL, E3, map_length; exact E2).
    exists xs, (matvec (tc_factors tc) BB). split; [rewrite (bound_response _ _ h c resp (eq_refl : cb_bound {| cb_name := name; cb_factors := FSeq (tc_factors tc); cb_bound := Some h |} = Some h) C'); apply combine_1; assumption|].
    intros f Hf. destruct (O f Hf) as (y & z & Y & Z & Le). exists z. split; [exact Z|]. rewrite (combine_1 _ _ _ _ _ _ _ _ E1 L) in Y. injection Y as <-. exact Le.
Qed.

(** *** A collection that has grown, and no collection *)
Lemma grown_raises st cb h c l : cb_bound cb = Some h -> coll_is st h c -> cb_factors cb = FSeq l -> length l <> length (cl_cases c) -> all_raise gl ill st cb.
Proof.
  intros B C F N. assert (R : resolve st cb None = Ok c) by (unfold resolve, get; rewrite B; unfold coll_is in C; rewrite C; reflexivity).
  assert (V : lcs_factors (cl_cases c) (cb_factors cb) = Err ValueError) by (rewrite F; cbn [lcs_factors]; rewrite (proj2 (Nat.eqb_neq _ _) N); reflexivity).
  assert (L : combined_loads (cl_cases c) (cb_factors cb) = Err ValueError) by (unfold combined_loads; rewrite V; reflexivity).
  assert (A : forall npts, cb_analyze gl ill st cb None npts = Err ValueError) by (intros npts; unfold cb_analyze, analyze_combination; rewrite R; cbn [rbind]; rewrite L; reflexivity).
  repeat apply conj.
  - exists ValueError. unfold cb_vector. rewrite R. exact V.
  - exists ValueError. unfold cb_to_LM. rewrite R. exact L.
  - exists ValueError. unfold cb_to_case, cb_to_LM. rewrite R. cbn [rbind]. rewrite L. reflexivity.
  - intros resp. unfold cb_response. rewrite R. cbn [rbind]. unfold lcs_combine. destruct (collect_responses _ _ _ _ _) as [p|e]; cbn [rbind]; [|exists e; reflexivity]. rewrite V. exists ValueError. reflexivity.
  - intros npts. split; exists ValueError; [apply A|unfold cb_envelope; rewrite A; reflexivity].
Qed.
Lemma unbound_raises st cb : cb_bound cb = None -> all_raise gl ill st cb.
Proof.
  intros B. assert (R : resolve st cb None = Err ValueError) by (unfold resolve; rewrite B; reflexivity).
  assert (A : forall npts, cb_analyze gl ill st cb None npts = Err ValueError) by (intros npts; unfold cb_analyze; rewrite R; reflexivity).
  repeat apply conj; try intros x; try split; try (exists ValueError).
  - unfold cb_vector. rewrite R. reflexivity.
  - unfold cb_to_LM. rewrite R. reflexivity.
  - unfold cb_to_case, cb_to_LM. rewrite R. reflexivity.
  - unfold cb_response. rewrite R. reflexivity.
  - apply A.
  - unfold cb_envelope. rewrite A. reflexivity.
Qed.
Lemma target_grown ks h name x sense resp sel unsel ks' c0 c :
  snd (ex (run ks) (PTarget h name x sense resp sel unsel)) = Ok tt ->
  let st := run ((ks ++ [PTarget h name x sense resp sel unsel]) ++ ks') in
  coll_is (run ks) h c0 -> coll_is st h c -> length (cl_cases c) <> length (cl_cases c0) ->
  exists cb, comb_is st (length (pg_combs (run ks))) cb /\ all_raise gl ill st cb.
Proof.
  intros H. cbn zeta. intros C0 C N. destruct (target_kept ks h name x sense resp sel unsel ks' H) as (c1 & tc & cb & A & T & B & F & D & _).
  unfold coll_is in A, C0. rewrite A in C0. injection C0 as ->. exists cb. split; [exact D|]. apply (grown_raises _ cb h c (tc_factors tc) B C F).
  destruct (target_collect _ _ _ _ _ _ _ _ _ _ T) as (xs & BB & E).
  assert (L : length (tc_factors tc) = length (cl_cases c0)); [|lia]. rewrite (target_lengths _ _ _ _ _ _ _ _ T).
  assert (HS : exists mn, sense_of sense = Some mn) by (revert T; unfold target_combination; destruct (sense_of sense) as [mn|]; [exists mn; reflexivity|discriminate]).
  destruct HS as (mn & HS). destruct (target_parts _ _ _ _ _ _ _ _ _ _ _ _ _ T HS E) as (_ & LB & _ & TV & _). rewrite TV, map_length. exact LB.
Qed.

(** *** As one load case *)
Lemma as_case st cb given c resp rr xs y : resolve st cb given = Ok c -> no_settlement (t_beam (cl_beam c)) -> (forall k, In k (cl_cases c) -> Forall wf_row (lc_loads k)) -> response_of resp = Some rr ->
  (rr = RespM \/ rr = RespV \/ Forall (eq 1%nat) (b_types (t_beam (cl_beam c))) \/ (forall k s ty args, In k (cl_cases c) -> In (Row s ty args) (lc_loads k) -> ty <> 6%Z)) ->
  cb_response gl ill st cb given resp = Ok (xs, F1 y) ->
  exists k, cb_to_case st cb given = Ok k /\ lc_name k = cb_name cb /\ collect_responses gl ill (cl_beam c) [k] resp = Ok (xs, [y]).
Proof.
  intros HR ND W Hr HC H. unfold cb_response in H. rewrite HR in H. cbn [rbind] in H.
  destruct (combine_is_analysis _ _ _ _ _ _ _ _ _ ND W Hr HC H) as (br & A & X & Y). unfold analyze_combination in A. apply rbind_ok in A. destruct A as (lm & Hl & A).
  eexists. split; [unfold cb_to_case, cb_to_LM; rewrite HR; cbn [rbind]; rewrite Hl; reflexivity|]. split; [reflexivity|].
  unfold collect_responses. cbn [foldM lc_loads]. unfold analyse_load_case. rewrite Hr, A. cbn [rbind fst snd app]. rewrite X, Y. reflexivity.
Qed.
End G.

(** ** A program *)
Definition pair_cases (q0 q1 : R) : list lcase :=
  [{| lc_name := "a"; lc_loads := [Row 1 1 [q0]]; lc_pos := None |}; {| lc_name := "b"; lc_loads := [Row 1 1 [q1]]; lc_pos := None |}]%string.
Lemma pair_collect gl ill q0 q1 : gauss_rule gl -> exists xs y0 y1, collect_responses gl ill ff_template (pair_cases q0 q1) "M" = Ok (xs, [y0; y1]) /\
  In 6 xs /\ length y0 = length xs /\ length y1 = length xs /\ read_at 6 xs y0 = - (3 * q0) /\ read_at 6 xs y1 = - (3 * q1).
Proof.
  intros G. destruct (ffq_results gl ill q0 G) as (a0 & b0 & E0 & P0 & I0 & R0). destruct (ffq_results gl ill q1 G) as (a1 & b1 & E1 & P1 & _ & R1).
  assert (S := shared_stations _ _ _ _ _ _ _ _ _ _ _ _ _ _ _ E0 E1 ltac:(congruence) eq_refl eq_refl ltac:(reflexivity)). destruct S as [_ S].
  assert (Len : forall a' b q, analyze gl ill (ffq q) (fun _ => []) None true = (a', Ok b) -> an_npts a' = 100%nat -> length (r_M (br_all b)) = length (r_x (br_all b))).
  { intros a' b q E P. apply (diagram_lengths gl ill _ _ _ _ _ _ E); [lia|]. intros j m Hj Hj'. destruct (ff_member j m Hj') as (_ & _ & _ & K & L6 & _). split; [lra|exact K]. }
  exists (r_x (br_all b0)), (r_M (br_all b0)), (r_M (br_all b1)). split.
  - unfold collect_responses, pair_cases. cbn [foldM lc_loads]. unfold analyse_load_case. change (response_of "M") with (Some RespM). cbv beta iota. unfold analyse_loads. cbn [ff_template t_beam t_npts].
    rewrite (ffq_build q0), (ffq_build q1). cbn [rbind]. rewrite E0, E1. cbn -[allclose]. rewrite <- S, allclose_refl. reflexivity.
  - split; [exact I0|]. split; [exact (Len _ _ _ E0 P0)|]. split; [rewrite S; exact (Len _ _ _ E1 P1)|]. split; [exact R0|]. rewrite S. exact R1.
Qed.
Lemma pair_target gl ill : gauss_rule gl -> exists tc, target_combination gl ill ff_template (pair_cases 2 (-2)) 6 "Hogging" "M" 1 0 = Ok tc /\ tc_factors tc = [1; 0].
Proof.
  intros G. destruct (pair_collect gl ill 2 (-2) G) as (xs & y0 & y1 & E & I6 & L0 & L1 & R0 & R1).
  unfold target_combination. change (sense_of "Hogging") with (Some true). rewrite E. cbn [rbind fst snd].
  unfold response_at. cbn [forallb]. rewrite L0, L1, !Nat.eqb_refl. cbn [andb negb].
  unfold Rltb. destruct (Rlt_dec 6 (lmin xs)) as [C|_]; [pose proof (lmin_le _ _ I6); lra|]. destruct (Rlt_dec (lmax xs) 6) as [C|_]; [pose proof (le_lmax _ _ I6); lra|].
  cbn [orb rbind map]. rewrite R0, R1. eexists. split; [reflexivity|]. cbn. unfold Rltb. destruct (Rlt_dec (- (3 * 2)) 0); [|lra]. destruct (Rlt_dec (- (3 * -2)) 0); [lra|]. reflexivity.
Qed.
(** Two cases, the target combination, and then the first case loaded the other way. *)
Definition pair_calls : list pcall := [PMake ff_template; PAdd 0 "a" [Row 1 1 [2]]; PAdd 0 "b" [Row 1 1 [-2]]]%string.
Definition pair_ask : pcall := PTarget 0 "worst" 6 "Hogging" "M" 1 0.
Lemma pair_state gl ill : prun gl ill pair_calls = {| pg_colls := [{| cl_beam := ff_template; cl_cases := pair_cases 2 (-2) |}]; pg_combs := [] |}.
Proof. reflexivity. Qed.
Lemma pair_asked gl ill : gauss_rule gl -> snd (pexec gl ill (prun gl ill pair_calls) pair_ask) = Ok tt /\
  prun gl ill (pair_calls ++ [pair_ask]) = {| pg_colls := [{| cl_beam := ff_template; cl_cases := pair_cases 2 (-2) |}]; pg_combs := [{| cb_name := "worst"; cb_factors := FSeq [1; 0]; cb_bound := Some 0%nat |}] |}.
Proof.
  intros G. rewrite prun_snoc, pair_state. unfold pair_ask. cbn [pexec pg_colls nth_error cl_beam cl_cases].
  destruct (pair_target gl ill G) as (tc & -> & E). rewrite E. split; reflexivity.
Qed.
Lemma stale gl ill : gauss_rule gl -> exists ks h name x sense resp sel unsel ks' cb c,
  let st := prun gl ill ((ks ++ [PTarget h name x sense resp sel unsel]) ++ ks') in
  snd (pexec gl ill (prun gl ill ks) (PTarget h name x sense resp sel unsel)) = Ok tt /\ In (lower sense) min_words /\
  comb_is st (length (pg_combs (prun gl ill ks))) cb /\ coll_is st h c /\
  (exists f, factors_among unsel sel (length (cl_cases c)) f) /\ (exists xs y, cb_response gl ill st cb None resp = Ok (xs, F1 y)) /\ ~ best gl ill true st cb c x resp sel unsel.
Proof.
  intros G. exists pair_calls, 0%nat, "worst"%string, 6, "Hogging"%string, "M"%string, 1, 0, [PSet 0 "a" [Row 1 1 [-2]]], {| cb_name := "worst"; cb_factors := FSeq [1; 0]; cb_bound := Some 0%nat |}, {| cl_beam := ff_template; cl_cases := pair_cases (-2) (-2) |}.
  cbn zeta. destruct (pair_asked gl ill G) as [A B]. unfold pair_ask in A, B.
  assert (E : prun gl ill ((pair_calls ++ [PTarget 0 "worst" 6 "Hogging" "M" 1 0]) ++ [PSet 0 "a" [Row 1 1 [-2]]])
    = {| pg_colls := [{| cl_beam := ff_template; cl_cases := pair_cases (-2) (-2) |}]; pg_combs := [{| cb_name := "worst"; cb_factors := FSeq [1; 0]; cb_bound := Some 0%nat |}] |}).
  { rewrite prun_snoc, B. reflexivity. }
  rewrite E. split; [exact A|]. split; [cbn; auto 10|]. split; [reflexivity|]. split; [reflexivity|].
  destruct (pair_collect gl ill (-2) (-2) G) as (xs & y0 & y1 & C & I6 & L0 & L1 & R0 & R1).
  assert (Q : cb_response gl ill {| pg_colls := [{| cl_beam := ff_template; cl_cases := pair_cases (-2) (-2) |}]; pg_combs := [{| cb_name := "worst"; cb_factors := FSeq [1; 0]; cb_bound := Some 0%nat |}] |}
      {| cb_name := "worst"; cb_factors := FSeq [1; 0]; cb_bound := Some 0%nat |} None "M" = Ok (xs, F1 (matvec [1; 0] [y0; y1]))).
  { unfold cb_response. cbn [resolve get pg_colls cb_bound nth_error rbind cl_beam cl_cases cb_factors]. apply combine_1; [exact C|reflexivity]. }
  assert (FA : factors_among 0 1 2 [0; 0]).
  { split; [reflexivity|]. intros [|[|j]] Hj; cbn; try lra. exfalso. lia. }
  split; [exists [0; 0]; exact FA|]. split; [eexists; eexists; exact Q|]. intros (xs' & y & Y & H). rewrite Q in Y. injection Y as <- <-.
  destruct (H [0; 0] FA) as (z & Z & Le). cbn [cl_beam cl_cases] in Z. rewrite (combine_1 gl ill _ _ [0; 0] _ _ _ C eq_refl) in Z. injection Z as <-.
  assert (K : forall f, length f = 2%nat -> read_at 6 xs (matvec f [y0; y1]) = nth 0 f 0 * 6 + nth 1 f 0 * 6).
  { intros f Lf. rewrite (read_combines 6 xs f [y0; y1]).
    - cbn [length rsum nth]. rewrite R0, R1. lra.
    - exact Lf.
    - rewrite matvec_len. exact L0.
    - apply matvec_combines; [exact Lf|]. intros r [<-|[<-|[]]]; cbn; lia. }
  rewrite !K in Le by reflexivity. cbn [nth] in Le. lra.
Qed.
