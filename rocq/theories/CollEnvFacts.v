(** Facts about the envelope of a collection of load cases. *)
From Coq Require Import String Lia Lra.
From Verif Require Import Base BaseFacts Linalg SectionModel FlexModel LoadModel LoadSpec UtilsModel ElementModel BeamModel AnalysisModel AnalysisSpec ResultsModel ResultsSpec ResultsFacts
  LoadCasesModel LoadCasesSpec LoadCasesFacts CombCases EnvelopeModel EnvelopeSpec EnvelopeFacts ShapeFacts EnvReadModel EnvReadSpec EnvReadFacts CombObjModel CombObjSpec.
Open Scope R_scope.
Local Notation length := List.length.
Local Open Scope list_scope.

Section G.
Variable gl : nat -> list (R * R).
Variable ill : nat -> mat -> bool.
Local Notation runs t npts lms vr := (Forall2 (fun lm r => analyse_loads gl ill t lm npts = Ok r) lms vr).

(** *** Runs of one beam share their stations *)
Lemma shared_runs t npts lms r0 vr : Forall (Rlt 0) (b_lengths (t_beam t)) -> runs t npts lms (r0 :: vr) -> on_stations (r_x (br_all r0)) (r0 :: vr).
Proof.
  intros HL F. inversion F as [|lm r ls vr' E F' EQ1 [EQ2 EQ3]]. subst. clear F.
  unfold analyse_loads in E. apply rbind_ok in E as (a & Ha & E). destruct (analyze gl ill a (fun _ => []) npts true) as [a' x] eqn:EA. cbn [snd] in E. subst x.
  assert (ST : forall a a' r, analyze gl ill a (fun _ => []) npts true = (a', Ok r) -> an_npts a = 100%nat -> an_npts a' = match npts with Some p => if Nat.ltb 3 p then p else 100%nat | None => 100%nat end).
  { intros a0 a0' r1 E0 E1. destruct (analyze_split _ _ _ _ _ _ _ _ E0) as (o & Ho & _). destruct (analyze_core_state _ _ _ _ _ _ _ Ho) as (_ & _ & _ & ->). rewrite E1. reflexivity. }
  assert (PP : (0 < match npts with Some p => if Nat.ltb 3 p then p else 100%nat | None => 100%nat end)%nat).
  { destruct npts as [p|]; [|lia]. destruct (Nat.ltb_spec 3 p); lia. }
  destruct (build_sound _ _ _ Ha HL) as [SG N0]. assert (Pa := ST _ _ _ EA N0).
  assert (D := diagram_lengths _ _ _ _ _ _ _ _ EA ltac:(lia) SG). constructor; [destruct D; auto|].
  induction F' as [|lm2 r2 ls' vr'' E2 F IH]; constructor; [|exact IH]. clear IH F.
  unfold analyse_loads in E2. rewrite (build_other _ _ _ lm2 Ha) in E2. cbn [rbind] in E2. set (a2 := with_beam a _) in E2.
  destruct (analyze gl ill a2 (fun _ => []) npts true) as [a2' x] eqn:EA2. cbn [snd] in E2. subst x.
  assert (Pa2 := ST _ _ _ EA2 N0). assert (SG2 : sound_grid (an_beam a2)) by exact SG.
  assert (D2 := diagram_lengths _ _ _ _ _ _ _ _ EA2 ltac:(lia) SG2).
  destruct (same_shape _ _ _ _ _ _ _ _ _ lm2 _ _ _ _ EA EA2 eq_refl eq_refl ltac:(congruence)) as [X _]. rewrite X in *. destruct D2; auto.
Qed.

(** *** The envelope of a collection *)
Lemma mapM_forall2 {A B} (f : A -> result B) l rs : mapM f l = Ok rs <-> Forall2 (fun x y => f x = Ok y) l rs.
Proof.
  revert rs. induction l as [|a l IH]; intros rs; cbn [mapM].
  - split; intros H; [injection H as <-; constructor|inversion H; reflexivity].
  - split; intros H.
    + apply rbind_ok in H. destruct H as (y & Hy & H). apply rbind_ok in H. destruct H as (ys & Hys & H). injection H as <-. constructor; [exact Hy|]. apply IH, Hys.
    + inversion H as [|? y ? ys Hy Hys]. subst. rewrite Hy. cbn [rbind]. rewrite (proj2 (IH ys) Hys). reflexivity.
Qed.
Lemma envelope_runs t cs npts vr : Forall (Rlt 0) (b_lengths (t_beam t)) -> cs <> [] -> runs t (used t npts) (map lc_loads cs) vr ->
  exists e, lcs_envelope gl ill t cs npts = Ok e /\ e_nres e = length cs /\ envelope_of vr e /\ coincident vr e /\ on_stations (e_x e) vr.
Proof.
  intros HL Ne F. destruct (runs_compat _ _ _ _ _ _ HL F) as (n & s & C).
  assert (L : length vr = length cs) by (rewrite <- (map_length lc_loads cs); clear -F; induction F; cbn; congruence).
  destruct (c21 n s vr) as (e & E & _ & _ & NR & H); [destruct vr, cs; congruence || discriminate|exact C|]. exists e.
  split; [|split; [rewrite NR; exact L|split; [exact H|split; [exact (c22 vr e E)|]]]].
  - unfold lcs_envelope. rewrite (proj2 (mapM_forall2 _ cs vr)); [exact E|]. clear -F. revert vr F. induction cs as [|c cs IH]; intros vr F; inversion F; subst; constructor; [assumption|apply IH; assumption].
  - destruct (init_parts vr e E) as (r0 & t' & EV & X & _). subst vr. rewrite X. exact (shared_runs _ _ _ _ _ HL F).
Qed.
Lemma envelope_ok t cs npts e : lcs_envelope gl ill t cs npts = Ok e -> cs <> [] /\ exists vr, runs t (used t npts) (map lc_loads cs) vr /\ env_init vr = Ok e.
Proof.
  unfold lcs_envelope. intros H. apply rbind_ok in H. destruct H as (vr & Hv & H). apply mapM_forall2 in Hv. split.
  - intros ->. inversion Hv. subst. discriminate.
  - exists vr. split; [|exact H]. clear H. induction Hv; constructor; assumption.
Qed.
Lemma envelope_empty t npts : lcs_envelope gl ill t [] npts = Err IndexError.
Proof. reflexivity. Qed.
Lemma envelope_fails t cs npts cs1 c cs2 er : cs = cs1 ++ c :: cs2 -> (forall d, In d cs1 -> exists r, analyse_loads gl ill t (lc_loads d) (used t npts) = Ok r) ->
  analyse_loads gl ill t (lc_loads c) (used t npts) = Err er -> lcs_envelope gl ill t cs npts = Err er.
Proof.
  intros -> H E. unfold lcs_envelope. fold (used t npts).
  assert (M : mapM (fun c => analyse_loads gl ill t (lc_loads c) (used t npts)) (cs1 ++ c :: cs2) = Err er); [|rewrite M; reflexivity].
  induction cs1 as [|d cs1 IH]; cbn [mapM app]; [rewrite E; reflexivity|]. destruct (H d (or_introl eq_refl)) as (r & ->). cbn [rbind]. rewrite IH; [reflexivity|]. intros d' Hd. apply H. right. exact Hd.
Qed.

(** *** Combinations it bounds *)
Lemma weighted f vs lo hi : length f = length vs -> Forall (Rle 0) f -> lsum f <= 1 -> lo <= 0 <= hi -> Forall (fun v => lo <= v <= hi) vs -> lo <= dot f vs <= hi.
Proof.
  clear gl ill. intros L F S Z H.
  assert (G : lo * lsum f <= dot f vs <= hi * lsum f).
  { clear S. revert vs L H. induction F as [|w f Hw F IH]; intros vs L H; destruct vs as [|v vs]; cbn in L; try discriminate; [unfold dot; cbn; lra|].
    inversion H as [|? ? Hv Ht]. subst. specialize (IH vs ltac:(lia) Ht). unfold dot in *. cbn [combine map lsum fst snd] in *. rewrite !lsum_cons in * || idtac. cbn [lsum fold_right] in *. nra. }
  assert (0 <= lsum f) by (clear -F; induction F; cbn; [lra|unfold lsum in *; cbn; lra]). nra.
Qed.
Lemma collect_rows t cs resp rr xs B vr : Forall (Rlt 0) (b_lengths (t_beam t)) -> response_of resp = Some rr -> collect_responses gl ill t cs resp = Ok (xs, B) ->
  runs t (t_npts t) (map lc_loads cs) vr -> B = map (fun r => pick rr (br_all r)) vr /\ on_stations xs vr.
Proof.
  intros HL Hr HC F. destruct (collect_spec _ _ _ _ _ _ _ HC) as (NB & Ne & (c0 & y0 & E0 & A0) & HS).
  assert (L : length vr = length cs) by (rewrite <- (map_length lc_loads cs); clear -F; induction F; cbn; congruence).
  assert (AT : forall j c r, nth_error cs j = Some c -> nth_error vr j = Some r -> analyse_loads gl ill t (lc_loads c) (t_npts t) = Ok r).
  { clear -F. intros j. revert cs vr F. induction j as [|j IH]; intros cs vr F c r Hc Hr; destruct cs as [|c' cs]; try discriminate; inversion F; subst; try discriminate; cbn in Hc, Hr.
    - injection Hc as <-. injection Hr as <-. assumption.
    - eapply IH; eassumption. }
  split.
  - apply nth_error_ext || idtac. assert (G : forall j, nth_error B j = nth_error (map (fun r => pick rr (br_all r)) vr) j).
    { intros j. rewrite nth_error_map. destruct (nth_error cs j) as [c|] eqn:Ec.
      - destruct (nth_error vr j) as [r|] eqn:Er; [|apply nth_error_None in Er; assert (j < length cs)%nat by (apply nth_error_Some; rewrite Ec; discriminate); lia].
        destruct (HS j c Ec) as (x & y & A & Bj & _). unfold analyse_load_case in A. rewrite Hr, (AT j c r Ec Er) in A. cbn [rbind] in A. injection A as _ <-. exact Bj.
      - apply nth_error_None in Ec. rewrite (proj2 (nth_error_None B j)) by lia. rewrite (proj2 (nth_error_None vr j)) by lia. reflexivity. }
    clear -G. revert G. generalize (map (fun r => pick rr (br_all r)) vr) as D. induction B as [|b B IH]; intros D G; destruct D as [|d D]; trivial; try (specialize (G 0%nat); discriminate).
    f_equal; [specialize (G 0%nat); cbn in G; congruence|]. apply IH. intros j. exact (G (S j)).
  - destruct vr as [|r0 vr]; [destruct cs; [congruence|discriminate]|].
    assert (X : r_x (br_all r0) = xs); [|rewrite <- X; exact (shared_runs _ _ _ _ _ HL F)].
    assert (Q := AT 0%nat c0 r0 E0 eq_refl). unfold analyse_load_case in A0. rewrite Hr, Q in A0. cbn [rbind] in A0. injection A0 as A0 _. exact A0.
Qed.
Lemma bounds_combination t cs f resp rr xs y e : Forall (Rlt 0) (b_lengths (t_beam t)) -> lcs_envelope gl ill t cs None = Ok e -> response_of resp = Some rr ->
  lcs_combine gl ill t cs (FSeq f) resp = Ok (xs, F1 y) -> Forall (Rle 0) f -> lsum f <= 1 ->
  xs = e_x e /\
  (rr = RespM -> length y = length xs /\ forall k, (k < length xs)%nat -> nth k (e_Mmin e) 0 <= nth k y 0 <= nth k (e_Mmax e) 0) /\
  (rr = RespV -> length y = length xs /\ forall k, (k < length xs)%nat -> nth k (e_Vmin e) 0 <= nth k y 0 <= nth k (e_Vmax e) 0).
Proof.
  intros HL HE Hr HC HF HS. destruct (envelope_ok _ _ _ _ HE) as (Ne & vr & F & I0).
  unfold lcs_combine in HC. apply rbind_ok in HC. destruct HC as ([xs' B] & HC & H). apply rbind_ok in H. destruct H as (v & Hv & H). cbn [fst snd] in H.
  cbn [lcs_factors] in Hv. destruct (Nat.eqb_spec (length f) (length cs)) as [Lf|]; [|discriminate]. cbn [negb] in Hv. injection Hv as <-. injection H as -> <-.
  destruct (collect_rows t cs resp rr xs B vr HL Hr HC F) as [EB O].
  assert (L : length vr = length cs) by (rewrite <- (map_length lc_loads cs); clear -F; induction F; cbn; congruence).
  destruct (init_parts vr e I0) as (r0 & vr' & EV & X & _).
  assert (X0 : r_x (br_all r0) = xs) by (unfold on_stations in O; rewrite EV in O; inversion O as [|? ? Q]; apply Q). rewrite X0 in X.
  split; [symmetry; exact X|]. rewrite <- X in O. destruct (init_envelope vr e I0 O) as [[eM eV _ _] N]. rewrite N, X in eM, eV. rewrite X in O.
  assert (K : forall g : bres -> list R, (forall r, In r vr -> length (g r) = length xs) -> B = map g vr ->
    length (matvec f B) = length xs /\ forall k lo hi, (k < length xs)%nat -> lo <= 0 <= hi -> (forall r, In r vr -> lo <= nth k (g r) 0 <= hi) -> lo <= nth k (matvec f B) 0 <= hi).
  { intros g Hg ->. assert (C0 : cols (map g vr) = length xs) by (unfold cols; rewrite EV; cbn [map hd]; apply Hg; rewrite EV; left; reflexivity).
    split; [unfold matvec; rewrite map_length, seq_length; exact C0|]. intros k lo hi Hk Z H.
    unfold matvec. rewrite C0. rewrite (nth_indep _ 0 (dot f (column (map g vr) 0))) by (rewrite map_length, seq_length; exact Hk).
    rewrite (map_nth (fun k => dot f (column (map g vr) k)) (seq 0 (length xs)) 0%nat k), seq_nth by exact Hk. cbn [Nat.add].
    apply weighted; trivial; [unfold column; rewrite !map_length; lia|]. unfold column. apply Forall_forall. intros v Hv. apply in_map_iff in Hv. destruct Hv as (w & <- & Hw). apply in_map_iff in Hw. destruct Hw as (r & <- & Hw). apply H, Hw. }
  unfold on_stations in O. rewrite Forall_forall in O.
  split; intros ->; cbn [pick] in EB.
  - destruct (K (fun r => r_M (br_all r))) as [K1 K2]; [intros r Hq; apply O, Hq|exact EB|]. split; [exact K1|]. intros k Hk. destruct (eM k Hk) as [(A1 & A2 & _) (B1 & B2 & _)].
    apply K2; [exact Hk|split; assumption|]. intros r Hq. split; [apply B2|apply A2]; exact Hq.
  - destruct (K (fun r => r_V (br_all r))) as [K1 K2]; [intros r Hq; apply O, Hq|exact EB|]. split; [exact K1|]. intros k Hk. destruct (eV k Hk) as [(A1 & A2 & _) (B1 & B2 & _)].
    apply K2; [exact Hk|split; assumption|]. intros r Hq. split; [apply B2|apply A2]; exact Hq.
Qed.

(** *** The envelope of one combination *)
Lemma combination_envelope st cb given npts c br : resolve st cb given = Ok c -> Forall (Rlt 0) (b_lengths (t_beam (cl_beam c))) -> cb_analyze gl ill st cb given npts = Ok br ->
  exists e, cb_envelope gl ill st cb given npts = Ok e /\ e_nres e = 1%nat /\ envelope_of [br] e /\ on_stations (e_x e) [br].
Proof.
  intros Hr HL HA. assert (F : exists lm, analyse_loads gl ill (cl_beam c) lm (used (cl_beam c) npts) = Ok br).
  { unfold cb_analyze in HA. rewrite Hr in HA. cbn [rbind] in HA. unfold analyze_combination in HA. apply rbind_ok in HA. destruct HA as (lm & _ & HA). exists lm. exact HA. }
  destruct F as (lm & F). destruct (envelope_runs (cl_beam c) [{| lc_name := ""; lc_loads := lm; lc_pos := None |}] npts [br] HL ltac:(discriminate) ltac:(repeat constructor; exact F)) as (e & E & N & H & _ & O).
  exists e. split; [|auto]. unfold cb_envelope. rewrite HA. cbn [rbind]. unfold lcs_envelope in E. cbn [mapM lc_loads] in E. fold (used (cl_beam c) npts) in E. rewrite F in E. cbn [rbind] in E. exact E.
Qed.
End G.
