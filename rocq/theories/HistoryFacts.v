(** The stability cache over histories (C14). *)
From Verif Require Import Base BaseFacts Linalg SectionModel LoadModel FoundationModel ElementModel UtilsModel
  UtilsSpec BeamModel BeamSpec CtorFacts AnalysisModel AnalysisSpec AnalysisFacts AnalysisFacts2.
Open Scope R_scope.

Section G.
Variable gl : nat -> list (R * R).
Variable ill : nat -> mat -> bool.

(** The first [n] entries of all member lists are present. *)
Record filled (b : beam) (n : nat) : Prop := {
  fi_L : (n <= length (b_lengths b))%nat; fi_E : (n <= length (b_EIs b))%nat; fi_G : (n <= length (b_GAv b))%nat;
  fi_K : (n <= length (b_kf b))%nat; fi_T : (n <= length (b_types b))%nat }.

Lemma get_app {A} (l m : list A) i : (i < length l)%nat -> get (l ++ m) i = get l i.
Proof. intros H. unfold get. rewrite nth_error_app1 by exact H. reflexivity. Qed.

Lemma member_ext b b' n l e g k t :
  filled b n -> b_lengths b' = (b_lengths b ++ l)%list -> b_EIs b' = (b_EIs b ++ e)%list -> b_GAv b' = (b_GAv b ++ g)%list ->
  b_kf b' = (b_kf b ++ k)%list -> b_types b' = (b_types b ++ t)%list ->
  forall i, (i < n)%nat -> member_at b' i = member_at b i.
Proof.
  intros F E1 E2 E3 E4 E5 i Hi. destruct F. unfold member_at. rewrite E1, E2, E3, E4, E5, !get_app, !nth_error_app1 by lia. reflexivity.
Qed.

Lemma foldM_ext_in {A B} (f g : A -> B -> result A) l a : (forall x y, In y l -> f x y = g x y) -> foldM f l a = foldM g l a.
Proof.
  revert a. induction l as [|y l IH]; intros a H; [reflexivity|]. cbn. rewrite (H a y) by (left; reflexivity).
  destruct (g a y); [|reflexivity]. cbn. apply IH. intros. apply H. right. assumption.
Qed.

Lemma assemble_ext b b' n : (forall i, (i < n)%nat -> member_at b' i = member_at b i) -> b_R b' = b_R b ->
  an_assemble gl b' n = an_assemble gl b n.
Proof.
  intros H E. unfold an_assemble. rewrite E.
  rewrite (foldM_ext_in _ (fun k i => do m <- member_at b i; do kb <- span_k gl m; Ok (add_block k (2 * i) kb))); [reflexivity|].
  intros x i Hi. apply in_seq in Hi. rewrite H by lia. reflexivity.
Qed.

Definition stable (b : beam) (n : nat) : Prop := passes gl ill b n.

Lemma stable_ext b b' n : (forall i, (i < n)%nat -> member_at b' i = member_at b i) -> b_R b' = b_R b -> b_D b' = b_D b ->
  stable b n -> stable b' n.
Proof. intros H E1 E2 (k & A & C). exists k. rewrite (assemble_ext b b' n H E1), E1, E2. auto. Qed.

Record fresh (a : analysis) : Prop := {
  fr_fill : filled (an_beam a) (an_n a);
  fr_le : forall v, an_checked a = Some v -> (v <= b_version (an_beam a))%nat;
  fr_ok : an_checked a = Some (b_version (an_beam a)) -> stable (an_beam a) (an_n a) }.

Lemma fresh_checked a : fresh a -> stable (an_beam a) (an_n a) -> fresh (with_checked a (Some (b_version (an_beam a)))).
Proof.
  intros [F1 F2 F3] S. constructor; cbn; auto. intros v H. injection H as <-. lia.
Qed.

Lemma is_stable_fst a : fst (is_stable gl ill a) = a \/
  fst (is_stable gl ill a) = with_checked a (Some (b_version (an_beam a))) /\ stable (an_beam a) (an_n a).
Proof.
  unfold is_stable. destruct (an_assemble gl (an_beam a) (an_n a)) as [k|e] eqn:E; cbn [rbind].
  - destruct (check_stability _ _ _ _ _) as [[]|e] eqn:EC; [right; split; [reflexivity|]|left; destruct e; reflexivity].
    exists k. auto.
  - left. destruct e; reflexivity.
Qed.

Lemma analyze_fst a npts check : exists p,
  fst (analyze_core gl ill a npts check) = with_npts a p \/
  fst (analyze_core gl ill a npts check) = with_checked (with_npts a p) (Some (b_version (an_beam a))) /\ stable (an_beam a) (an_n a).
Proof.
  unfold analyze_core.
  assert (E : exists p, match npts with Some p => if Nat.ltb 3 p then with_npts a p else a | None => a end = with_npts a p).
  { assert (a = with_npts a (an_npts a)) by (destruct a; reflexivity).
    destruct npts as [p|]; [destruct (Nat.ltb 3 p)|]; eauto. }
  destruct E as (p & ->). exists p. cbn [with_npts an_beam an_n an_checked].
  change (an_ndof (with_npts a p)) with (2 * (an_n a + 1))%nat.
  destruct (an_forces gl (an_beam a) (an_n a)) as [f|]; cbn [rbind]; [|left; reflexivity].
  destruct (an_validate _ _ f _) as [[]|]; cbn [rbind]; [|left; reflexivity].
  destruct (an_assemble gl (an_beam a) (an_n a)) as [k|] eqn:EA; cbn [rbind]; [|left; reflexivity].
  destruct (negb check || _)%bool; [left; reflexivity|].
  destruct (check_stability _ _ _ _ _) as [[]|] eqn:EC; [|left; reflexivity]. right. split; [reflexivity|]. exists k. auto.
Qed.

Lemma filled_app b b' n l e g k t : filled b n -> b_lengths b' = (b_lengths b ++ l)%list -> b_EIs b' = (b_EIs b ++ e)%list -> b_GAv b' = (b_GAv b ++ g)%list ->
  b_kf b' = (b_kf b ++ k)%list -> b_types b' = (b_types b ++ t)%list -> filled b' n.
Proof. intros [] E1 E2 E3 E4 E5. constructor; rewrite ?E1, ?E2, ?E3, ?E4, ?E5, app_length; lia. Qed.

Lemma app_nil {A} (l : list A) : l = (l ++ [])%list.
Proof. symmetry. apply app_nil_r. Qed.

Lemma add_span_cases b L EI et GAv kf : let b' := fst (add_span b L EI et GAv kf) in
  b' = b \/
  (b_lengths b' = (b_lengths b ++ [L])%list /\ b_EIs b' = (b_EIs b ++ [EI])%list /\ b_GAv b' = (b_GAv b ++ [GAv])%list /\
   b_kf b' = (b_kf b ++ [kf])%list /\ (exists t, b_types b' = (b_types b ++ t)%list) /\ b_R b' = b_R b /\ b_D b' = b_D b /\
   (b_version b' = b_version b \/ b_version b' = S (b_version b))).
Proof.
  unfold add_span. destruct (check_rigid EI L); [|left; reflexivity].
  destruct (match GAv with Some g => check_rigid g L | None => Ok tt end); [|left; reflexivity].
  destruct (coerce et) as [t|e]; right; cbn; repeat (split; [reflexivity|]).
  - split; [exists [t]; reflexivity|]. auto.
  - split; [exists []; apply app_nil|]. auto.
Qed.

Lemma fresh_step a o : fresh a -> fresh (step gl ill a o).
Proof.
  intros F. destruct o as [lm|r|L EI et GAv kf|r|d| |npts check]; cbn [step].
  - destruct F as [[] F2 F3]. constructor; cbn; [constructor; assumption|exact F2|exact F3].
  - destruct F as [[] F2 F3]. constructor; cbn; [constructor; assumption|exact F2|exact F3].
  - destruct (add_span_cases (an_beam a) L EI et GAv kf) as [E|(E1 & E2 & E3 & E4 & (t & E5) & E6 & E7 & E8)].
    + rewrite E. destruct a; exact F.
    + set (b' := fst _) in *. destruct F as [F1 F2 F3]. constructor; cbn.
      * exact (filled_app _ _ _ _ _ _ _ _ F1 E1 E2 E3 E4 E5).
      * intros v H. specialize (F2 v H). destruct E8 as [-> | ->]; lia.
      * intros H. destruct E8 as [E8|E8]; rewrite E8 in H.
        -- apply (stable_ext (an_beam a)); auto. exact (member_ext _ _ _ _ _ _ _ _ F1 E1 E2 E3 E4 E5).
        -- specialize (F2 _ H). lia.
  - destruct F as [[] F2 F3]. constructor; cbn; [constructor; assumption| |].
    + intros v H. specialize (F2 v H). lia.
    + intros H. specialize (F2 _ H). lia.
  - unfold set_prescribed. destruct (negb _); cbn [fst]; [destruct a; exact F|].
    destruct F as [[] F2 F3]. constructor; cbn; [constructor; assumption| |].
    + intros v H. specialize (F2 v H). lia.
    + intros H. specialize (F2 _ H). lia.
  - destruct (is_stable_fst a) as [->|[-> S]]; [exact F|]. apply fresh_checked; assumption.
  - destruct (analyze_fst a npts check) as (p & [->|[-> S]]).
    + destruct F. constructor; assumption.
    + assert (F' : fresh (with_npts a p)) by (destruct F; constructor; assumption).
      exact (fresh_checked _ F' S).
Qed.

Lemma fresh_history a ops : fresh a -> fresh (history gl ill a ops).
Proof. revert a. induction ops as [|o ops IH]; intros a F; [exact F|]. cbn. apply IH, fresh_step, F. Qed.

(** All five lists have the length [b_nspans]. *)
Definition aligned (b : beam) : Prop :=
  length (b_lengths b) = b_nspans b /\ length (b_EIs b) = b_nspans b /\ length (b_GAv b) = b_nspans b /\
  length (b_kf b) = b_nspans b /\ length (b_types b) = b_nspans b.

Lemma add_spans_aligned xs b b' : add_spans b xs = Ok b' -> aligned b -> aligned b'.
Proof.
  revert b. induction xs as [|[[[[l e] t] g] k] xs IH]; intros b H HB; [injection H as <-; exact HB|].
  unfold add_spans in H. cbn [foldM] in H. apply rbind_ok in H as (b1 & H1 & H2).
  destruct (add_span b l e t g k) as [b2 [[]|x]] eqn:EA; [|discriminate]. injection H1 as <-.
  apply (IH b2 H2). clear -EA HB.
  unfold add_span in EA. destruct (check_rigid e l); [|discriminate].
  destruct (match g with Some g => check_rigid g l | None => Ok tt end); [|discriminate].
  destruct (coerce t) as [c|]; [|discriminate]. injection EA as <-.
  destruct HB as (A & B & C & D & E). unfold aligned. cbn. rewrite !app_length. cbn [length]. lia.
Qed.

Lemma init_fresh c a : analysis_init c = Ok a -> fresh a.
Proof.
  unfold analysis_init. intros H. apply rbind_ok in H as (b & HB & H). injection H as <-.
  unfold beam_init in HB. apply rbind_ok in HB as (oR & _ & H). apply rbind_ok in H as (gL & _ & H).
  apply rbind_ok in H as (kl & _ & H). apply rbind_ok in H as (b0 & H0 & H). apply rbind_ok in H as (r & _ & H).
  destruct (negb _); [discriminate|]. apply rbind_ok in H as (d & _ & H). injection H as <-.
  assert (aligned b0) as (A & B & C & D & E).
  { assert (aligned beam_empty) by (repeat split; reflexivity). destruct (ct_EI c) as [e|es].
    - exact (add_spans_aligned _ _ _ H0 H).
    - destruct (Nat.eqb _ _); [|discriminate]. exact (add_spans_aligned _ _ _ H0 H). }
  constructor; cbn; [constructor; cbn; lia|discriminate|discriminate].
Qed.

(** Erasing the cache changes nothing. *)
Lemma core_skip a npts check :
  skips a check = true -> snd (analyze_core gl ill a npts check) = snd (analyze_core gl ill a npts false).
Proof.
  intros H. rewrite !(core_npts gl ill a npts). unfold analyze_core. cbn [negb orb].
  change (negb check || opt_eqb (an_checked a) (b_version (an_beam a)))%bool with (skips a check). rewrite H. reflexivity.
Qed.

Lemma core_forget a npts check : snd (analyze_core gl ill (forget a) npts check) =
  if check then snd (analyze_core gl ill (forget a) npts true) else snd (analyze_core gl ill a npts false).
Proof.
  destruct check; [reflexivity|]. rewrite !(core_npts gl ill _ npts). unfold analyze_core, forget. cbn [with_checked an_beam an_n negb orb].
  change (an_ndof (with_checked a None)) with (an_ndof a).
  match goal with |- snd (match ?X with _ => _ end) = _ => destruct X as [[f k]|] end; reflexivity.
Qed.

Lemma core_passes a npts : stable (an_beam a) (an_n a) ->
  snd (analyze_core gl ill (forget a) npts true) = snd (analyze_core gl ill a npts false).
Proof.
  intros (k & EA & EC). rewrite !(core_npts gl ill _ npts). unfold analyze_core, forget. cbn [with_checked an_beam an_n an_checked opt_eqb negb orb].
  change (an_ndof (with_checked a None)) with (2 * (an_n a + 1))%nat. change (an_ndof a) with (2 * (an_n a + 1))%nat.
  destruct (an_forces gl (an_beam a) (an_n a)) as [f|]; cbn [rbind]; [|reflexivity].
  destruct (an_validate _ _ f _) as [[]|]; cbn [rbind]; [|reflexivity].
  rewrite EA. cbn [rbind]. rewrite EC. reflexivity.
Qed.

Lemma core_recheck a npts : skips a true = false ->
  snd (analyze_core gl ill (forget a) npts true) = snd (analyze_core gl ill a npts true).
Proof.
  intros H. rewrite !(core_npts gl ill _ npts). unfold analyze_core, forget. cbn [with_checked an_beam an_n an_checked opt_eqb negb orb].
  change (opt_eqb (an_checked a) (b_version (an_beam a))) with (skips a true). rewrite H.
  change (an_ndof (with_checked a None)) with (an_ndof a).
  match goal with |- snd (match ?X with _ => _ end) = _ => destruct X as [[f k]|] end; [|reflexivity].
  match goal with |- snd (match ?X with _ => _ end) = _ => destruct X as [[]|] end; reflexivity.
Qed.

Lemma skips_cached a : skips a true = true -> an_checked a = Some (b_version (an_beam a)).
Proof.
  unfold skips. cbn. destruct (an_checked a) as [v|]; [|discriminate]. cbn. intros H. apply Nat.eqb_eq in H. congruence.
Qed.

Lemma cache_transparent c a ops npts check : analysis_init c = Ok a ->
  snd (analyze_core gl ill (history gl ill a ops) npts check)
  = snd (analyze_core gl ill (forget (history gl ill a ops)) npts check).
Proof.
  intros HI. set (h := history gl ill a ops). assert (F : fresh h) by (apply fresh_history, (init_fresh c), HI).
  rewrite core_forget. destruct check; [|reflexivity].
  destruct (skips h true) eqn:E.
  - rewrite (core_skip h npts true E). symmetry. apply core_passes. apply (fr_ok _ F). apply skips_cached. exact E.
  - symmetry. apply core_recheck. exact E.
Qed.

Lemma never_stale c a ops npts a' o : analysis_init c = Ok a ->
  analyze_core gl ill (history gl ill a ops) npts true = (a', Ok o) ->
  snd (is_stable gl ill (history gl ill a ops)) = Ok true.
Proof.
  intros HI H. set (h := history gl ill a ops) in *. assert (F : fresh h) by (apply fresh_history, (init_fresh c), HI).
  assert (S : stable (an_beam h) (an_n h)).
  { destruct (proj2 (core_inv gl ill _ _ _ _ _ H)) as [E|E]; [|exact E]. apply (fr_ok _ F), skips_cached, E. }
  destruct S as (k & EA & EC). unfold is_stable. rewrite EA. cbn [rbind]. change (an_ndof h) with (2 * (an_n h + 1))%nat.
  rewrite EC. reflexivity.
Qed.
End G.

(** Load changes never trigger a re-check: the outcome of the test is not consulted again. *)
Section H.
Variable gl : nat -> list (R * R).

Definition cached (a : analysis) : Prop := an_checked a = Some (b_version (an_beam a)).

Lemma cached_step ill a o : load_only o -> cached a -> cached (step gl ill a o).
Proof.
  unfold cached. intros HL H. destruct o; cbn in HL; try contradiction; cbn [step].
  - exact H.
  - exact H.
  - destruct (is_stable_fst gl ill a) as [->|[-> _]]; [exact H|reflexivity].
  - destruct (analyze_fst gl ill a npts check) as (p & [->|[-> _]]); [exact H|reflexivity].
Qed.

Lemma checked_after ill a npts o : snd (analyze_core gl ill a npts true) = Ok o -> cached (fst (analyze_core gl ill a npts true)).
Proof.
  unfold analyze_core, cached.
  assert (E : exists p, match npts with Some p => if Nat.ltb 3 p then with_npts a p else a | None => a end = with_npts a p).
  { assert (a = with_npts a (an_npts a)) by (destruct a; reflexivity).
    destruct npts as [p|]; [destruct (Nat.ltb 3 p)|]; eauto. }
  destruct E as (p & ->). cbn [with_npts an_beam an_n an_checked negb orb].
  match goal with |- snd (match ?X with _ => _ end) = _ -> _ => destruct X as [[f k]|] end; [|discriminate].
  destruct (opt_eqb (an_checked a) (b_version (an_beam a))) eqn:E.
  - intros _. cbn. destruct (an_checked a) as [v|]; [|discriminate]. cbn in E. apply Nat.eqb_eq in E. congruence.
  - destruct (check_stability _ _ _ _ _); [reflexivity|discriminate].
Qed.
Lemma stable_after ill a : snd (is_stable gl ill a) = Ok true -> cached (fst (is_stable gl ill a)).
Proof.
  unfold is_stable, cached. destruct (rbind _ _) as [|e] eqn:E; [reflexivity|]. destruct e; discriminate.
Qed.

Lemma no_recheck ill a ops ill' npts : cached a -> Forall load_only ops ->
  snd (analyze_core gl ill' (history gl ill a ops) npts true) = snd (analyze_core gl ill' (history gl ill a ops) npts false).
Proof.
  intros HC HO. assert (C : cached (history gl ill a ops)).
  { revert a HC. induction HO as [|o ops H _ IH]; intros a HC; [exact HC|]. cbn. apply IH, cached_step; assumption. }
  apply core_skip. unfold skips. cbn. rewrite C. cbn. apply Nat.eqb_refl.
Qed.
End H.
