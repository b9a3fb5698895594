(** Facts about programs with several analysis objects. *)
From Verif Require Import RenderModel.
From Verif Require Import Base BaseFacts Linalg SectionModel LoadModel FoundationModel ElementModel UtilsModel UtilsSpec
  BeamModel BeamSpec CtorFacts AnalysisModel AnalysisSpec AnalysisFacts AnalysisFacts2 HistoryFacts ResultsModel ResultsSpec ResultsFacts
  SessionModel SessionSpec.
Open Scope R_scope.
Local Notation length := List.length.
Local Open Scope list_scope.

(** ** Lists *)
Lemma put_length {A} (l : list A) i a : (i < length l)%nat -> length (put l i a) = length l.
Proof. intros H. unfold put. rewrite app_length, firstn_length. cbn [length]. rewrite skipn_length. lia. Qed.
Lemma put_same {A} (l : list A) i a : (i < length l)%nat -> nth_error (put l i a) i = Some a.
Proof.
  intros H. unfold put. rewrite nth_error_app2; rewrite firstn_length, Nat.min_l by lia; [|lia]. rewrite Nat.sub_diag. reflexivity.
Qed.
Lemma put_other {A} (l : list A) i j a : (i < length l)%nat -> j <> i -> nth_error (put l i a) j = nth_error l j.
Proof.
  revert i j. induction l as [|x l IH]; intros i j Hi Hj; [cbn in Hi; lia|].
  destruct i as [|i], j as [|j]; unfold put; cbn [firstn skipn app nth_error]; try lia; try reflexivity.
  apply (IH i j); [cbn in Hi; lia|lia].
Qed.
Lemma nth_of_error {A} (l : list A) i d : nth i l d = match nth_error l i with Some x => x | None => d end.
Proof. revert i. induction l as [|x l IH]; intros [|i]; cbn; auto. Qed.
Lemma some_lt {A} (l : list A) i x : nth_error l i = Some x -> (i < length l)%nat.
Proof. intros H. apply nth_error_Some. congruence. Qed.

Lemma rows_write st r lm s : (r < length (st_lists st))%nat -> rows_of (write_list st r lm) s = if Nat.eqb s r then lm else rows_of st s.
Proof.
  intros H. unfold rows_of, write_list. cbn [st_lists]. rewrite !nth_of_error. destruct (Nat.eqb_spec s r) as [->|N].
  - rewrite put_same by exact H. reflexivity.
  - rewrite put_other by assumption. reflexivity.
Qed.
Lemma rows_app st lm s : (s < length (st_lists st))%nat -> rows_of (fst (new_list st lm)) s = rows_of st s.
Proof. intros H. unfold rows_of, new_list. cbn. rewrite app_nth1 by exact H. reflexivity. Qed.

Lemma Forall2_len {A B} (P : A -> B -> Prop) l m : Forall2 P l m -> length l = length m.
Proof. induction 1; cbn; congruence. Qed.

(** ** Consistent member data *)
Record sound_data (b : beam) : Prop := {
  sd_E : Forall2 covers (b_EIs b) (b_lengths b);
  sd_G : Forall2 shear_ok (b_GAv b) (b_lengths b);
  sd_K : length (b_kf b) = length (b_lengths b);
  sd_T : Forall (fun t => (1 <= t <= 4)%nat) (b_types b);
  sd_le : (length (b_types b) <= length (b_lengths b))%nat;
  sd_lay : length (b_types b) = length (b_lengths b) -> laid_out b }.

Lemma sound_empty : sound_data beam_empty.
Proof. constructor; cbn; auto. intros _. exact laid_out_empty. Qed.

Lemma coerce_range et t : coerce et = Ok t -> (1 <= t <= 4)%nat.
Proof.
  intros H. apply coerce_iff in H. inversion H as [s w t' HI _|t' Ht]; subst; [|exact Ht].
  unfold type_names in HI. cbn [In] in HI. repeat (destruct HI as [HI|HI]; [injection HI as _ <-; lia|]). destruct HI.
Qed.

Lemma sound_add b L EI et GAv kf : sound_data b -> sound_data (fst (add_span b L EI et GAv kf)).
Proof.
  intros HB. destruct (add_span b L EI et GAv kf) as [b' r] eqn:EA. cbn [fst]. assert (EA' := EA). destruct HB as [S1 S2 S3 S4 S5 S6].
  unfold add_span in EA. destruct (check_rigid EI L) as [[]|] eqn:E1; [|injection EA as <- _; constructor; assumption].
  destruct (match GAv with Some g => check_rigid g L | None => Ok tt end) as [[]|] eqn:E2; [|injection EA as <- _; constructor; assumption].
  assert (C1 : covers EI L) by (apply check_rigid_iff; exact E1).
  assert (C2 : shear_ok GAv L) by (destruct GAv; [apply check_rigid_iff; exact E2|exact I]).
  destruct (coerce et) as [t|x] eqn:E3.
  - injection EA as <- <-. destruct (add_span_ok _ _ _ _ _ _ _ EA') as (_ & _ & _ & _ & _ & _ & _ & _ & _ & LO).
    constructor; cbn [b_EIs b_lengths b_GAv b_kf b_types].
    + apply Forall2_app; [exact S1|constructor; [exact C1|constructor]].
    + apply Forall2_app; [exact S2|constructor; [exact C2|constructor]].
    + rewrite !app_length. cbn [length]. lia.
    + apply Forall_app. split; [exact S4|constructor; [apply (coerce_range et), E3|constructor]].
    + rewrite !app_length. cbn [length]. lia.
    + intros H. apply LO, S6. rewrite !app_length in H. cbn [length] in H. lia.
  - injection EA as <- _. constructor; cbn; rewrite ?app_length; cbn [length].
    + apply Forall2_app; [exact S1|constructor; [exact C1|constructor]].
    + apply Forall2_app; [exact S2|constructor; [exact C2|constructor]].
    + lia.
    + exact S4.
    + lia.
    + intros H. lia.
Qed.
Lemma sound_adds xs b b' : add_spans b xs = Ok b' -> sound_data b -> sound_data b'.
Proof.
  revert b. induction xs as [|[[[[l e] t] g] k] xs IH]; intros b H HB; [injection H as <-; exact HB|].
  unfold add_spans in H. cbn [foldM] in H. apply rbind_ok in H as (b1 & H1 & H2).
  assert (SA := sound_add b l e t g k HB).
  destruct (add_span b l e t g k) as [b2 [[]|x]]; [|discriminate]. injection H1 as <-. exact (IH b2 H2 SA).
Qed.
Lemma sound_R b r v : sound_data b -> sound_data (with_R b r v).
Proof. intros []. constructor; cbn; auto. intros H. destruct (sd_lay0 H). constructor; assumption. Qed.
Lemma sound_D b d v : sound_data b -> sound_data (with_D b d v).
Proof. intros []. constructor; cbn; auto. intros H. destruct (sd_lay0 H). constructor; assumption. Qed.
Lemma sound_LM b lm : sound_data b -> sound_data (with_LM b lm).
Proof. intros []. constructor; cbn; auto. intros H. destruct (sd_lay0 H). constructor; assumption. Qed.
Lemma sound_init c b : beam_init c = Ok b -> sound_data b.
Proof.
  unfold beam_init. intros H. apply rbind_ok in H as (oR & _ & H). apply rbind_ok in H as (gL & _ & H).
  apply rbind_ok in H as (kl & _ & H). apply rbind_ok in H as (b0 & H0 & H). apply rbind_ok in H as (r & _ & H).
  destruct (negb _); [discriminate|]. apply rbind_ok in H as (d & _ & H). injection H as <-.
  apply sound_LM, sound_D, sound_R. destruct (ct_EI c) as [e|es].
  - exact (sound_adds _ _ _ H0 sound_empty).
  - destruct (Nat.eqb _ _); [|discriminate]. exact (sound_adds _ _ _ H0 sound_empty).
Qed.

(** ** One analysis object *)
Section G.
Variable gl : nat -> list (R * R).
Variable ill : nat -> mat -> bool.

Record healthy (a : analysis) : Prop := {
  he_fresh : fresh gl ill a; he_data : sound_data (an_beam a); he_npts : (3 < an_npts a)%nat }.

Lemma fresh_LM a lm : fresh gl ill a -> fresh gl ill (with_beam a (with_LM (an_beam a) lm)).
Proof. intros [[] F2 F3]. constructor; cbn; [constructor; assumption|exact F2|exact F3]. Qed.
Lemma healthy_LM a lm : healthy a -> healthy (with_beam a (with_LM (an_beam a) lm)).
Proof. intros [A B C]. constructor; [apply fresh_LM, A|cbn; apply sound_LM, B|exact C]. Qed.

Lemma effective_gt npts n : (3 < n)%nat -> (3 < effective npts n)%nat.
Proof. intros H. unfold effective. destruct npts as [p|]; [|exact H]. destruct (Nat.ltb_spec 3 p); lia. Qed.

Lemma core_fst a npts check : let a' := fst (analyze_core gl ill a npts check) in
  an_beam a' = an_beam a /\ an_n a' = an_n a /\ an_npts a' = effective npts (an_npts a).
Proof.
  unfold analyze_core.
  assert (E : match npts with Some p => if Nat.ltb 3 p then with_npts a p else a | None => a end = with_npts a (effective npts (an_npts a))).
  { assert (a = with_npts a (an_npts a)) by (destruct a; reflexivity).
    unfold effective. destruct npts as [p|]; [destruct (Nat.ltb 3 p); auto|auto]. }
  rewrite E. clear E. set (a1 := with_npts a _). cbv zeta.
  assert (A1 : an_beam a1 = an_beam a /\ an_n a1 = an_n a /\ an_npts a1 = effective npts (an_npts a)) by (repeat split).
  match goal with |- context [match ?X with Ok _ => _ | Err _ => _ end] => destruct X as [[f k]|] end; [|exact A1].
  destruct (negb check || _)%bool; cbn [fst]; [exact A1|].
  destruct (check_stability _ _ _ _ _) as [[]|]; cbn [fst]; exact A1.
Qed.
Lemma analyze_fst_core a sps npts check : fst (analyze gl ill a sps npts check) = fst (analyze_core gl ill a npts check).
Proof. unfold analyze. destruct (analyze_core gl ill a npts check) as [a' [o|e]]; reflexivity. Qed.
Lemma analyze_snd a sps npts check : snd (analyze gl ill a sps npts check) =
  do o <- snd (analyze_core gl ill a npts check); beam_results gl (an_beam a) o (an_ndof a) (effective npts (an_npts a)) sps.
Proof.
  destruct (core_fst a npts check) as (E1 & E2 & E3). unfold analyze.
  destruct (analyze_core gl ill a npts check) as [a' [o|e]]; cbn [fst snd rbind] in *; [|reflexivity].
  rewrite E1, E3. unfold an_ndof. rewrite E2. reflexivity.
Qed.

Lemma healthy_init c a : analysis_init c = Ok a -> healthy a.
Proof.
  intros H. constructor; [exact (init_fresh gl ill c a H)| |].
  - unfold analysis_init in H. apply rbind_ok in H as (b & HB & H). injection H as <-. exact (sound_init c b HB).
  - unfold analysis_init in H. apply rbind_ok in H as (b & HB & H). injection H as <-. cbn. lia.
Qed.
Lemma healthy_step a o : healthy a -> healthy (step gl ill a o).
Proof.
  intros [A B C]. constructor; [apply fresh_step, A| |].
  - destruct o as [lm|r|L EI et GAv kf|r|d| |npts check]; cbn [step with_beam an_beam].
    + apply sound_LM, B.
    + apply sound_LM, B.
    + apply sound_add, B.
    + apply sound_R, B.
    + unfold set_prescribed. destruct (negb _); cbn [fst]; [exact B|apply sound_D, B].
    + destruct (is_stable_fst gl ill a) as [->|[-> _]]; exact B.
    + destruct (core_fst a npts check) as (-> & _). exact B.
  - destruct o as [lm|r|L EI et GAv kf|r|d| |npts check]; cbn [step with_beam an_npts]; try exact C.
    + destruct (is_stable_fst gl ill a) as [->|[-> _]]; exact C.
    + destruct (core_fst a npts check) as (_ & _ & ->). apply effective_gt, C.
Qed.

(** *** Rebuilding from the description *)
Definition with_version (b : beam) (v : nat) : beam :=
  {| b_lengths := b_lengths b; b_EIs := b_EIs b; b_GAv := b_GAv b; b_kf := b_kf b; b_types := b_types b; b_nspans := b_nspans b;
     b_length := b_length b; b_terminal := b_terminal b; b_R := b_R b; b_D := b_D b; b_LM := b_LM b; b_version := v |}.
Definition anew (a : analysis) (v : nat) : analysis :=
  {| an_beam := with_version (an_beam a) v; an_n := an_n a; an_npts := 100; an_checked := None; an_out := None |}.

Lemma core_transparent a npts check : fresh gl ill a ->
  snd (analyze_core gl ill a npts check) = snd (analyze_core gl ill (forget a) npts check).
Proof.
  intros F. rewrite core_forget. destruct check; [|reflexivity].
  destruct (skips a true) eqn:E.
  - rewrite (core_skip gl ill a npts true E). symmetry. apply core_passes. apply (fr_ok _ _ _ F). apply skips_cached. exact E.
  - symmetry. apply core_recheck. exact E.
Qed.
Lemma core_anew a v npts npts' check : snd (analyze_core gl ill (forget a) npts check) = snd (analyze_core gl ill (anew a v) npts' check).
Proof.
  rewrite (core_npts gl ill (forget a) npts), (core_npts gl ill (anew a v) npts').
  unfold analyze_core. cbv zeta.
  match goal with |- snd (match ?X with _ => _ end) = snd (match ?Y with _ => _ end) => change Y with X; destruct X as [[f k]|] end; [|reflexivity].
  match goal with |- snd (match ?X with _ => _ end) = snd (match ?Y with _ => _ end) => change Y with X; destruct X as [[]|] end; reflexivity.
Qed.
Lemma analyze_anew a v sps npts check : healthy a ->
  snd (analyze gl ill a sps npts check) = snd (analyze gl ill (anew a v) sps (Some (effective npts (an_npts a))) check).
Proof.
  intros [F _ N]. rewrite !analyze_snd, (core_transparent a npts check F), (core_anew a v npts (Some (effective npts (an_npts a))) check).
  cbn [anew an_beam an_npts]. change (an_ndof (anew a v)) with (an_ndof a).
  assert (E := effective_gt npts _ N).
  assert (E' : effective (Some (effective npts (an_npts a))) 100 = effective npts (an_npts a)).
  { generalize dependent (effective npts (an_npts a)). intros m E. unfold effective. destruct (Nat.ltb_spec 3 m); [reflexivity|lia]. }
  rewrite E'. reflexivity.
Qed.

Lemma laid_fields b b' : laid_out b -> laid_out b' -> b_lengths b' = b_lengths b ->
  b_nspans b' = b_nspans b /\ b_length b' = b_length b /\ b_terminal b' = b_terminal b.
Proof.
  intros [A1 A2 A3] [B1 B2 B3] E. assert (N : b_nspans b' = b_nspans b) by congruence.
  assert (X : forall i, node_at b' i = node_at b i) by (intros i; unfold node_at; rewrite E; reflexivity).
  split; [exact N|]. rewrite A2, B2, A3, B3, N. split; [apply X|]. apply map_ext. exact X.
Qed.

Lemma type_code_num ts vs : Forall2 type_code (map (fun t => EtNum [Z.of_nat t]) ts) vs -> vs = ts.
Proof.
  revert vs. induction ts as [|t ts IH]; intros vs H; inversion H as [|x v l l' H1 H2]; subst; [reflexivity|].
  f_equal; [|apply IH; exact H2]. inversion H1 as [|t' Ht Et]. subst t'. apply Nat2Z.inj. exact Et.
Qed.
Lemma type_code_all ts : Forall (fun t => (1 <= t <= 4)%nat) ts -> Forall2 type_code (map (fun t => EtNum [Z.of_nat t]) ts) ts.
Proof. induction 1 as [|t ts Ht _ IH]; cbn [map]; constructor; [apply tc_num; exact Ht|exact IH]. Qed.

(** Constructor arguments that say the same as the data of [b]. *)
Record says (c : ctor) (b : beam) : Prop := {
  sy_L : BeamModel.ct_L c = b_lengths b; sy_E : ei_list c = b_EIs b; sy_G : gav_list c = b_GAv b; sy_K : kf_list c = b_kf b;
  sy_R : BeamModel.ct_R c = Some (b_R b); sy_S : BeamModel.ct_sup c = None; sy_T : BeamModel.ct_types c = map (fun t => EtNum [Z.of_nat t]) (b_types b);
  sy_D : BeamModel.ct_D c = Some (b_D b); sy_LM : BeamModel.ct_LM c = Some (b_LM b) }.
Lemma rebuild_from a c : healthy a -> complete a -> says c (an_beam a) -> exists v, analysis_init c = Ok (anew a v).
Proof.
  intros [_ [S1 S2 S3 S4 S5 S6] _] (C1 & C2 & C3 & C4 & C5) [Y1 Y2 Y3 Y4 Y5 Y6 Y7 Y8 Y9]. unfold anew. set (b := an_beam a) in *.
  assert (LT : (length (BeamModel.ct_L c) <= length (BeamModel.ct_types c))%nat) by (rewrite Y1, Y7, map_length; lia).
  assert (CS := ctor_spec c LT).
  assert (FL : firstn (length (b_lengths b)) (map (fun t => EtNum [Z.of_nat t]) (b_types b)) = map (fun t => EtNum [Z.of_nat t]) (b_types b)).
  { apply firstn_all2. rewrite map_length. lia. }
  assert (V : valid_args c (b_R b) (b_types b)).
  { constructor; rewrite ?Y1, ?Y2, ?Y3, ?Y4, ?Y7, ?Y8.
    - unfold restraints_are. rewrite Y5, Y6. reflexivity.
    - lia.
    - exact C5.
    - exact (Forall2_len _ _ _ S1).
    - exact (Forall2_len _ _ _ S2).
    - exact S3.
    - rewrite FL. apply type_code_all, S4.
    - exact S1.
    - exact S2. }
  unfold analysis_init. destruct (beam_init c) as [b'|e]; [|destruct CS as [_ N]; destruct (N _ _ V)].
  destruct CS as (r & ts & V' & E1 & E2 & E3 & E4 & E5 & E6 & E7 & E8 & LO).
  assert (Er : r = b_R b) by (assert (Q := va_R _ _ _ V'); unfold restraints_are in Q; rewrite Y5, Y6 in Q; exact Q).
  assert (Et : ts = b_types b).
  { apply type_code_num. rewrite <- FL. assert (Q := va_types _ _ _ V'). rewrite Y1, Y7 in Q. exact Q. }
  rewrite Y1 in E1. rewrite Y2 in E2. rewrite Y3 in E3. rewrite Y4 in E4. rewrite Y8 in E7. rewrite Y9 in E8.
  assert (LB : laid_out b) by (apply S6; lia).
  destruct (laid_fields b b' LB LO E1) as (N1 & N2 & N3).
  exists (b_version b'). cbn [rbind].
  assert (EB : b' = with_version b (b_version b')).
  { clear - E1 E2 E3 E4 E5 E6 E7 E8 Er Et N1 N2 N3. destruct b'. cbn in *. unfold with_version. subst. reflexivity. }
  f_equal. rewrite EB at 1. rewrite N1, C1. cbn [with_version b_version]. f_equal.
Qed.
Lemma rebuild a : healthy a -> complete a -> exists v, analysis_init (described (an_beam a)) = Ok (anew a v).
Proof. intros H C. apply (rebuild_from a _ H C). constructor; reflexivity. Qed.
End G.

(** ** Programs *)
Section P.
Variable gl : nat -> list (R * R).
Variable ill : nat -> mat -> bool.
Local Notation exec := (exec gl ill).
Local Notation run_calls := (run_calls gl ill).

Definition good (st : store) : Prop :=
  forall p o, object st p o -> (so_lm o < length (st_lists st))%nat /\ healthy gl ill (so_an o).

Lemma run_snoc ks k : run_calls (ks ++ [k]) = fst (exec (run_calls ks) k).
Proof. unfold SessionModel.run_calls. rewrite fold_left_app. reflexivity. Qed.

Lemma object_lt st p o : object st p o -> (p < length (st_objs st))%nat.
Proof. clear gl ill. apply some_lt. Qed.
Lemma object_fun st p o o' : object st p o -> object st p o' -> o = o'.
Proof. clear gl ill. unfold object. congruence. Qed.
Lemma object_write st p o o' q x : object st p o ->
  object (write_obj st p o') q x <-> (if Nat.eqb q p then x = o' else object st q x).
Proof. clear gl ill.
  intros H. assert (L := object_lt _ _ _ H). unfold object, write_obj. cbn [st_objs]. destruct (Nat.eqb_spec q p) as [->|N].
  - rewrite put_same by exact L. split; congruence.
  - rewrite put_other by assumption. tauto.
Qed.
Lemma rows_write_obj st p o r : rows_of (write_obj st p o) r = rows_of st r.
Proof. reflexivity. Qed.
Lemma seen_write_obj st p o x : seen (write_obj st p o) x = seen st x.
Proof. reflexivity. Qed.
Lemma healthy_seen st o : healthy gl ill (so_an o) -> healthy gl ill (seen st o).
Proof. apply healthy_LM. Qed.

(** What a call does to the objects: nothing, one written, or one more. *)
Lemma good_write st p o o' : good st -> object st p o -> (so_lm o' < length (st_lists st))%nat -> healthy gl ill (so_an o') -> good (write_obj st p o').
Proof.
  intros G H A B q x Hx. apply (object_write _ _ _ _ _ _ H) in Hx. destruct (Nat.eqb q p); [subst x; split; assumption|exact (G q x Hx)].
Qed.
Lemma good_list st r lm : good st -> (r < length (st_lists st))%nat -> good (write_list st r lm).
Proof.
  intros G L q x Hx. destruct (G q x Hx) as [A B]. split; [|exact B]. unfold write_list. cbn [st_lists]. rewrite put_length; assumption.
Qed.
Lemma good_new st lm : good st -> good (fst (new_list st lm)).
Proof.
  intros G q x Hx. destruct (G q x Hx) as [A B]. split; [|exact B]. unfold new_list. cbn [fst st_lists]. rewrite app_length. lia.
Qed.
Lemma object_app l os (o x : sobj) q : object {| st_lists := l; st_objs := os ++ [o] |} q x ->
  nth_error os q = Some x \/ (q = length os /\ x = o).
Proof. clear gl ill.
  unfold object. cbn [st_objs]. destruct (Nat.lt_ge_cases q (length os)) as [L|L].
  - rewrite nth_error_app1 by exact L. auto.
  - rewrite nth_error_app2 by exact L. intros H. right. assert (M := some_lt _ _ _ H). cbn in M.
    assert (q = length os) as -> by lia. rewrite Nat.sub_diag in H. cbn in H. split; congruence.
Qed.
Lemma good_more st o : good st -> (so_lm o < length (st_lists st))%nat -> healthy gl ill (so_an o) ->
  good {| st_lists := st_lists st; st_objs := st_objs st ++ [o] |}.
Proof.
  intros G A B q x Hx. apply object_app in Hx as [Hx|[_ ->]]; [exact (G q x Hx)|split; assumption].
Qed.

Lemma good_exec st k : good st -> good (fst (exec st k)).
Proof.
  intros G. destruct k as [lm|r lm|c lm|p r|p h|p r|p rs|p ds|p L EI et GAv kf|p|p npts check]; cbn [SessionModel.exec].
  2: { destruct (Nat.ltb_spec r (length (st_lists st))); cbn [fst]; [apply good_list; assumption|exact G]. }
  2: { set (X := match lm with Some r => (st, r) | None => new_list st [] end).
       assert (GX : good (fst X)) by (unfold X; destruct lm; [exact G|apply good_new, G]). destruct X as [st1 r]. cbn [fst] in GX.
       destruct (Nat.ltb_spec r (length (st_lists st1))); [|exact G].
       destruct (analysis_init _) as [a|e] eqn:E; cbn [fst]; [|exact GX].
       apply good_more; cbn [so_lm so_an]; [exact GX|assumption|exact (healthy_init gl ill _ _ E)]. }
  all: try (unfold on_obj; destruct (nth_error (st_objs st) p) as [o|] eqn:Ho; [|exact G]; destruct (G p o Ho) as [GL GH]).
  - apply good_new, G.
  - destruct (Nat.ltb_spec r (length (st_lists st))); cbn [fst]; [|exact G]. apply (good_write st p o); cbn [so_lm so_an]; assumption.
  - destruct (helper_row h); cbn [fst]; [apply good_list; assumption|exact G].
  - apply good_list; assumption.
  - apply (good_write st p o); cbn [with_an so_lm so_an]; [assumption..|]. exact (healthy_step gl ill _ (ORestraints rs) GH).
  - assert (HS := healthy_step gl ill _ (OPrescribed ds) GH). cbn [step] in HS. destruct (set_prescribed _ ds) as [b x]. cbn [fst] in *.
    apply (good_write st p o); cbn [with_an so_lm so_an]; assumption.
  - assert (HS := healthy_step gl ill _ (OAddSpan L EI et GAv kf) GH). cbn [step] in HS. destruct (add_span _ L EI et GAv kf) as [b x]. cbn [fst] in *.
    apply (good_write st p o); cbn [with_an so_lm so_an]; assumption.
  - assert (HS := healthy_step gl ill _ OIsStable (healthy_seen st o GH)). cbn [step] in HS. destruct (is_stable _ _ _) as [a x]. cbn [fst] in *.
    apply (good_write st p o); cbn [with_an so_lm so_an]; assumption.
  - assert (HS := healthy_step gl ill _ (OAnalyze npts check) (healthy_seen st o GH)). cbn [step] in HS.
    rewrite <- (analyze_fst_core gl ill (seen st o) (fun _ => [])) in HS. destruct (analyze _ _ _ _ _ _) as [a [x|e]]; cbn [fst] in *;
    apply (good_write st p o); cbn [with_an so_lm so_an]; assumption.
Qed.
Lemma good_run ks : good (run_calls ks).
Proof.
  induction ks as [|k ks IH] using rev_ind; [intros p o H; destruct p; discriminate|]. rewrite run_snoc. apply good_exec, IH.
Qed.

(** *** Frame *)
Lemma seen_list st r lm o : (r < length (st_lists st))%nat -> so_lm o <> r -> seen (write_list st r lm) o = seen st o.
Proof. intros L N. unfold seen. rewrite rows_write by exact L. destruct (Nat.eqb_spec (so_lm o) r); [contradiction|reflexivity]. Qed.
Lemma seen_new st lm o : (so_lm o < length (st_lists st))%nat -> seen (fst (new_list st lm)) o = seen st o.
Proof. intros L. unfold seen. rewrite rows_app by exact L. reflexivity. Qed.

Lemma exec_frame st k q o : good st -> object st q o -> ~ may_change st k q ->
  object (fst (exec st k)) q o /\ seen (fst (exec st k)) o = seen st o.
Proof.
  intros G Hq NM. destruct (G q o Hq) as [QL QH].
  destruct k as [lm|r lm|c lm|p r|p h|p r|p rs|p ds|p L EI et GAv kf|p|p npts check]; cbn [SessionModel.exec may_change] in *.
  1: { split; [exact Hq|apply seen_new, QL]. }
  1: { destruct (Nat.ltb_spec r (length (st_lists st))); cbn [fst]; [|auto]. split; [exact Hq|]. apply seen_list; [assumption|].
       intros E. apply NM. exists o. auto. }
  1: { set (X := match lm with Some r => (st, r) | None => new_list st [] end).
       assert (GX : object (fst X) q o /\ seen (fst X) o = seen st o) by (unfold X; destruct lm; [auto|split; [exact Hq|apply seen_new, QL]]).
       destruct X as [st1 r]. cbn [fst] in GX. destruct GX as [GX GS].
       destruct (Nat.ltb_spec r (length (st_lists st1))); [|auto].
       destruct (analysis_init _) as [a|e] eqn:E; cbn [fst]; [|auto]. split; [|exact GS].
       unfold object. cbn [st_objs]. rewrite nth_error_app1 by exact (some_lt _ _ _ GX). exact GX. }
  all: unfold on_obj; destruct (nth_error (st_objs st) p) as [o'|] eqn:Ho; [|auto]; destruct (G p o' Ho) as [GL GH].
  1: { destruct (Nat.ltb _ _); [|auto]. split; [|reflexivity]. apply (object_write _ _ _ _ _ _ Ho). destruct (Nat.eqb_spec q p); [congruence|exact Hq]. }
  1: { destruct (helper_row h); cbn [fst]; [|auto]. split; [exact Hq|]. apply seen_list; [exact GL|].
       intros E. apply NM. exists (so_lm o'). split; [exists o'|exists o]; auto. }
  1: { split; [exact Hq|]. apply seen_list; [exact GL|]. intros E. apply NM. exists (so_lm o'). split; [exists o'|exists o]; auto. }
  all: try (destruct (set_prescribed _ _) as [b x]); try (destruct (add_span _ _ _ _ _ _) as [b x]); try (destruct (is_stable _ _ _) as [a x]);
       try (destruct (analyze _ _ _ _ _ _) as [a [x|e]]); cbn [fst];
       (split; [|reflexivity]); apply (object_write _ _ _ _ _ _ Ho); (destruct (Nat.eqb_spec q p); [congruence|exact Hq]).
Qed.

Lemma frame ks k q o : object (run_calls ks) q o -> ~ may_change (run_calls ks) k q ->
  object (run_calls (ks ++ [k])) q o /\ seen (run_calls (ks ++ [k])) o = seen (run_calls ks) o.
Proof. rewrite run_snoc. apply exec_frame, good_run. Qed.

(** Objects are never removed. *)
Lemma exec_persist st k q o : good st -> object st q o -> exists o', object (fst (exec st k)) q o'.
Proof.
  intros G Hq. destruct (G q o Hq) as [QL QH].
  destruct k as [lm|r lm|c lm|p r|p h|p r|p rs|p ds|p L EI et GAv kf|p|p npts check]; cbn [SessionModel.exec] in *.
  1: { exists o; exact Hq. }
  1: { destruct (Nat.ltb_spec r (length (st_lists st))); cbn [fst]; exists o; exact Hq. }
  1: { set (X := match lm with Some r => (st, r) | None => new_list st [] end).
       assert (GX : object (fst X) q o) by (unfold X; destruct lm; exact Hq).
       destruct X as [st1 r]. cbn [fst] in GX.
       destruct (Nat.ltb_spec r (length (st_lists st1))); [|exists o; exact Hq].
       destruct (analysis_init _) as [a|e] eqn:E; cbn [fst]; [|exists o; exact GX]. exists o.
       unfold object. cbn [st_objs]. rewrite nth_error_app1 by exact (some_lt _ _ _ GX). exact GX. }
  all: unfold on_obj; destruct (nth_error (st_objs st) p) as [o'|] eqn:Ho; [|exists o; exact Hq].
  all: try (destruct (Nat.ltb _ _)); try (destruct (helper_row h)); try (destruct (set_prescribed _ _) as [b x]); try (destruct (add_span _ _ _ _ _ _) as [b x]); try (destruct (is_stable _ _ _) as [a x]);
       try (destruct (analyze _ _ _ _ _ _) as [a [x|e]]); cbn [fst]; try (exists o; exact Hq);
       (destruct (Nat.eqb_spec q p) as [->|N];
        [eexists; apply (object_write _ _ _ _ _ _ Ho); rewrite Nat.eqb_refl; reflexivity
        |exists o; apply (object_write _ _ _ _ _ _ Ho); destruct (Nat.eqb_spec q p); [contradiction|exact Hq]]).
Qed.

(** *** Which lists change *)
Lemma exec_lists st k r : good st -> (r < length (st_lists st))%nat -> ~ edits st k r -> rows_of (fst (exec st k)) r = rows_of st r.
Proof.
  intros G L NE.
  destruct k as [lm|r' lm|c lm|p r'|p h|p r'|p rs|p ds|p L' EI et GAv kf|p|p npts check]; cbn [SessionModel.exec edits] in *.
  1: { apply rows_app, L. }
  1: { destruct (Nat.ltb_spec r' (length (st_lists st))); cbn [fst]; [|auto]. rewrite rows_write by assumption.
       destruct (Nat.eqb_spec r r'); [congruence|reflexivity]. }
  1: { set (X := match lm with Some r => (st, r) | None => new_list st [] end).
       assert (GX : rows_of (fst X) r = rows_of st r) by (unfold X; destruct lm; [auto|apply rows_app, L]).
       destruct X as [st1 r1]. cbn [fst] in GX.
       destruct (Nat.ltb_spec r1 (length (st_lists st1))); [|auto].
       destruct (analysis_init _) as [a|e] eqn:E; cbn [fst]; exact GX. }
  all: unfold on_obj; destruct (nth_error (st_objs st) p) as [o'|] eqn:Ho; [|auto]; destruct (G p o' Ho) as [GL GH].
  all: try (destruct (Nat.ltb _ _)); try (destruct (helper_row h)); try (destruct (set_prescribed _ _) as [b x]); try (destruct (add_span _ _ _ _ _ _) as [b x]); try (destruct (is_stable _ _ _) as [a x]);
       try (destruct (analyze _ _ _ _ _ _) as [a [x|e]]); cbn [fst]; try reflexivity.
  all: rewrite rows_write by exact GL; destruct (Nat.eqb_spec r (so_lm o')) as [->|N]; [|reflexivity]; exfalso; apply NE; exists o'; auto.
Qed.

(** *** Adding a load *)
Lemma exec_add st p o row : good st -> object st p o ->
  let st' := write_list st (so_lm o) (rows_of st (so_lm o) ++ [row]) in
  forall q x, object st q x -> object st' q x /\
    loads_now st' x = (if Nat.eqb (so_lm x) (so_lm o) then loads_now st x ++ [row] else loads_now st x) /\
    rows_of st' (so_lm o) = rows_of st (so_lm o) ++ [row].
Proof.
  intros G Hp st' q x Hx. destruct (G p o Hp) as [GL _]. split; [exact Hx|]. unfold loads_now, seen, with_beam, with_LM. cbn [an_beam b_LM]. unfold st'.
  rewrite !rows_write by exact GL. rewrite Nat.eqb_refl. destruct (Nat.eqb_spec (so_lm x) (so_lm o)) as [->|]; auto.
Qed.

(** *** Lists that are not shared *)
Definition separate (st : store) : Prop := forall p q r, refers st p r -> refers st q r -> p = q.
Lemma refers_mono st st' : (forall p o', object st' p o' -> exists o, object st p o /\ so_lm o' = so_lm o) -> forall p r, refers st' p r -> refers st p r.
Proof. intros H p r (o' & A & B). destruct (H p o' A) as (o & C & D). exists o. split; [exact C|congruence]. Qed.
Lemma separate_mono st st' : (forall p o', object st' p o' -> exists o, object st p o /\ so_lm o' = so_lm o) -> separate st -> separate st'.
Proof. intros H S p q r A B. apply (S p q r); apply (refers_mono st st' H); assumption. Qed.

Lemma exec_separate st k : good st -> separate st -> ~ shares st k -> separate (fst (exec st k)).
Proof.
  intros G S NS.
  destruct k as [lm|r' lm|c lm|p r'|p h|p r'|p rs|p ds|p L' EI et GAv kf|p|p npts check]; cbn [SessionModel.exec shares] in *.
  1: { exact S. }
  1: { destruct (Nat.ltb _ _); exact S. }
  1: { set (X := match lm with Some r => (st, r) | None => new_list st [] end).
       assert (GX : st_objs (fst X) = st_objs st /\ ((snd X < length (st_lists (fst X)))%nat -> forall q, ~ refers st q (snd X))).
       { unfold X. destruct lm as [r|]; cbn [fst snd new_list st_objs st_lists]; (split; [reflexivity|]); intros L q Hq.
         - apply NS. exists q. exact Hq.
         - destruct Hq as (o & A & B). destruct (G q o A) as [C _]. lia. }
       destruct X as [st1 r1]. cbn [fst snd] in GX. destruct GX as [EO NR].
       destruct (Nat.ltb_spec r1 (length (st_lists st1))) as [L|L]; [|exact S]. specialize (NR L).
       destruct (analysis_init _) as [a|e] eqn:E; cbn [fst].
       2: { apply (separate_mono st); [|exact S]. intros p o' H. exists o'. split; [unfold object in *; rewrite <- EO; exact H|reflexivity]. }
       intros p q r (o1 & A1 & B1) (o2 & A2 & B2).
       apply object_app in A1 as [A1|[P1 Q1]]; apply object_app in A2 as [A2|[P2 Q2]]; rewrite EO in *.
       - apply (S p q r); [exists o1|exists o2]; split; assumption.
       - exfalso. apply (NR p). exists o1. split; [exact A1|]. subst o2. cbn in B2. congruence.
       - exfalso. apply (NR q). exists o2. split; [exact A2|]. subst o1. cbn in B1. congruence.
       - congruence. }
  all: unfold on_obj; destruct (nth_error (st_objs st) p) as [o'|] eqn:Ho; [|exact S]; destruct (G p o' Ho) as [GL GH].
  1: { destruct (Nat.ltb_spec r' (length (st_lists st))) as [L|L]; [|exact S]. cbn [fst]. intros a b r (o1 & A1 & B1) (o2 & A2 & B2).
       apply (object_write _ _ _ _ _ _ Ho) in A1. apply (object_write _ _ _ _ _ _ Ho) in A2.
       destruct (Nat.eqb_spec a p) as [->|Na], (Nat.eqb_spec b p) as [->|Nb].
       - reflexivity.
       - exfalso. apply NS. exists b. split; [exact Nb|]. exists o2. split; [exact A2|]. subst o1. cbn in B1. congruence.
       - exfalso. apply NS. exists a. split; [exact Na|]. exists o1. split; [exact A1|]. subst o2. cbn in B2. congruence.
       - apply (S a b r); [exists o1|exists o2]; split; assumption. }
  all: try (destruct (helper_row h)); try (destruct (set_prescribed _ _) as [b x]); try (destruct (add_span _ _ _ _ _ _) as [b x]); try (destruct (is_stable _ _ _) as [a x]);
       try (destruct (analyze _ _ _ _ _ _) as [a [x|e]]); cbn [fst]; try exact S.
  all: apply (separate_mono st); [|exact S]; intros q x' H; apply (object_write _ _ _ _ _ _ Ho) in H;
       destruct (Nat.eqb_spec q p) as [->|N]; [exists o'; split; [exact Ho|subst x'; reflexivity]|exists x'; auto].
Qed.
Lemma unshared_separate ks : unshared gl ill ks -> separate (run_calls ks).
Proof.
  induction 1 as [|ks k U IH NS].
  - intros p q r (o & A & _). unfold object in A. cbn in A. destruct p; discriminate.
  - rewrite run_snoc. apply exec_separate; [apply good_run|exact IH|exact NS].
Qed.
Lemma unshared_frame ks k p q o : unshared gl ill ks -> subject k = Some p -> p <> q -> object (run_calls ks) q o ->
  object (run_calls (ks ++ [k])) q o /\ seen (run_calls (ks ++ [k])) o = seen (run_calls ks) o.
Proof.
  intros U SK N H. apply frame; [exact H|]. intros M. assert (S := unshared_separate ks U).
  destruct k; cbn in SK, M; try discriminate; injection SK as ->; try contradiction.
  - destruct M as (rr & A & B). apply N. exact (S _ _ _ A B).
  - destruct M as (rr & A & B). apply N. exact (S _ _ _ A B).
Qed.
End P.

(** ** What one call does to one object *)
Section Q.
Variable gl : nat -> list (R * R).
Variable ill : nat -> mat -> bool.
Local Notation exec := (exec gl ill).
Local Notation run_calls := (run_calls gl ill).

Definition after (st : store) (k : call) (q : nat) (o : sobj) : sobj :=
  match k with
  | SetLoads p r => if Nat.eqb q p then if Nat.ltb r (length (st_lists st)) then {| so_an := so_an o; so_lm := r; so_res := so_res o |} else o else o
  | SetRestraints p rs => if Nat.eqb q p then with_an o (with_beam (so_an o) (set_restraints (an_beam (so_an o)) rs)) else o
  | SetPrescribed p ds => if Nat.eqb q p then with_an o (with_beam (so_an o) (fst (set_prescribed (an_beam (so_an o)) ds))) else o
  | AddSpan p L EI et GAv kf => if Nat.eqb q p then with_an o (with_beam (so_an o) (fst (add_span (an_beam (so_an o)) L EI et GAv kf))) else o
  | IsStable p => if Nat.eqb q p then with_an o (fst (is_stable gl ill (seen st o))) else o
  | Analyze p npts check =>
      if Nat.eqb q p then
        {| so_an := fst (analyze gl ill (seen st o) (fun _ => []) npts check); so_lm := so_lm o;
           so_res := match snd (analyze gl ill (seen st o) (fun _ => []) npts check) with Ok r => Some r | Err _ => so_res o end |}
      else o
  | _ => o
  end.
Lemma exec_after st k q o : object st q o -> object (fst (exec st k)) q (after st k q o).
Proof.
  intros Hq.
  destruct k as [lm|r lm|c lm|p r|p h|p r|p rs|p ds|p L EI et GAv kf|p|p npts check]; cbn [SessionModel.exec after] in *.
  1: { exact Hq. }
  1: { destruct (Nat.ltb_spec r (length (st_lists st))); cbn [fst]; exact Hq. }
  1: { set (X := match lm with Some r => (st, r) | None => new_list st [] end).
       assert (GX : object (fst X) q o) by (unfold X; destruct lm; exact Hq).
       destruct X as [st1 r]. cbn [fst] in GX.
       destruct (Nat.ltb_spec r (length (st_lists st1))); [|exact Hq].
       destruct (analysis_init _) as [a|e] eqn:E; cbn [fst]; [|exact GX].
       unfold object. cbn [st_objs]. rewrite nth_error_app1 by exact (some_lt _ _ _ GX). exact GX. }
  all: unfold on_obj; destruct (Nat.eqb_spec q p) as [E|N]; [subst q; unfold object in Hq; rewrite Hq; fold (object st p o) in Hq|destruct (nth_error (st_objs st) p) as [o'|] eqn:Ho; [|exact Hq]].
  all: try (destruct (Nat.ltb _ _)); try (destruct (helper_row h)); try (destruct (set_prescribed _ _) as [b x]); try (destruct (add_span _ _ _ _ _ _) as [b x]); try (destruct (is_stable _ _ _) as [a x]);
       try (destruct (analyze _ _ _ _ _ _) as [a [x|e]]); cbn [fst snd]; try exact Hq.
  all: try (apply (proj2 (object_write _ _ _ _ _ _ Hq)); rewrite Nat.eqb_refl; reflexivity).
  all: apply (object_write _ _ _ _ _ _ Ho); destruct (Nat.eqb_spec q p); [contradiction|exact Hq].
Qed.
Lemma exec_after_eq st k q o o' : object st q o -> object (fst (exec st k)) q o' -> o' = after st k q o.
Proof. intros A B. exact (object_fun _ _ _ _ B (exec_after st k q o A)). Qed.

Lemma after_npts st k q o : an_npts (so_an (after st k q o)) =
  match k with Analyze p npts _ => if Nat.eqb q p then effective npts (an_npts (so_an o)) else an_npts (so_an o) | _ => an_npts (so_an o) end.
Proof.
  destruct k as [lm|r lm|c lm|p r|p h|p r|p rs|p ds|p L EI et GAv kf|p|p npts check]; cbn [after]; try reflexivity;
    destruct (Nat.eqb q p); try reflexivity.
  - destruct (Nat.ltb _ _); reflexivity.
  - cbn [with_an so_an]. destruct (is_stable_fst gl ill (seen st o)) as [->|[-> _]]; reflexivity.
  - cbn [so_an]. rewrite analyze_fst_core. destruct (core_fst gl ill (seen st o) npts check) as (_ & _ & ->). reflexivity.
Qed.
Lemma after_res st k q o : so_res (after st k q o) =
  match k with
  | Analyze p npts check => if Nat.eqb q p then
      match snd (analyze gl ill (seen st o) (fun _ => []) npts check) with Ok r => Some r | Err _ => so_res o end else so_res o
  | _ => so_res o end.
Proof.
  destruct k as [lm|r lm|c lm|p r|p h|p r|p rs|p ds|p L EI et GAv kf|p|p npts check]; cbn [after]; try reflexivity;
    destruct (Nat.eqb q p); try reflexivity. destruct (Nat.ltb _ _); reflexivity.
Qed.
Lemma after_n st k q o : an_n (so_an (after st k q o)) = an_n (so_an o).
Proof.
  destruct k as [lm|r lm|c lm|p r|p h|p r|p rs|p ds|p L EI et GAv kf|p|p npts check]; cbn [after]; try reflexivity;
    destruct (Nat.eqb q p); try reflexivity.
  - destruct (Nat.ltb _ _); reflexivity.
  - cbn [with_an so_an]. destruct (is_stable_fst gl ill (seen st o)) as [->|[-> _]]; reflexivity.
  - cbn [so_an]. rewrite analyze_fst_core. destruct (core_fst gl ill (seen st o) npts check) as (_ & -> & _). reflexivity.
Qed.
Lemma after_spans st k q o : (b_nspans (an_beam (so_an o)) <= length (b_lengths (an_beam (so_an o))))%nat ->
  let b' := an_beam (so_an (after st k q o)) in
  (b_nspans (an_beam (so_an o)) <= b_nspans b')%nat /\ (b_nspans b' <= length (b_lengths b'))%nat.
Proof.
  intros H.
  destruct k as [lm|r lm|c lm|p r|p h|p r|p rs|p ds|p L EI et GAv kf|p|p npts check]; cbn [after]; try (split; [apply le_n|exact H]);
    destruct (Nat.eqb q p); try (split; [apply le_n|exact H]).
  - destruct (Nat.ltb _ _); split; try apply le_n; exact H.
  - cbn [with_an so_an with_beam an_beam]. unfold set_prescribed. destruct (negb _); split; try apply le_n; exact H.
  - cbn [with_an so_an with_beam an_beam]. unfold add_span. destruct (check_rigid EI L) as [[]|]; [|split; [apply le_n|exact H]].
    destruct (match GAv with Some g => _ | None => _ end) as [[]|]; [|split; [apply le_n|exact H]].
    destruct (coerce et); cbn [fst b_nspans b_lengths]; rewrite ?app_length; cbn [length]; lia.
  - cbn [with_an so_an]. destruct (is_stable_fst gl ill (seen st o)) as [->|[-> _]]; split; try apply le_n; exact H.
  - cbn [so_an]. rewrite analyze_fst_core. destruct (core_fst gl ill (seen st o) npts check) as (-> & _ & _). split; [apply le_n|exact H].
Qed.

(** *** Construction *)
Lemma exec_object_new st k q o' : object (fst (exec st k)) q o' -> ~ (exists o, object st q o) ->
  exists c lm a, k = Construct c lm /\ snd (exec st k) = Ok tt /\ q = length (st_objs st) /\ analysis_init (given c (rows_of (fst (exec st k)) (so_lm o'))) = Ok a /\
    so_an o' = a /\ so_res o' = None /\
    match lm with Some r => so_lm o' = r | None => so_lm o' = length (st_lists st) /\ rows_of (fst (exec st k)) (so_lm o') = [] end.
Proof.
  intros H NO.
  destruct k as [lm|r lm|c lm|p r|p h|p r|p rs|p ds|p L EI et GAv kf|p|p npts check].
  3: { cbn [SessionModel.exec] in *. set (X := match lm with Some r => (st, r) | None => new_list st [] end) in *.
       assert (GX : st_objs (fst X) = st_objs st /\ match lm with Some r => snd X = r | None => snd X = length (st_lists st) /\ rows_of (fst X) (snd X) = [] end).
       { unfold X. destruct lm; cbn; [auto|]. split; [reflexivity|]. split; [reflexivity|]. unfold rows_of. cbn. rewrite app_nth2, Nat.sub_diag by lia. reflexivity. }
       destruct X as [st1 r]. cbn [fst snd] in GX. destruct GX as [GX GL].
       destruct (Nat.ltb_spec r (length (st_lists st1))); [|destruct NO; exists o'; exact H].
       destruct (analysis_init _) as [a|e] eqn:E; cbn [fst] in *; [|destruct NO; exists o'; unfold object in *; rewrite <- GX; exact H].
       apply object_app in H as [H|[P Q]]; [destruct NO; exists o'; unfold object; rewrite <- GX; exact H|].
       exists c, lm, a. subst o'. cbn [so_lm so_an so_res snd]. rewrite GX in P. repeat (split; [assumption || reflexivity|]). exact GL. }
  all: exfalso; apply NO; cbn [SessionModel.exec] in H.
  1: { exists o'. exact H. }
  1: { exists o'. destruct (Nat.ltb _ _); exact H. }
  all: unfold on_obj in H; destruct (nth_error (st_objs st) p) as [o1|] eqn:Ho; [|exists o'; exact H].
  all: try (destruct (Nat.ltb _ _)); try (destruct (helper_row h)); try (destruct (set_prescribed _ _) as [b x]); try (destruct (add_span _ _ _ _ _ _) as [b x]); try (destruct (is_stable _ _ _) as [a x]);
       try (destruct (analyze _ _ _ _ _ _) as [a [x|e]]); cbn [fst] in H; try (exists o'; exact H).
  all: apply (object_write _ _ _ _ _ _ Ho) in H; destruct (Nat.eqb_spec q p) as [->|N]; [exists o1; exact Ho|exists o'; exact H].
Qed.

Lemma object_dec st q : (exists o, object st q o) \/ ~ (exists o, object st q o).
Proof. unfold object. destruct (nth_error (st_objs st) q) as [o|]; [left; exists o; reflexivity|right; intros (o & H); discriminate]. Qed.

(** *** Spans of an object *)
Definition measured (o : sobj) : Prop :=
  let b := an_beam (so_an o) in (an_n (so_an o) <= b_nspans b)%nat /\ (b_nspans b <= length (b_lengths b))%nat.
Lemma measured_run ks q o : object (run_calls ks) q o -> measured o.
Proof.
  revert q o. induction ks as [|k ks IH] using rev_ind; intros q o H; [destruct q; discriminate|]. rewrite run_snoc in H.
  destruct (object_dec (run_calls ks) q) as [(o1 & H1)|N].
  - rewrite (exec_after_eq _ _ _ _ _ H1 H). destruct (IH q o1 H1) as [A B]. unfold measured. rewrite after_n.
    destruct (after_spans (run_calls ks) k q o1 B) as [C D]. split; [lia|exact D].
  - destruct (exec_object_new _ _ _ _ H N) as (c & lm & a & _ & _ & _ & E & <- & _ & _).
    unfold analysis_init in E. apply rbind_ok in E as (b & E1 & E2). assert (LN := lo_n b (ctor_laid _ b E1)). injection E2 as E2. unfold measured. rewrite <- E2. split; cbn; lia.
Qed.

Lemma foldM_ok_each {A B} (f : A -> B -> result A) l a r : foldM f l a = Ok r -> forall x, In x l -> exists a' r', f a' x = Ok r'.
Proof.
  revert a. induction l as [|y l IH]; intros a H x Hx; [destruct Hx|]. cbn in H. apply rbind_ok in H as (a1 & H1 & H2).
  destruct Hx as [->|Hx]; [exists a, a1; exact H1|exact (IH a1 H2 x Hx)].
Qed.
Lemma results_spans b o ndof npts sps r : beam_results gl b o ndof npts sps = Ok r -> (b_nspans b = 0 \/ 2 * b_nspans b + 2 <= ndof)%nat.
Proof.
  unfold beam_results, member_analysis. intros H. apply rbind_ok in H as (v & H & _). apply rbind_ok in H as (ls & _ & H). apply rbind_ok in H as (s & H & _).
  destruct (b_nspans b) as [|m]; [left; reflexivity|right].
  destruct (foldM_ok_each _ _ _ _ H m) as (acc & r' & E); [apply in_seq; lia|].
  apply rbind_ok in E as (mb & _ & E). destruct (Nat.ltb_spec ndof (2 * m + 4)); [discriminate|lia].
Qed.
Lemma analyze_spans a sps npts check a' r : analyze gl ill a sps npts check = (a', Ok r) -> (b_nspans (an_beam a) <= an_n a)%nat.
Proof.
  intros H. assert (E := analyze_snd gl ill a sps npts check). rewrite H in E. cbn [snd] in E. symmetry in E. apply rbind_ok in E as (o & _ & E).
  apply results_spans in E. unfold an_ndof in E. lia.
Qed.

Lemma grown_stays ks k q o : object (run_calls ks) q o -> (an_n (so_an o) < b_nspans (an_beam (so_an o)))%nat ->
  exists o', object (run_calls (ks ++ [k])) q o' /\ (an_n (so_an o') < b_nspans (an_beam (so_an o')))%nat.
Proof.
  intros H L. rewrite run_snoc. exists (after (run_calls ks) k q o). split; [apply exec_after, H|].
  rewrite after_n. destruct (measured_run ks q o H) as [_ M]. destruct (after_spans (run_calls ks) k q o M). lia.
Qed.
Lemma grown_stays_run ks' : forall ks q o, object (run_calls ks) q o -> (an_n (so_an o) < b_nspans (an_beam (so_an o)))%nat ->
  exists o', object (run_calls (ks ++ ks')) q o' /\ (an_n (so_an o') < b_nspans (an_beam (so_an o')))%nat.
Proof.
  induction ks' as [|k ks' IH] using rev_ind; intros ks q o H L; [rewrite app_nil_r; exists o; auto|].
  destruct (IH ks q o H L) as (o' & A & B). rewrite app_assoc. exact (grown_stays _ _ _ _ A B).
Qed.
Lemma grown_fails st q o npts check : object st q o -> (an_n (so_an o) < b_nspans (an_beam (so_an o)))%nat ->
  snd (exec st (Analyze q npts check)) <> Ok tt.
Proof.
  intros H L. cbn [SessionModel.exec]. unfold on_obj. rewrite H. destruct (analyze _ _ _ _ _ _) as [a [x|e]] eqn:E; [|cbn; discriminate].
  apply analyze_spans in E. unfold seen in E. cbn in E. lia.
Qed.
Lemma added_span ks p L EI et GAv kf ks' npts check :
  snd (exec (run_calls ks) (AddSpan p L EI et GAv kf)) = Ok tt ->
  snd (exec (run_calls (ks ++ AddSpan p L EI et GAv kf :: ks')) (Analyze p npts check)) <> Ok tt.
Proof.
  intros H. assert (X : exists o, object (run_calls (ks ++ [AddSpan p L EI et GAv kf])) p o /\ (an_n (so_an o) < b_nspans (an_beam (so_an o)))%nat).
  { cbn [SessionModel.exec] in H. unfold on_obj in H. destruct (nth_error (st_objs (run_calls ks)) p) as [o|] eqn:Ho; [|discriminate].
    rewrite run_snoc. eexists. split; [apply exec_after; exact Ho|]. rewrite after_n. destruct (measured_run ks p o Ho) as [M1 M2].
    cbn [after]. rewrite Nat.eqb_refl. cbn [with_an so_an with_beam an_beam].
    destruct (add_span (an_beam (so_an o)) L EI et GAv kf) as [b x] eqn:EA. cbn [snd] in H. subst x. cbn [fst].
    unfold add_span in EA. destruct (check_rigid EI L) as [[]|]; [|discriminate].
    destruct (match GAv with Some g => _ | None => _ end) as [[]|]; [|discriminate].
    destruct (coerce et); [|discriminate]. injection EA as <-. cbn [b_nspans]. rewrite app_length. cbn [length]. lia. }
  destruct X as (o & A & B). change (AddSpan p L EI et GAv kf :: ks') with ([AddSpan p L EI et GAv kf] ++ ks'). rewrite app_assoc.
  destruct (grown_stays_run ks' _ p o A B) as (o' & C & D). exact (grown_fails _ _ _ _ _ C D).
Qed.

(** *** Rebuilding *)
Lemma rebuilt ks p o : object (run_calls ks) p o -> complete (seen (run_calls ks) o) ->
  exists a', analysis_init (described (an_beam (seen (run_calls ks) o))) = Ok a' /\
    forall npts check, let st' := run_calls (ks ++ [Analyze p npts check]) in
      let n := effective npts (an_npts (so_an o)) in
      exists o', object st' p o' /\
      match snd (analyze gl ill a' (fun _ => []) (Some n) check) with
      | Ok res => snd (exec (run_calls ks) (Analyze p npts check)) = Ok tt /\ so_res o' = Some res
      | Err e => snd (exec (run_calls ks) (Analyze p npts check)) = Err e /\ so_res o' = so_res o
      end.
Proof.
  intros H C. destruct (good_run gl ill ks p o H) as [_ HH]. assert (HS := healthy_seen gl ill (run_calls ks) o HH).
  destruct (rebuild gl ill _ HS C) as (v & E). eexists. split; [exact E|]. intros npts check. cbv zeta. rewrite run_snoc.
  exists (after (run_calls ks) (Analyze p npts check) p o). split; [apply exec_after, H|]. rewrite after_res, Nat.eqb_refl.
  assert (Q := analyze_anew gl ill (seen (run_calls ks) o) v (fun _ => []) npts check HS).
  change (an_npts (seen (run_calls ks) o)) with (an_npts (so_an o)) in Q. rewrite <- Q.
  cbn [SessionModel.exec]. unfold on_obj. rewrite H. destruct (analyze _ _ _ _ _ _) as [a [x|e]]; cbn [snd]; auto.
Qed.

(** *** Calls that raise *)
Lemma seen_beam st st' o o' : so_lm o' = so_lm o -> rows_of st' (so_lm o) = rows_of st (so_lm o) ->
  with_LM (an_beam (so_an o')) (rows_of st (so_lm o)) = an_beam (seen st o) -> an_beam (seen st' o') = an_beam (seen st o).
Proof. intros E1 E2 E3. unfold seen. cbn [with_beam an_beam]. rewrite E1, E2. exact E3. Qed.

Lemma is_stable_err a e : snd (is_stable gl ill a) = Err e -> fst (is_stable gl ill a) = a.
Proof. unfold is_stable. destruct (rbind _ _) as [[]|x]; [discriminate|]. destruct x; reflexivity. Qed.

Lemma raising st k e q o : good gl ill st -> snd (exec st k) = Err e -> object st q o ->
  (forall p L EI et GAv kf, k = AddSpan p L EI et GAv kf -> exists t, type_code et t) ->
  exists o', object (fst (exec st k)) q o' /\ an_beam (seen (fst (exec st k)) o') = an_beam (seen st o) /\
    an_n (so_an o') = an_n (so_an o) /\ so_lm o' = so_lm o /\ so_res o' = so_res o.
Proof.
  intros G E Hq HT. destruct (G q o Hq) as [QL QH].
  set (P := fun st' o' => object st' q o' /\ an_beam (seen st' o') = an_beam (seen st o) /\
    an_n (so_an o') = an_n (so_an o) /\ so_lm o' = so_lm o /\ so_res o' = so_res o).
  change (exists o', P (fst (exec st k)) o').
  assert (Same : exists o', P st o') by (exists o; repeat split; exact Hq).
  assert (RR : ~ edits st k (so_lm o) -> rows_of (fst (exec st k)) (so_lm o) = rows_of st (so_lm o)) by (intros NE; exact (exec_lists gl ill st k _ G QL NE)).
  assert (AF := exec_after st k q o Hq). assert (AN := after_n st k q o).
  destruct k as [lm|r lm|c lm|p r|p h|p r|p rs|p ds|p L EI et GAv kf|p|p npts check].
  4-11: cbn [SessionModel.exec] in E; unfold on_obj in E; destruct (nth_error (st_objs st) p) as [o1|] eqn:Ho;
        [|replace (fst (SessionModel.exec gl ill st _)) with st; [exact Same|cbn [SessionModel.exec]; unfold on_obj; rewrite Ho; reflexivity]].
  - discriminate.
  - cbn [SessionModel.exec] in *. destruct (Nat.ltb r (length (st_lists st))); [discriminate|exact Same].
  - clear AF AN RR. cbn [SessionModel.exec] in *. destruct lm as [r|].
    + destruct (Nat.ltb r (length (st_lists st))); [|exact Same]. destruct (analysis_init _); [discriminate|exact Same].
    + cbn [new_list] in *. destruct (Nat.ltb _ _); [|exact Same]. destruct (analysis_init _); [discriminate|]. cbn [fst].
      exists o. repeat split; [exact Hq|]. f_equal. exact (seen_new st [] o QL).
  - cbn [SessionModel.exec]. unfold on_obj. rewrite Ho. destruct (Nat.ltb r (length (st_lists st))); [discriminate|exact Same].
  - cbn [SessionModel.exec]. unfold on_obj. rewrite Ho. destruct (helper_row h); [discriminate|exact Same].
  - discriminate.
  - discriminate.
  - exists (after st (SetPrescribed p ds) q o). split; [exact AF|]. specialize (RR (fun x => x)).
    cbn [after] in *. destruct (Nat.eqb_spec q p) as [->|N]; [|repeat split; apply seen_beam; [reflexivity|exact RR|reflexivity]].
    assert (o1 = o) as -> by (unfold object in Hq; congruence).
    assert (ED : fst (set_prescribed (an_beam (so_an o)) ds) = an_beam (so_an o)).
    { unfold set_prescribed in *. destruct (negb _); [reflexivity|discriminate]. }
    rewrite ED in *. repeat split. apply seen_beam; [reflexivity|exact RR|reflexivity].
  - exists (after st (AddSpan p L EI et GAv kf) q o). split; [exact AF|]. specialize (RR (fun x => x)).
    cbn [after] in *. destruct (Nat.eqb_spec q p) as [->|N]; [|repeat split; apply seen_beam; [reflexivity|exact RR|reflexivity]].
    assert (o1 = o) as -> by (unfold object in Hq; congruence).
    assert (ED : fst (add_span (an_beam (so_an o)) L EI et GAv kf) = an_beam (so_an o)).
    { destruct (HT _ _ _ _ _ _ eq_refl) as (t & Ht). apply coerce_iff in Ht. unfold add_span in *.
      destruct (check_rigid EI L) as [[]|]; [|reflexivity]. destruct (match GAv with Some g => _ | None => _ end) as [[]|]; [|reflexivity].
      rewrite Ht in *. discriminate. }
    rewrite ED in *. repeat split. apply seen_beam; [reflexivity|exact RR|reflexivity].
  - exists (after st (IsStable p) q o). split; [exact AF|]. specialize (RR (fun x => x)).
    cbn [after] in *. destruct (Nat.eqb_spec q p) as [->|N]; [|repeat split; apply seen_beam; [reflexivity|exact RR|reflexivity]].
    assert (o1 = o) as -> by (unfold object in Hq; congruence).
    assert (ED : fst (is_stable gl ill (seen st o)) = seen st o).
    { destruct (is_stable gl ill (seen st o)) as [a [x|x]] eqn:EI; [discriminate|]. replace a with (fst (is_stable gl ill (seen st o))) by (rewrite EI; reflexivity).
      cbn [fst]. rewrite EI. cbn [fst]. replace a with (fst (is_stable gl ill (seen st o))) by (rewrite EI; reflexivity). apply (is_stable_err _ x). rewrite EI. reflexivity. }
    rewrite ED in *. repeat split. apply seen_beam; [reflexivity|exact RR|reflexivity].
  - exists (after st (Analyze p npts check) q o). split; [exact AF|]. specialize (RR (fun x => x)). split; [|split; [exact AN|]].
    + apply seen_beam; [cbn [after]; destruct (Nat.eqb q p); reflexivity|exact RR|]. cbn [after]. destruct (Nat.eqb q p); [|reflexivity].
      cbn [so_an]. rewrite analyze_fst_core. destruct (core_fst gl ill (seen st o) npts check) as (-> & _ & _). reflexivity.
    + split; [cbn [after]; destruct (Nat.eqb q p); reflexivity|]. rewrite after_res. destruct (Nat.eqb_spec q p) as [->|N]; [|reflexivity].
      assert (o1 = o) as -> by (unfold object in Hq; congruence). destruct (analyze _ _ _ _ _ _) as [a [x|x]]; [discriminate|reflexivity].
Qed.

(** *** In programs *)
Lemma run_lists ks k r : (r < length (st_lists (run_calls ks)))%nat -> ~ edits (run_calls ks) k r -> rows_of (run_calls (ks ++ [k])) r = rows_of (run_calls ks) r.
Proof. rewrite run_snoc. apply exec_lists, good_run. Qed.
Lemma run_add ks k p o w : object (run_calls ks) p o -> adds k p w ->
  let st := run_calls ks in let st' := run_calls (ks ++ [k]) in
  snd (exec st k) = Ok tt /\ rows_of st' (so_lm o) = rows_of st (so_lm o) ++ [w] /\
  forall q x, object st q x -> object st' q x /\
    (refers st q (so_lm o) -> loads_now st' x = loads_now st x ++ [w]) /\ (~ refers st q (so_lm o) -> loads_now st' x = loads_now st x).
Proof.
  intros H A. cbv zeta. rewrite run_snoc.
  assert (E : exec (run_calls ks) k = (write_list (run_calls ks) (so_lm o) (rows_of (run_calls ks) (so_lm o) ++ [w]), Ok tt)).
  { destruct A as [p h w Hh|p w]; cbn [SessionModel.exec]; unfold on_obj; rewrite H; [rewrite Hh|]; reflexivity. }
  rewrite E. cbn [fst snd]. split; [reflexivity|]. assert (X := exec_add gl ill (run_calls ks) p o w (good_run gl ill ks) H). cbv zeta in X.
  split; [exact (proj2 (proj2 (X p o H)))|]. intros q x Hx. destruct (X q x Hx) as (X1 & X2 & _). split; [exact X1|].
  rewrite X2. destruct (Nat.eqb_spec (so_lm x) (so_lm o)) as [E1|N1]; split; intros R1; try reflexivity.
  - destruct R1. exists x. auto.
  - destruct R1 as (y & A1 & A2). rewrite (object_fun _ _ _ _ A1 Hx) in A2. contradiction.
Qed.
Lemma run_constructed ks c lm q o : object (run_calls (ks ++ [Construct c lm])) q o -> q = length (st_objs (run_calls ks)) ->
  analysis_init (given c (loads_now (run_calls (ks ++ [Construct c lm])) o)) = Ok (so_an o) /\ so_res o = None /\ an_npts (so_an o) = 100%nat /\
  match lm with
  | Some r => so_lm o = r
  | None => loads_now (run_calls (ks ++ [Construct c lm])) o = [] /\ forall p, ~ refers (run_calls ks) p (so_lm o)
  end.
Proof.
  rewrite run_snoc. intros H ->. destruct (exec_object_new _ _ _ _ H) as (c' & lm' & a & EK & _ & _ & E & <- & ER & EL).
  { intros (o' & H'). apply some_lt in H'. lia. }
  injection EK as <- <-. split; [exact E|]. split; [exact ER|]. split.
  - unfold analysis_init in E. apply rbind_ok in E as (b & _ & E). injection E as E. rewrite <- E. reflexivity.
  - destruct lm; [exact EL|]. destruct EL as [EL1 EL2]. split; [exact EL2|]. intros p (x & A & B). destruct (good_run gl ill ks p x A). lia.
Qed.
Lemma run_npts ks k q o o' : object (run_calls ks) q o -> object (run_calls (ks ++ [k])) q o' ->
  an_npts (so_an o') = match k with
    | Analyze p npts _ => if Nat.eqb q p then effective npts (an_npts (so_an o)) else an_npts (so_an o)
    | _ => an_npts (so_an o) end.
Proof. rewrite run_snoc. intros A B. rewrite (exec_after_eq _ _ _ _ _ A B). apply after_npts. Qed.
Lemma run_res ks k q o o' : object (run_calls ks) q o -> object (run_calls (ks ++ [k])) q o' ->
  so_res o' = match k with
    | Analyze p npts check => if Nat.eqb q p then
        match snd (analyze gl ill (seen (run_calls ks) o) (fun _ => []) npts check) with Ok r => Some r | Err _ => so_res o end else so_res o
    | _ => so_res o end.
Proof. rewrite run_snoc. intros A B. rewrite (exec_after_eq _ _ _ _ _ A B). apply after_res. Qed.
Lemma run_raises ks k e q o : snd (exec (run_calls ks) k) = Err e -> object (run_calls ks) q o ->
  (forall p L EI et GAv kf, k = AddSpan p L EI et GAv kf -> exists t, type_code et t) ->
  exists o', object (run_calls (ks ++ [k])) q o' /\ an_beam (seen (run_calls (ks ++ [k])) o') = an_beam (seen (run_calls ks) o) /\
    an_n (so_an o') = an_n (so_an o) /\ so_lm o' = so_lm o /\ so_res o' = so_res o.
Proof. rewrite run_snoc. apply raising, good_run. Qed.
End Q.
