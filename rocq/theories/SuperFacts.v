(** Superposition of analyses (C11, C12). *)
From Coq Require Import Permutation.
From Verif Require Import Base BaseFacts Linalg LinalgFacts SectionModel FlexModel LoadModel LoadSpec
  FoundationModel ElementModel UtilsModel BeamModel AnalysisModel ElementSpec AnalysisSpec LMFacts
  LinearFacts AnalysisFacts AnalysisFacts2.
Open Scope R_scope.

Definition var (b : beam) (lm : list row) (ds : list (option R)) (v : nat) : beam := with_LM (with_D b ds v) lm.

Lemma same_dofs_nth D1 D2 i : same_dofs D1 D2 -> (nth i D1 None = None <-> nth i D2 None = None).
Proof.
  intros H. revert i. induction H as [|x y l1 l2 H _ IH]; intros i; [destruct i; tauto|].
  destruct i; cbn; auto.
Qed.
Lemma same_dofs_len D1 D2 : same_dofs D1 D2 -> length D1 = length D2.
Proof. induction 1; cbn; congruence. Qed.
Lemma same_dofs_sym D1 D2 : same_dofs D1 D2 -> same_dofs D2 D1.
Proof. induction 1; constructor; tauto. Qed.
Lemma same_dofs_refl D : same_dofs D D.
Proof. induction D; constructor; tauto. Qed.
Lemma same_dofs_trans D1 D2 D3 : same_dofs D1 D2 -> same_dofs D2 D3 -> same_dofs D1 D3.
Proof.
  intros H. revert D3. induction H; intros D3 H'; inversion H'; subst; constructor; [tauto|]. apply IHForall2. assumption.
Qed.

Section G.
Variable gl : nat -> list (R * R).
Variable ill : nat -> mat -> bool.

Lemma var_bcv b l1 D1 v1 l2 D2 v2 i : same_dofs D1 D2 ->
  (bcv (var b l1 D1 v1) i = None <-> bcv (var b l2 D2 v2) i = None).
Proof.
  intros H. unfold bcv, prescribed, restraint. cbn [var with_LM with_D b_D b_R].
  assert (X := same_dofs_nth _ _ i H).
  destruct (nth i D1 None), (nth i D2 None); destruct (Rlt_dec (nth i (b_R b) 0) 0);
    split; intros; try congruence; destruct X as [X1 X2]; try (specialize (X1 eq_refl)); try (specialize (X2 eq_refl)); congruence.
Qed.

Lemma var_Kcl b lm D v kb n : Kcl kb (var b lm D v) n = Kcl kb b n.
Proof. reflexivity. Qed.

Lemma var_kernel b l1 D1 v1 l2 D2 v2 n kb y : same_dofs D1 D2 ->
  kernel (var b l1 D1 v1) n kb y -> kernel (var b l2 D2 v2) n kb y.
Proof.
  intros H K i Hi. specialize (K i Hi). assert (X := var_bcv b l1 D1 v1 l2 D2 v2 i H).
  rewrite var_Kcl in *.
  destruct (bcv (var b l1 D1 v1) i), (bcv (var b l2 D2 v2) i); try exact K;
    destruct X as [X1 X2]; exfalso; [specialize (X2 eq_refl)|specialize (X1 eq_refl)]; congruence.
Qed.

Lemma free_dofs_same rs D1 D2 l : same_dofs D1 D2 -> free_dofs rs D1 l = free_dofs rs D2 l.
Proof.
  intros H. induction l as [|i l IH]; cbn [free_dofs]; [reflexivity|].
  destruct (get rs i) as [r|]; cbn [rbind]; [|reflexivity].
  assert (E : (if Rltb r 0 then Ok true else do d <- get D1 i; Ok (match d with Some _ => true | None => false end))
            = (if Rltb r 0 then Ok true else do d <- get D2 i; Ok (match d with Some _ => true | None => false end))).
  { destruct (Rltb r 0); [reflexivity|]. assert (L := same_dofs_len _ _ H). assert (X := same_dofs_nth _ _ i H).
    destruct (get D1 i) as [d1|e1] eqn:E1, (get D2 i) as [d2|e2] eqn:E2; cbn [rbind].
    - rewrite (get_nth _ _ _ None E1), (get_nth _ _ _ None E2) in X. destruct X as [X1 X2].
      destruct d1, d2; try reflexivity; [specialize (X2 eq_refl)|specialize (X1 eq_refl)]; discriminate.
    - apply get_ok in E1. assert (i < length D1)%nat by (apply nth_error_Some; congruence).
      destruct (get_lt D2 i) as (x & Hx); [lia|]. congruence.
    - apply get_ok in E2. assert (i < length D2)%nat by (apply nth_error_Some; congruence).
      destruct (get_lt D1 i) as (x & Hx); [lia|]. congruence.
    - unfold get in E1, E2. destruct (nth_error D1 i), (nth_error D2 i); congruence. }
  rewrite E, IH. reflexivity.
Qed.

Lemma var_passes b l1 D1 v1 l2 D2 v2 n : same_dofs D1 D2 ->
  passes gl ill (var b l1 D1 v1) n -> passes gl ill (var b l2 D2 v2) n.
Proof.
  intros H (k & E & C). exists k. split; [exact E|]. unfold check_stability in *.
  cbn [var with_LM with_D b_D b_R] in *. rewrite <- (free_dofs_same _ D1 D2 _ H). exact C.
Qed.

Lemma var_system b lm D v n kb rf :
  (forall m, (m < n)%nat -> exists mb, member_at b m = Ok mb /\ span_k gl mb = Ok (kb m)) ->
  (exists ls, parsed_loads (with_LM b lm) = Ok ls /\
    forall m, (m < n)%nat -> exists mb, member_at b m = Ok mb /\ span_ref gl mb (loads_of ls m) = Ok (rf m)) ->
  system gl (var b lm D v) n kb rf.
Proof. intros H1 H2. constructor; assumption. Qed.

Definition loads_vec (b : beam) (n : nat) (lm : list row) (rf : nat -> vec) : Prop :=
  exists ls, parsed_loads (with_LM b lm) = Ok ls /\
    forall m, (m < n)%nat -> exists mb, member_at b m = Ok mb /\ span_ref gl mb (loads_of ls m) = Ok (rf m).

(** Success carries over to other loads and settlements on the same DOFs. *)
Lemma var_total a l1 D1 l3 D3 v check kb rf1 rf3 o1 :
  snd (analyze_core gl ill (with_beam a (var (an_beam a) l1 D1 v)) None check) = Ok o1 ->
  solved gl (var (an_beam a) l1 D1 v) (an_n a) kb rf1 o1 ->
  same_dofs D1 D3 -> loads_vec (an_beam a) (an_n a) l3 rf3 ->
  (forall i, (i < 2 * (an_n a + 1))%nat -> ~ conflict (var (an_beam a) l3 D3 v) (fcl rf3 (an_n a)) i) ->
  exists o3, snd (analyze_core gl ill (with_beam a (var (an_beam a) l3 D3 v)) None check) = Ok o3 /\
    solved gl (var (an_beam a) l3 D3 v) (an_n a) kb rf3 o3.
Proof.
  intros E S HD HL HC.
  destruct (analyze_core gl ill (with_beam a (var (an_beam a) l1 D1 v)) None check) as [a' r] eqn:EE. cbn in E. subst r.
  destruct (core_inv _ _ _ _ _ _ _ EE) as [_ HP]. cbn [with_beam an_beam an_n] in HP.
  assert (SY : system gl (var (an_beam a) l3 D3 v) (an_n a) kb rf3).
  { apply var_system; [exact (sy_k _ _ _ _ _ (sv_sys _ _ _ _ _ _ S))|exact HL]. }
  destruct (core_total gl ill (with_beam a (var (an_beam a) l3 D3 v)) check kb rf3) as (o3 & E3); cbn [with_beam an_beam an_n].
  - exact SY.
  - exact (sv_R _ _ _ _ _ _ S).
  - assert (X := sv_D _ _ _ _ _ _ S). cbn [var with_LM with_D b_D] in *. rewrite <- (same_dofs_len _ _ HD). exact X.
  - exact HC.
  - intros y Hy. apply (sv_ker _ _ _ _ _ _ S). eapply var_kernel; [apply same_dofs_sym; exact HD|exact Hy].
  - destruct HP as [HP|HP]; [left; exact HP|right]. eapply var_passes; eassumption.
  - exists o3. split; [exact E3|].
    destruct (analyze_core gl ill (with_beam a (var (an_beam a) l3 D3 v)) None check) as [a3 r3] eqn:EE3. cbn in E3. subst r3.
    destruct (core_inv _ _ _ _ _ _ _ EE3) as [(kb' & rf' & S') _]. cbn [with_beam an_beam an_n] in S'.
    assert (U := system_unique _ _ _ _ _ _ _ SY (sv_sys _ _ _ _ _ _ S')).
    set (b := var (an_beam a) l3 D3 v) in *. set (n := an_n a) in *.
    assert (EK : forall i j, Kcl kb' b n i j = Kcl kb b n i j).
    { intros. unfold Kcl. f_equal. apply rsum_ext. intros m Hm. rewrite (proj1 (U m Hm)). reflexivity. }
    assert (EF : forall i, fcl rf' n i = fcl rf3 n i).
    { intros. unfold fcl. f_equal. apply rsum_ext. intros m Hm. rewrite (proj2 (U m Hm)). reflexivity. }
    assert (EM : forall y i, mulmv (2 * (n + 1)) (Kcl kb' b n) y i = mulmv (2 * (n + 1)) (Kcl kb b n) y i).
    { intros. apply mulmv_ext; auto. }
    constructor.
    + exact SY.
    + exact (sv_R _ _ _ _ _ _ S').
    + exact (sv_D _ _ _ _ _ _ S').
    + exact HC.
    + intros i Hi. assert (X := sv_eq _ _ _ _ _ _ S' i Hi). rewrite EM, EF in X. exact X.
    + rewrite (sv_oR _ _ _ _ _ _ S'). apply map_ext. intros i. rewrite EM, EF. reflexivity.
    + exact (sv_oRs _ _ _ _ _ _ S').
    + intros y Hy. apply (sv_ker _ _ _ _ _ _ S'). intros i Hi. specialize (Hy i Hi). rewrite EM. exact Hy.
Qed.

Lemma nth_map_0 {X} (g : X -> R) l i d : (i < length l)%nat -> nth i (map g l) 0 = g (nth i l d).
Proof. intros H. rewrite (nth_indep _ 0 (g d)) by (rewrite map_length; exact H). apply map_nth. Qed.

Lemma lcomb_map c1 c2 (g1 g2 g : nat -> R) l : (forall i, In i l -> g i = c1 * g1 i + c2 * g2 i) ->
  lcomb c1 (map g1 l) c2 (map g2 l) (map g l).
Proof.
  intros H. split; [now rewrite !map_length|]. split; [now rewrite !map_length|]. intros i.
  destruct (Nat.lt_ge_cases i (length l)) as [Hi|Hi].
  - rewrite !(nth_map_0 _ l i 0%nat) by exact Hi. apply H. apply nth_In. exact Hi.
  - rewrite !nth_overflow by (rewrite map_length; exact Hi). ring.
Qed.

Lemma mulmv_comb N k d d1 d2 c1 c2 i : (forall j, (j < N)%nat -> d j = c1 * d1 j + c2 * d2 j) ->
  mulmv N k d i = c1 * mulmv N k d1 i + c2 * mulmv N k d2 i.
Proof.
  intros H. unfold mulmv. rewrite <- !rsum_scal, <- rsum_plus. apply rsum_ext. intros j Hj. rewrite H by exact Hj. ring.
Qed.

Lemma fcl_comb n rf rf1 rf2 c1 c2 i : (forall m p, (m < n)%nat -> rf m p = c1 * rf1 m p + c2 * rf2 m p) ->
  fcl rf n i = c1 * fcl rf1 n i + c2 * fcl rf2 n i.
Proof.
  intros H. unfold fcl.
  rewrite (rsum_ext n (fun m => scat (2 * m) (rf m) i)
    (fun m => c1 * scat (2 * m) (rf1 m) i + c2 * scat (2 * m) (rf2 m) i)).
  - rewrite rsum_plus, !rsum_scal. ring.
  - intros m Hm. unfold scat. destruct (_ && _); [|ring]. apply H. exact Hm.
Qed.

Lemma var_comb b n kb l1 D1 v1 rf1 o1 l2 D2 v2 rf2 o2 l3 D3 v3 rf3 o3 c1 c2 :
  solved gl (var b l1 D1 v1) n kb rf1 o1 -> solved gl (var b l2 D2 v2) n kb rf2 o2 ->
  solved gl (var b l3 D3 v3) n kb rf3 o3 ->
  settle_comb c1 D1 c2 D2 D3 ->
  (forall m p, (m < n)%nat -> rf3 m p = c1 * rf1 m p + c2 * rf2 m p) ->
  combination (2 * (n + 1)) c1 o1 c2 o2 o3.
Proof.
  intros S1 S2 S3 (P1 & P2 & HD) HF. set (N := (2 * (n + 1))%nat).
  assert (F : forall i, fcl rf3 n i = c1 * fcl rf1 n i + c2 * fcl rf2 n i) by (intros; apply fcl_comb; exact HF).
  assert (D : forall i, (i < N)%nat -> o_d o3 i = c1 * o_d o1 i + c2 * o_d o2 i).
  { intros i Hi. symmetry.
    apply (solved_unique gl _ n kb rf3 o3 (fun i => c1 * o_d o1 i + c2 * o_d o2 i) S3); [|exact Hi].
    clear i Hi. intros i Hi. assert (E1 := sv_eq _ _ _ _ _ _ S1 i Hi). assert (E2 := sv_eq _ _ _ _ _ _ S2 i Hi).
    rewrite var_Kcl in *. rewrite (mulmv_comb _ _ _ (o_d o1) (o_d o2) c1 c2) by reflexivity.
    assert (X1 := same_dofs_nth _ _ i P1). assert (X2 := same_dofs_nth _ _ i P2). specialize (HD i).
    unfold bcv, prescribed, restraint in *. cbn [var with_LM with_D b_D b_R] in *.
    destruct (nth i D1 None) as [x|], (nth i D2 None) as [y|], (nth i D3 None) as [z|];
      try (destruct X1 as [X1a X1b], X2 as [X2a X2b]; exfalso;
           (try (specialize (X1a eq_refl))); (try (specialize (X1b eq_refl)));
           (try (specialize (X2a eq_refl))); (try (specialize (X2b eq_refl))); congruence).
    - rewrite E1, E2. symmetry. apply HD; reflexivity.
    - destruct (Rlt_dec (nth i (b_R b) 0) 0).
      + rewrite E1, E2. ring.
      + rewrite F, E1, E2. reflexivity. }
  split; [exact D|]. split.
  - rewrite (sv_oR _ _ _ _ _ _ S1), (sv_oR _ _ _ _ _ _ S2), (sv_oR _ _ _ _ _ _ S3).
    apply lcomb_map. intros i Hi. rewrite !var_Kcl. fold N. rewrite (mulmv_comb _ _ _ _ _ _ _ _ D), F. ring.
  - rewrite (sv_oRs _ _ _ _ _ _ S1), (sv_oRs _ _ _ _ _ _ S2), (sv_oRs _ _ _ _ _ _ S3).
    apply lcomb_map. intros i Hi. apply filter_In in Hi as [Hi _]. apply in_seq in Hi.
    change (restraint (var b l3 D3 v3) i) with (restraint b i).
    change (restraint (var b l1 D1 v1) i) with (restraint b i).
    change (restraint (var b l2 D2 v2) i) with (restraint b i). rewrite D by (unfold N; lia). ring.
Qed.

Lemma var_member_forces b n kb lm D v rf o m : solved gl (var b lm D v) n kb rf o -> (m < n)%nat ->
  member_forces gl (set_loads b lm) (o_d o) m = Ok (fun p => mulmv 4 (kb m) (fun q => o_d o (2 * m + q)%nat) p + rf m p).
Proof.
  intros S Hm. destruct (sv_sys _ _ _ _ _ _ S) as [H1 (ls & Hl & H2)].
  destruct (H1 m Hm) as (mb & E1 & E2), (H2 m Hm) as (mb' & E1' & E2').
  replace mb' with mb in * by congruence. unfold member_forces.
  change (parsed_loads (set_loads b lm)) with (parsed_loads (var b lm D v)). rewrite Hl. cbn [rbind].
  change (member_at (set_loads b lm) m) with (member_at (var b lm D v) m). rewrite E1. cbn [rbind].
  rewrite E2. cbn [rbind]. rewrite E2'. reflexivity.
Qed.

Lemma var_ends_comb b n kb l1 D1 v1 rf1 o1 l2 D2 v2 rf2 o2 l3 D3 v3 rf3 o3 c1 c2 m :
  solved gl (var b l1 D1 v1) n kb rf1 o1 -> solved gl (var b l2 D2 v2) n kb rf2 o2 ->
  solved gl (var b l3 D3 v3) n kb rf3 o3 ->
  combination (2 * (n + 1)) c1 o1 c2 o2 o3 ->
  (forall m p, (m < n)%nat -> rf3 m p = c1 * rf1 m p + c2 * rf2 m p) -> (m < n)%nat ->
  ends_comb c1 (member_forces gl (set_loads b l1) (o_d o1) m) c2 (member_forces gl (set_loads b l2) (o_d o2) m)
    (member_forces gl (set_loads b l3) (o_d o3) m).
Proof.
  intros S1 S2 S3 (D & _) HF Hm. do 3 eexists.
  split; [eapply var_member_forces; eassumption|]. split; [eapply var_member_forces; eassumption|].
  split; [eapply var_member_forces; eassumption|]. intros p _. cbn beta.
  rewrite (mulmv_comb 4 (kb m) _ (fun q => o_d o1 (2 * m + q)%nat) (fun q => o_d o2 (2 * m + q)%nat) c1 c2).
  - rewrite HF by exact Hm. ring.
  - intros j Hj. apply D. lia.
Qed.

(** ** Load vectors of combined load matrices *)
Lemma parsed_app b A B pA pB :
  parsed_loads (with_LM b A) = Ok pA -> parsed_loads (with_LM b B) = Ok pB ->
  parsed_loads (with_LM b (add_LM A B)) = Ok (pA ++ pB).
Proof.
  unfold parsed_loads. cbn [with_LM b_LM]. intros HA HB.
  apply rbind_ok in HA as (a & EA & HA). apply rbind_ok in HB as (c & EB & HB).
  rewrite (parse_LM_app _ _ _ _ EA EB). cbn [rbind].
  change (attach_EI (with_LM b (add_LM A B))) with (attach_EI (with_LM b A)).
  rewrite mapM_app, HA. cbn [rbind].
  change (attach_EI (with_LM b A)) with (attach_EI (with_LM b B)). rewrite HB. reflexivity.
Qed.

Lemma loads_of_app p q m : loads_of (p ++ q) m = loads_of p m ++ loads_of q m.
Proof. unfold loads_of. rewrite filter_app, map_app. reflexivity. Qed.

Lemma loads_vec_app b n A B rA rB : loads_vec b n A rA -> loads_vec b n B rB ->
  exists r, loads_vec b n (add_LM A B) r /\ forall m p, (m < n)%nat -> r m p = 1 * rA m p + 1 * rB m p.
Proof.
  intros (pA & EA & HA) (pB & EB & HB).
  set (r := fun m => match member_at b m with Ok mb => match span_ref gl mb (loads_of (pA ++ pB) m) with Ok v => v | Err _ => fun _ => 0 end | Err _ => fun _ => 0 end).
  assert (X : forall m, (m < n)%nat -> exists mb, member_at b m = Ok mb /\
     span_ref gl mb (loads_of (pA ++ pB) m) = Ok (r m) /\ forall p, r m p = rA m p + rB m p).
  { intros m Hm. destruct (HA m Hm) as (mb & E1 & E2), (HB m Hm) as (mb' & E1' & E2').
    replace mb' with mb in * by congruence. exists mb. split; [exact E1|].
    unfold r. rewrite E1, loads_of_app. destruct (span_ref_app gl mb _ _ _ _ E2 E2') as (v & -> & E). auto. }
  exists r. split.
  - exists (pA ++ pB). split; [apply parsed_app; assumption|]. intros m Hm.
    destruct (X m Hm) as (mb & H1 & H2 & _). eauto.
  - intros m p Hm. destruct (X m Hm) as (mb & _ & _ & E). rewrite E. ring.
Qed.

Lemma attach_scale b g p q : attach_EI b p = Ok q -> attach_EI b (scale_pl g p) = Ok (scale_pl g q).
Proof.
  destruct p as [s ld]. destruct ld; cbn; intros H; try (injection H as <-; reflexivity).
  destruct (py_index _ _) as [i|]; cbn in *; [|discriminate].
  destruct (get _ i) as [e|]; cbn in *; [|discriminate]. injection H as <-. reflexivity.
Qed.

Lemma loads_of_scale g ps m : loads_of (map (scale_pl g) ps) m = map (scale_load g) (loads_of ps m).
Proof.
  unfold loads_of. induction ps as [|[s l] ps IH]; [reflexivity|]. cbn [map filter scale_pl fst snd].
  destruct (Z.eqb s (Z.of_nat m)); cbn [map snd]; rewrite IH; reflexivity.
Qed.

Lemma loads_vec_scale b n A A' g rA : Forall wf_row A -> factor_LM A g = Ok A' -> loads_vec b n A rA ->
  exists r, loads_vec b n A' r /\ forall m p, (m < n)%nat -> r m p = g * rA m p + 0 * rA m p.
Proof.
  intros W F (pA & EA & HA). unfold parsed_loads in EA. cbn [with_LM b_LM] in EA.
  apply rbind_ok in EA as (ps & E1 & E2).
  destruct (factor_parse A g W) as (ps' & A2 & P1 & F2 & _ & P2 & _).
  replace ps' with ps in * by congruence. replace A2 with A' in * by congruence.
  assert (EA' : parsed_loads (with_LM b A') = Ok (map (scale_pl g) pA)).
  { unfold parsed_loads. cbn [with_LM b_LM]. rewrite P2. cbn [rbind].
    change (attach_EI (with_LM b A')) with (attach_EI b). change (attach_EI (with_LM b A)) with (attach_EI b) in E2.
    clear - E2. revert pA E2. induction ps as [|p ps IH]; intros pA E2; cbn [mapM map] in *.
    - injection E2 as <-. reflexivity.
    - apply rbind_ok in E2 as (q & Hq & E2). apply rbind_ok in E2 as (qs & Hqs & E2). injection E2 as <-.
      rewrite (attach_scale _ _ _ _ Hq). cbn [rbind]. rewrite (IH _ Hqs). reflexivity. }
  set (r := fun m => match member_at b m with Ok mb => match span_ref gl mb (loads_of (map (scale_pl g) pA) m) with Ok v => v | Err _ => fun _ => 0 end | Err _ => fun _ => 0 end).
  assert (X : forall m, (m < n)%nat -> exists mb, member_at b m = Ok mb /\
     span_ref gl mb (loads_of (map (scale_pl g) pA) m) = Ok (r m) /\ forall p, r m p = g * rA m p).
  { intros m Hm. destruct (HA m Hm) as (mb & H1 & H2). exists mb. split; [exact H1|].
    unfold r. rewrite H1, loads_of_scale. destruct (span_ref_scale gl g mb _ _ H2) as (v & -> & E). auto. }
  exists r. split.
  - exists (map (scale_pl g) pA). split; [exact EA'|]. intros m Hm. destruct (X m Hm) as (mb & H1 & H2 & _). eauto.
  - intros m p Hm. destruct (X m Hm) as (mb & _ & _ & E). rewrite E. ring.
Qed.

Lemma mapM_perm {X Y} (f : X -> result Y) l l' : Permutation l l' -> forall r, mapM f l = Ok r ->
  exists r', mapM f l' = Ok r' /\ Permutation r r'.
Proof.
  induction 1 as [|x l l' P IH|x y l|l1 l2 l3 P1 IH1 P2 IH2]; intros r H.
  - exists r. split; [exact H|]. apply Permutation_refl.
  - cbn [mapM] in *. apply rbind_ok in H as (a & Ha & H). apply rbind_ok in H as (t & Ht & H). injection H as <-.
    rewrite Ha. cbn [rbind]. destruct (IH _ Ht) as (t' & -> & P'). cbn [rbind]. eexists. split; [reflexivity|]. constructor. exact P'.
  - cbn [mapM] in *. apply rbind_ok in H as (a & Ha & H). apply rbind_ok in H as (t & Ht & H). injection H as <-.
    apply rbind_ok in Ht as (c & Hc & Ht). apply rbind_ok in Ht as (u & Hu & Ht). injection Ht as <-.
    rewrite Hc. cbn [rbind]. rewrite Ha. cbn [rbind]. rewrite Hu. cbn [rbind]. eexists. split; [reflexivity|]. constructor.
  - destruct (IH1 _ H) as (r' & H' & Q1). destruct (IH2 _ H') as (r'' & H'' & Q2).
    exists r''. split; [exact H''|]. eapply Permutation_trans; eassumption.
Qed.

Lemma perm_concat {X} (l l' : list (list X)) : Permutation l l' -> Permutation (concat l) (concat l').
Proof.
  induction 1; cbn.
  - apply Permutation_refl.
  - apply Permutation_app_head. assumption.
  - rewrite !app_assoc. apply Permutation_app_tail. apply Permutation_app_comm.
  - eapply Permutation_trans; eassumption.
Qed.

Lemma perm_filter {X} (P : X -> bool) l l' : Permutation l l' -> Permutation (filter P l) (filter P l').
Proof.
  induction 1 as [|x l l' H IH|x y l|l1 l2 l3 H1 IH1 H2 IH2]; cbn.
  - constructor.
  - destruct (P x); [constructor|]; exact IH.
  - destruct (P x), (P y); try apply Permutation_refl. constructor.
  - eapply Permutation_trans; eassumption.
Qed.

Lemma loads_vec_perm b n A A' rA : Permutation A A' -> loads_vec b n A rA ->
  exists r, loads_vec b n A' r /\ forall m p, (m < n)%nat -> r m p = 1 * rA m p + 0 * rA m p.
Proof.
  intros HP (pA & EA & HA). unfold parsed_loads in EA. cbn [with_LM b_LM] in EA.
  apply rbind_ok in EA as (ps & E1 & E2). unfold parse_LM in E1.
  destruct (forallb is_list_row A) eqn:FA; cbn [negb] in E1; [|discriminate].
  apply rbind_ok in E1 as (cs & E1 & E3). injection E3 as <-.
  destruct (mapM_perm _ _ _ HP _ E1) as (cs' & E1' & Q1).
  destruct (mapM_perm _ _ _ (perm_concat _ _ Q1) _ E2) as (pA' & E2' & Q2).
  assert (EA' : parsed_loads (with_LM b A') = Ok pA').
  { unfold parsed_loads, parse_LM. cbn [with_LM b_LM].
    replace (forallb is_list_row A') with true.
    - cbn [negb]. rewrite E1'. cbn [rbind]. exact E2'.
    - symmetry. apply forallb_forall. intros x Hx. apply (proj1 (forallb_forall _ A) FA).
      apply (Permutation_in x (Permutation_sym HP)). exact Hx. }
  set (r := fun m => match member_at b m with Ok mb => match span_ref gl mb (loads_of pA' m) with Ok v => v | Err _ => fun _ => 0 end | Err _ => fun _ => 0 end).
  assert (X : forall m, (m < n)%nat -> exists mb, member_at b m = Ok mb /\
     span_ref gl mb (loads_of pA' m) = Ok (r m) /\ forall p, r m p = rA m p).
  { intros m Hm. destruct (HA m Hm) as (mb & H1 & H2). exists mb. split; [exact H1|].
    unfold r. rewrite H1.
    destruct (span_ref_perm gl mb (loads_of pA m) (loads_of pA' m)) with (v := rA m) as (v & -> & E); auto.
    unfold loads_of. apply Permutation_map, perm_filter, Q2. }
  exists r. split.
  - exists pA'. split; [exact EA'|]. intros m Hm. destruct (X m Hm) as (mb & H1 & H2 & _). eauto.
  - intros m p Hm. destruct (X m Hm) as (mb & _ & _ & E). rewrite E. ring.
Qed.

Lemma loads_vec_nil b n A rA : loads_vec b n A rA ->
  exists r, loads_vec b n [] r /\ forall m p, (m < n)%nat -> r m p = 0.
Proof.
  intros (pA & EA & HA).
  set (r := fun m => match member_at b m with Ok mb => match span_ref gl mb [] with Ok v => v | Err _ => fun _ => 0 end | Err _ => fun _ => 0 end).
  assert (X : forall m, (m < n)%nat -> exists mb, member_at b m = Ok mb /\
     span_ref gl mb [] = Ok (r m) /\ forall p, r m p = 0).
  { intros m Hm. destruct (HA m Hm) as (mb & H1 & H2). exists mb. split; [exact H1|].
    unfold r. rewrite H1.
    destruct (span_ref_app_ok gl mb [] (loads_of pA m) _ H2) as (v1 & v2 & -> & E2 & E).
    split; [reflexivity|]. intros p. specialize (E p). replace v2 with (rA m) in E by congruence. lra. }
  exists r. split.
  - exists []. split; [reflexivity|]. intros m Hm. destruct (X m Hm) as (mb & H1 & H2 & _). eauto.
  - intros m p Hm. destruct (X m Hm) as (mb & _ & _ & E). apply E.
Qed.

(** ** Theorems *)
Lemma var_of_loads b lm : set_loads b lm = var b lm (b_D b) (b_version b).
Proof. destruct b; reflexivity. Qed.

Lemma run_solved a lm check o : run gl ill a lm check = Ok o ->
  exists kb rf, solved gl (var (an_beam a) lm (b_D (an_beam a)) (b_version (an_beam a))) (an_n a) kb rf o /\
    loads_vec (an_beam a) (an_n a) lm rf.
Proof.
  unfold run. intros H. destruct (analyze_core _ _ _ _ _) as [a' r] eqn:E. cbn in H. subst r.
  destruct (core_inv _ _ _ _ _ _ _ E) as [(kb & rf & S) _]. cbn [with_beam an_beam an_n] in S.
  rewrite var_of_loads in S. exists kb, rf. split; [exact S|].
  exact (sy_r _ _ _ _ _ (sv_sys _ _ _ _ _ _ S)).
Qed.

Lemma no_settle_comb b c1 c2 : no_settlement b -> settle_comb c1 (b_D b) c2 (b_D b) (b_D b).
Proof.
  intros H. split; [apply same_dofs_refl|]. split; [apply same_dofs_refl|].
  intros i x y z E1 E2 E3. destruct (H i) as [E|E]; unfold prescribed in E; rewrite E in *; [discriminate|].
  injection E1 as <-. injection E2 as <-. injection E3 as <-. ring.
Qed.

Lemma solved_kb b n l1 D1 v1 kb1 rf1 o1 l2 D2 v2 kb2 rf2 o2 :
  solved gl (var b l1 D1 v1) n kb1 rf1 o1 -> solved gl (var b l2 D2 v2) n kb2 rf2 o2 ->
  forall m, (m < n)%nat -> kb1 m = kb2 m.
Proof.
  intros S1 S2 m Hm. destruct (sy_k _ _ _ _ _ (sv_sys _ _ _ _ _ _ S1) m Hm) as (mb & E1 & E2).
  destruct (sy_k _ _ _ _ _ (sv_sys _ _ _ _ _ _ S2) m Hm) as (mb' & E1' & E2').
  change (member_at (var b l1 D1 v1) m) with (member_at b m) in E1.
  change (member_at (var b l2 D2 v2) m) with (member_at b m) in E1'. congruence.
Qed.

Lemma solved_swap b n kb kb' rf o : (forall m, (m < n)%nat -> kb m = kb' m) -> solved gl b n kb rf o -> solved gl b n kb' rf o.
Proof.
  intros U S.
  assert (EK : forall i j, Kcl kb' b n i j = Kcl kb b n i j).
  { intros. unfold Kcl. f_equal. apply rsum_ext. intros m Hm. rewrite (U m Hm). reflexivity. }
  assert (EM : forall y i, mulmv (2 * (n + 1)) (Kcl kb' b n) y i = mulmv (2 * (n + 1)) (Kcl kb b n) y i).
  { intros. apply mulmv_ext; auto. }
  destruct S as [S1 S2 S3 S4 S5 S6 S7 S8]. constructor; auto.
  - destruct S1 as [A B]. constructor; [|exact B]. intros m Hm. rewrite <- (U m Hm). apply A. exact Hm.
  - intros i Hi. rewrite EM. apply S5. exact Hi.
  - rewrite S6. apply map_ext. intros i. rewrite EM. reflexivity.
  - intros y Hy. apply S8. intros i Hi. rewrite <- EM. apply Hy. exact Hi.
Qed.

Lemma conflict_comb b l1 D1 l2 D2 l3 D3 v1 v2 v3 n rf1 rf2 rf3 c1 c2 i : same_dofs D1 D3 -> same_dofs D2 D3 ->
  (forall m p, (m < n)%nat -> rf3 m p = c1 * rf1 m p + c2 * rf2 m p) ->
  ~ conflict (var b l1 D1 v1) (fcl rf1 n) i -> ~ conflict (var b l2 D2 v2) (fcl rf2 n) i ->
  ~ conflict (var b l3 D3 v3) (fcl rf3 n) i.
Proof.
  intros P1 P2 HF C1 C2 (A & B & C). change (restraint (var b l3 D3 v3) i) with (nth i (b_R b) 0) in A.
  change (prescribed (var b l3 D3 v3) i) with (nth i D3 None) in B.
  rewrite (fcl_comb n rf3 rf1 rf2 c1 c2 i HF) in C.
  assert (Z1 : fcl rf1 n i = 0).
  { destruct (Req_EM_T (fcl rf1 n i) 0) as [|Z]; [assumption|]. exfalso. apply C1. split; [exact A|]. split; [|exact Z].
    change (prescribed (var b l1 D1 v1) i) with (nth i D1 None). intros E. apply B. apply (same_dofs_nth _ _ i P1). exact E. }
  assert (Z2 : fcl rf2 n i = 0).
  { destruct (Req_EM_T (fcl rf2 n i) 0) as [|Z]; [assumption|]. exfalso. apply C2. split; [exact A|]. split; [|exact Z].
    change (prescribed (var b l2 D2 v2) i) with (nth i D2 None). intros E. apply B. apply (same_dofs_nth _ _ i P2). exact E. }
  apply C. rewrite Z1, Z2. ring.
Qed.

(** Combination of two runs, given the load vector of the combined matrix. *)
Lemma comb_general a l1 D1 l2 D2 l3 D3 v check kb rf1 rf2 rf3 o1 o2 c1 c2 :
  snd (analyze_core gl ill (with_beam a (var (an_beam a) l1 D1 v)) None check) = Ok o1 ->
  solved gl (var (an_beam a) l1 D1 v) (an_n a) kb rf1 o1 ->
  solved gl (var (an_beam a) l2 D2 v) (an_n a) kb rf2 o2 ->
  settle_comb c1 D1 c2 D2 D3 -> loads_vec (an_beam a) (an_n a) l3 rf3 ->
  (forall m p, (m < an_n a)%nat -> rf3 m p = c1 * rf1 m p + c2 * rf2 m p) ->
  exists o3, snd (analyze_core gl ill (with_beam a (var (an_beam a) l3 D3 v)) None check) = Ok o3 /\
    combination (an_ndof a) c1 o1 c2 o2 o3 /\
    forall m, (m < an_n a)%nat -> ends_comb c1 (member_forces gl (set_loads (an_beam a) l1) (o_d o1) m)
      c2 (member_forces gl (set_loads (an_beam a) l2) (o_d o2) m) (member_forces gl (set_loads (an_beam a) l3) (o_d o3) m).
Proof.
  intros E1 S1 S2 HD HL HF.
  destruct (var_total a l1 D1 l3 D3 v check kb rf1 rf3 o1 E1 S1 (proj1 HD) HL) as (o3 & E3 & S3).
  { intros i Hi. apply (conflict_comb _ l1 D1 l2 D2 l3 D3 v v v _ rf1 rf2 rf3 c1 c2 i (proj1 HD) (proj1 (proj2 HD)) HF).
    - exact (sv_valid _ _ _ _ _ _ S1 i Hi).
    - exact (sv_valid _ _ _ _ _ _ S2 i Hi). }
  exists o3. split; [exact E3|].
  assert (C := var_comb _ _ _ _ _ _ _ _ _ _ _ _ _ _ _ _ _ _ _ _ S1 S2 S3 HD HF). split; [exact C|].
  intros m Hm. exact (var_ends_comb _ _ _ _ _ _ _ _ _ _ _ _ _ _ _ _ _ _ _ _ m S1 S2 S3 C HF Hm).
Qed.

Lemma run_eq a lm check : run gl ill a lm check =
  snd (analyze_core gl ill (with_beam a (var (an_beam a) lm (b_D (an_beam a)) (b_version (an_beam a)))) None check).
Proof. unfold run. rewrite var_of_loads. reflexivity. Qed.

Lemma run_add a A B check oA oB : no_settlement (an_beam a) ->
  run gl ill a A check = Ok oA -> run gl ill a B check = Ok oB ->
  exists o, run gl ill a (add_LM A B) check = Ok o /\ combination (an_ndof a) 1 oA 1 oB o /\
    forall m, (m < an_n a)%nat -> ends_comb 1 (member_forces gl (set_loads (an_beam a) A) (o_d oA) m)
      1 (member_forces gl (set_loads (an_beam a) B) (o_d oB) m)
      (member_forces gl (set_loads (an_beam a) (add_LM A B)) (o_d o) m).
Proof.
  intros ND HA HB. destruct (run_solved _ _ _ _ HA) as (kA & rA & SA & LA).
  destruct (run_solved _ _ _ _ HB) as (kB & rB & SB & LB).
  apply (solved_swap _ _ kB kA) in SB; [|exact (solved_kb _ _ _ _ _ _ _ _ _ _ _ _ _ _ SB SA)].
  destruct (loads_vec_app _ _ _ _ _ _ LA LB) as (r & Lr & Er).
  rewrite run_eq in HA. rewrite run_eq.
  exact (comb_general a A _ B _ (add_LM A B) _ _ check kA rA rB r oA oB 1 1 HA SA SB (no_settle_comb _ 1 1 ND) Lr Er).
Qed.

Lemma run_factor a A A' g check oA : no_settlement (an_beam a) -> Forall wf_row A -> factor_LM A g = Ok A' ->
  run gl ill a A check = Ok oA ->
  exists o, run gl ill a A' check = Ok o /\ combination (an_ndof a) g oA 0 oA o /\
    forall m, (m < an_n a)%nat -> ends_comb g (member_forces gl (set_loads (an_beam a) A) (o_d oA) m)
      0 (member_forces gl (set_loads (an_beam a) A) (o_d oA) m)
      (member_forces gl (set_loads (an_beam a) A') (o_d o) m).
Proof.
  intros ND W F HA. destruct (run_solved _ _ _ _ HA) as (kA & rA & SA & LA).
  destruct (loads_vec_scale _ _ _ _ _ _ W F LA) as (r & Lr & Er).
  rewrite run_eq in HA. rewrite run_eq.
  exact (comb_general a A _ A _ A' _ _ check kA rA rA r oA oA g 0 HA SA SA (no_settle_comb _ g 0 ND) Lr Er).
Qed.

Lemma run_perm a A A' check oA : Permutation A A' -> run gl ill a A check = Ok oA ->
  exists o, run gl ill a A' check = Ok o /\ combination (an_ndof a) 1 oA 0 oA o /\
    forall m, (m < an_n a)%nat -> ends_comb 1 (member_forces gl (set_loads (an_beam a) A) (o_d oA) m)
      0 (member_forces gl (set_loads (an_beam a) A) (o_d oA) m)
      (member_forces gl (set_loads (an_beam a) A') (o_d o) m).
Proof.
  intros P HA. destruct (run_solved _ _ _ _ HA) as (kA & rA & SA & LA).
  destruct (loads_vec_perm _ _ _ _ _ P LA) as (r & Lr & Er).
  rewrite run_eq in HA. rewrite run_eq.
  refine (comb_general a A _ A _ A' _ _ check kA rA rA r oA oA 1 0 HA SA SA _ Lr Er).
  split; [apply same_dofs_refl|]. split; [apply same_dofs_refl|]. intros i x y z E1 E2 E3.
  rewrite E1 in *. injection E2 as <-. injection E3 as <-. ring.
Qed.

(** Settlements. *)
Lemma settled_eq a lm D check o : run_settled gl ill a lm D check = Ok o ->
  length D = length (b_R (an_beam a)) /\
  snd (analyze_core gl ill (with_beam a (var (an_beam a) lm D (S (b_version (an_beam a))))) None check) = Ok o.
Proof.
  unfold run_settled, set_prescribed. cbn [set_loads with_LM b_R].
  destruct (Nat.eqb_spec (length D) (length (b_R (an_beam a)))) as [E|E]; cbn [negb]; [|discriminate].
  intros H. split; [exact E|exact H].
Qed.
Lemma settled_back a lm D check : length D = length (b_R (an_beam a)) ->
  run_settled gl ill a lm D check =
  snd (analyze_core gl ill (with_beam a (var (an_beam a) lm D (S (b_version (an_beam a))))) None check).
Proof.
  intros E. unfold run_settled, set_prescribed. cbn [set_loads with_LM b_R].
  rewrite (proj2 (Nat.eqb_eq _ _) E). reflexivity.
Qed.
Lemma settled_solved a lm D v check o :
  snd (analyze_core gl ill (with_beam a (var (an_beam a) lm D v)) None check) = Ok o ->
  exists kb rf, solved gl (var (an_beam a) lm D v) (an_n a) kb rf o /\ loads_vec (an_beam a) (an_n a) lm rf.
Proof.
  intros H. destruct (analyze_core _ _ _ _ _) as [a' r] eqn:E. cbn in H. subst r.
  destruct (core_inv _ _ _ _ _ _ _ E) as [(kb & rf & S) _]. cbn [with_beam an_beam an_n] in S.
  exists kb, rf. split; [exact S|]. exact (sy_r _ _ _ _ _ (sv_sys _ _ _ _ _ _ S)).
Qed.

Lemma settled_add a A D1 B D2 D check o1 o2 : settle_comb 1 D1 1 D2 D ->
  run_settled gl ill a A D1 check = Ok o1 -> run_settled gl ill a B D2 check = Ok o2 ->
  exists o, run_settled gl ill a (add_LM A B) D check = Ok o /\ combination (an_ndof a) 1 o1 1 o2 o /\
    forall m, (m < an_n a)%nat -> ends_comb 1 (member_forces gl (set_loads (an_beam a) A) (o_d o1) m)
      1 (member_forces gl (set_loads (an_beam a) B) (o_d o2) m)
      (member_forces gl (set_loads (an_beam a) (add_LM A B)) (o_d o) m).
Proof.
  intros HD H1 H2. apply settled_eq in H1 as [N1 H1]. apply settled_eq in H2 as [N2 H2].
  destruct (settled_solved _ _ _ _ _ _ H1) as (kA & rA & SA & LA).
  destruct (settled_solved _ _ _ _ _ _ H2) as (kB & rB & SB & LB).
  apply (solved_swap _ _ kB kA) in SB; [|exact (solved_kb _ _ _ _ _ _ _ _ _ _ _ _ _ _ SB SA)].
  destruct (loads_vec_app _ _ _ _ _ _ LA LB) as (r & Lr & Er).
  rewrite settled_back by (rewrite <- (same_dofs_len _ _ (proj1 HD)); exact N1).
  exact (comb_general a A D1 B D2 (add_LM A B) D _ check kA rA rB r o1 o2 1 1 H1 SA SB HD Lr Er).
Qed.

Lemma settled_factor a A A' g D D' check o : Forall wf_row A -> factor_LM A g = Ok A' ->
  settle_comb g D 0 D D' -> run_settled gl ill a A D check = Ok o ->
  exists o', run_settled gl ill a A' D' check = Ok o' /\ combination (an_ndof a) g o 0 o o'.
Proof.
  intros W F HD H1. apply settled_eq in H1 as [N1 H1].
  destruct (settled_solved _ _ _ _ _ _ H1) as (kA & rA & SA & LA).
  destruct (loads_vec_scale _ _ _ _ _ _ W F LA) as (r & Lr & Er).
  rewrite settled_back by (rewrite <- (same_dofs_len _ _ (proj1 HD)); exact N1).
  destruct (comb_general a A D A D A' D' _ check kA rA rA r o o g 0 H1 SA SA HD Lr Er) as (o' & E & C & _). eauto.
Qed.

Lemma zeroed_same D : same_dofs D (zeroed D).
Proof. induction D as [|[x|] D IH]; constructor; auto; split; congruence. Qed.
Lemma nth_zeroed D i : nth i (zeroed D) None = match nth i D None with Some _ => Some 0 | None => None end.
Proof. revert i. induction D as [|d D IH]; intros [|i]; cbn; auto. Qed.

Lemma settled_split a A D check o : run_settled gl ill a A D check = Ok o ->
  exists o1 o2, run_settled gl ill a A (zeroed D) check = Ok o1 /\ run_settled gl ill a [] D check = Ok o2 /\
    combination (an_ndof a) 1 o1 1 o2 o.
Proof.
  intros H. apply settled_eq in H as [N1 H].
  destruct (settled_solved _ _ _ _ _ _ H) as (kb & r & S & Lr).
  destruct (loads_vec_nil _ _ _ _ Lr) as (r0 & L0 & E0).
  set (v := Datatypes.S (b_version (an_beam a))) in *. set (b := an_beam a) in *.
  destruct (var_total a A D A (zeroed D) v check kb r r o H S (zeroed_same D) Lr) as (o1 & E1 & S1).
  { intros i Hi. apply (conflict_comb _ A D A D A (zeroed D) v v v _ r r r 1 0 i (zeroed_same D) (zeroed_same D)).
    - intros; ring.
    - exact (sv_valid _ _ _ _ _ _ S i Hi).
    - exact (sv_valid _ _ _ _ _ _ S i Hi). }
  destruct (var_total a A D [] D v check kb r r0 o H S (same_dofs_refl D) L0) as (o2 & E2 & S2).
  { intros i Hi (_ & _ & C). apply C. unfold fcl. rewrite rsum_0; [ring|]. intros m Hm. unfold scat.
    destruct (_ && _); [|reflexivity]. apply E0. exact Hm. }
  exists o1, o2. split; [|split].
  - rewrite settled_back; [exact E1|]. unfold zeroed. rewrite map_length. exact N1.
  - rewrite settled_back; [exact E2|exact N1].
  - apply (var_comb b (an_n a) kb A (zeroed D) v r o1 [] D v r0 o2 A D v r o 1 1 S1 S2 S).
    + split; [apply same_dofs_sym, zeroed_same|]. split; [apply same_dofs_refl|]. intros i x y z Hx Hy Hz.
      rewrite nth_zeroed, Hy in Hx. injection Hx as <-. rewrite Hy in Hz. injection Hz as <-. ring.
    + intros m p Hm. rewrite (E0 m p Hm). ring.
Qed.
End G.
