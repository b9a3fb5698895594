(** Facts for C88, part four: end forces and results of a member under loads that add up. *)
From Coq Require Import Lia ZArith Permutation FunctionalExtensionality.
From Verif Require Import Base BaseFacts Linalg SectionModel FlexModel LoadModel LoadSpec FoundationModel ElementModel UtilsModel BeamModel AnalysisModel AnalysisFacts LinearFacts SuperFacts ResultsModel ResultsFacts CombFacts LoadEqSpec LoadEqFacts LoadEqFacts2 LoadEqFacts3.
Open Scope R_scope.

Definition vadd (u v : vec) : vec := fun i => u i + v i.
Definition vradd (a b : result vec) : result vec := do x <- a; do y <- b; Ok (vadd x y).
(** Both fail alike, or both succeed. *)
Definition together {A B} (a : result A) (b : result B) : Prop := (exists e, a = Err e /\ b = Err e) \/ exists x y, a = Ok x /\ b = Ok y.

Ltac fit := match goal with |- release_from _ ?a ?b _ _ _ = release_from _ ?c ?d _ _ _ => replace c with a by (cbn; unfold Rdiv; ring); replace d with b by (cbn; unfold Rdiv; ring); reflexivity end.

Section S.
Variables (gl : nat -> list (R * R)) (L : R).

Definition nstep (EI : sect) (ld : load) (ab : R * R) : result (R * R) :=
  if Rleb (snd ab) (fst ab) then Ok (0, 0)
  else let xx := fine_grid (fst ab) (snd ab) in
    do es <- mapM (sect_eval EI) xx;
    let curv := curvatures ld es xx L in
    Ok (simpson_list (fst ab) (snd ab) (mulpt (fun x => 1 - x / L) xx curv), simpson_list (fst ab) (snd ab) (mulpt (fun x => - x / L) xx curv)).
Lemma foldM_ext {A S} (f g : S -> A -> result S) : (forall s a, f s a = g s a) -> forall l s, foldM f l s = foldM g l s.
Proof. intros H. induction l as [|a l IH]; intros s; cbn [foldM]; [reflexivity|]. rewrite H. destruct (g s a); cbn [rbind]; auto. Qed.
Lemma nonprism_steps ld EI : nonprism_theta0 ld EI L = foldM (fun th a => do d <- nstep EI ld a; Ok (padd th d)) (pairs (edges (breakpoints EI) L)) (0, 0).
Proof.
  unfold nonprism_theta0. apply foldM_ext. intros s ab. cbv zeta. unfold nstep. destruct (Rleb (snd ab) (fst ab)); cbn [rbind].
  - unfold padd. cbn [fst snd]. rewrite !Rplus_0_r. destruct s; reflexivity.
  - destruct (mapM _ _); cbn [rbind]; reflexivity.
Qed.
Definition tstep (EI GAv : rigid) (ld : load) (ab : R * R) : result (R * R) :=
  if Rleb (snd ab) (fst ab) then Ok (0, 0)
  else let xx := fine_grid (fst ab) (snd ab) in
    do eis <- rigid_at EI xx;
    let curv := curvatures ld eis xx L in
    do gs <- rigid_at GAv xx;
    let gamma := map (fun p => fst p / snd p) (combine (r_V (get_mbr_results ld xx L)) gs) in
    let shear := simpson_list (fst ab) (snd ab) (map (fun g => -1 / L * g) gamma) in
    Ok (simpson_list (fst ab) (snd ab) (mulpt (fun x => 1 - x / L) xx curv) + shear, simpson_list (fst ab) (snd ab) (mulpt (fun x => - x / L) xx curv) + shear).
Definition tbps (EI GAv : rigid) : list R := (match EI with RSect s => breakpoints s | _ => [] end) ++ (match GAv with RSect s => breakpoints s | _ => [] end).
Definition tedges (EI GAv : rigid) : list R := match tbps EI GAv with [] => [0; L] | _ => edges (tbps EI GAv) L end.
Lemma timo_steps ld EI GAv : timo_theta0 ld EI GAv L = foldM (fun th a => do d <- tstep EI GAv ld a; Ok (padd th d)) (pairs (tedges EI GAv)) (0, 0).
Proof.
  unfold timo_theta0. fold (tbps EI GAv). fold (tedges EI GAv). apply foldM_ext. intros s ab. cbv zeta. unfold tstep. destruct (Rleb (snd ab) (fst ab)); cbn [rbind].
  - unfold padd. cbn [fst snd]. rewrite !Rplus_0_r. destruct s; reflexivity.
  - destruct (rigid_at EI _); cbn [rbind]; [|reflexivity]. destruct (rigid_at GAv _); cbn [rbind]; reflexivity.
Qed.

Hypothesis HL : 0 < L.

Section Two.
Variables (ld l1 l2 : load).
Hypothesis HS : sums gl L ld l1 l2.

Lemma nstep_sum EI ab : 0 <= fst ab -> snd ab <= L ->
  (exists e, nstep EI ld ab = Err e /\ nstep EI l1 ab = Err e /\ nstep EI l2 ab = Err e) \/ exists x y, nstep EI ld ab = Ok (padd x y) /\ nstep EI l1 ab = Ok x /\ nstep EI l2 ab = Ok y.
Proof.
  intros A B. unfold nstep. destruct (Rleb (snd ab) (fst ab)) eqn:E.
  - right. exists (0, 0), (0, 0). unfold padd. cbn [fst snd]. rewrite Rplus_0_r. auto.
  - assert (W : within L (fine_grid (fst ab) (snd ab))). { apply within_fine; [exact A| |exact B]. unfold Rleb in E. destruct (Rle_dec (snd ab) (fst ab)); [discriminate|lra]. }
    destruct (mapM _ _) as [es|e]; cbn [rbind]; [|left; eauto]. right. do 2 eexists. split; [|split; reflexivity]. cbv zeta. unfold padd. cbn [fst snd].
    rewrite (curv_sum gl L ld l1 l2 es _ HS W), !mulpt_add, !simpson_list_add; [reflexivity| |];
    rewrite !mulpt_len, !curv_len; destruct HS as (_ & N1 & N2 & _); rewrite (proj1 (mbr_len L l1 _ N1)), (proj1 (mbr_len L l2 _ N2)); reflexivity.
Qed.
Lemma nonprism_sum EI : Forall (fun x => 0 <= x <= L) (breakpoints EI) ->
  nonprism_theta0 ld EI L = radd (nonprism_theta0 l1 EI L) (nonprism_theta0 l2 EI L) /\ together (nonprism_theta0 l1 EI L) (nonprism_theta0 l2 EI L).
Proof.
  intros HB. rewrite !nonprism_steps. assert (Z : (0, 0) = padd (0, 0) (0, 0)) by (unfold padd; cbn [fst snd]; rewrite Rplus_0_r; reflexivity). rewrite Z at 1.
  apply fold_sum. intros ab Hab. destruct (within_pairs L _ ab (within_edges L _ HL HB) Hab) as [A B]. apply nstep_sum; assumption.
Qed.
Lemma map_add k u v : map (fun g => k * g) (map2 Rplus u v) = map2 Rplus (map (fun g => k * g) u) (map (fun g => k * g) v).
Proof. unfold map2. revert v. induction u as [|x u IH]; intros [|y v]; cbn; try reflexivity. rewrite IH. f_equal. ring. Qed.
Lemma tstep_sum EI GAv ab : 0 <= fst ab -> snd ab <= L ->
  (exists e, tstep EI GAv ld ab = Err e /\ tstep EI GAv l1 ab = Err e /\ tstep EI GAv l2 ab = Err e) \/ exists x y, tstep EI GAv ld ab = Ok (padd x y) /\ tstep EI GAv l1 ab = Ok x /\ tstep EI GAv l2 ab = Ok y.
Proof.
  intros A B. unfold tstep. destruct (Rleb (snd ab) (fst ab)) eqn:E.
  - right. exists (0, 0), (0, 0). unfold padd. cbn [fst snd]. rewrite Rplus_0_r. auto.
  - assert (W : within L (fine_grid (fst ab) (snd ab))). { apply within_fine; [exact A| |exact B]. unfold Rleb in E. destruct (Rle_dec (snd ab) (fst ab)); [discriminate|lra]. }
    destruct (rigid_at EI _) as [es|e]; cbn [rbind]; [|left; eauto]. destruct (rigid_at GAv _) as [gs|e]; cbn [rbind]; [|left; eauto].
    right. do 2 eexists. split; [|split; reflexivity]. cbv zeta. unfold padd. cbn [fst snd]. destruct (mbr_len L l1 (fine_grid (fst ab) (snd ab))) as [M1 V1]; [apply HS|]. destruct (mbr_len L l2 (fine_grid (fst ab) (snd ab))) as [M2 V2]; [apply HS|].
    rewrite (curv_sum gl L ld l1 l2 es _ HS W), (gamma_sum gl L ld l1 l2 gs _ HS W), !mulpt_add, map_add, !simpson_list_add; [f_equal; f_equal; ring| | |].
    all: rewrite ?map_length, ?combine_length, ?mulpt_len, ?curv_len, ?V1, ?V2, ?M1, ?M2; reflexivity.
Qed.
Lemma timo_sum EI GAv : marks_inside L EI -> marks_inside L GAv ->
  timo_theta0 ld EI GAv L = radd (timo_theta0 l1 EI GAv L) (timo_theta0 l2 EI GAv L) /\ together (timo_theta0 l1 EI GAv L) (timo_theta0 l2 EI GAv L).
Proof.
  intros HE HG. rewrite !timo_steps. assert (Z : (0, 0) = padd (0, 0) (0, 0)) by (unfold padd; cbn [fst snd]; rewrite Rplus_0_r; reflexivity). rewrite Z at 1.
  assert (W : within L (tbps EI GAv)). { unfold tbps, within. apply Forall_app. split; [destruct EI; [constructor|exact HE]|destruct GAv; [constructor|exact HG]]. }
  assert (We : within L (tedges EI GAv)). { unfold tedges. destruct (tbps EI GAv) as [|p l] eqn:E; [constructor; [lra|constructor; [lra|constructor]]|rewrite <- E; apply within_edges; [exact HL|rewrite E; exact W]]. }
  apply fold_sum. intros ab Hab. destruct (within_pairs L _ ab We Hab) as [A B]. apply tstep_sum; assumption.
Qed.

Lemma release_sum c1 c2 p q kff t : release_from (cnl_add c1 c2) (fst p + fst q) (snd p + snd q) L kff t =
  vradd (release_from c1 (fst p) (snd p) L kff t) (release_from c2 (fst q) (snd q) L kff t) /\
  together (release_from c1 (fst p) (snd p) L kff t) (release_from c2 (fst q) (snd q) L kff t).
Proof.
  assert (T : forall k r, (if Req_EM_T (k r r) 0 then Err LinAlgError else Ok (fun i => vec4 ((c_Va (cnl_add c1 c2) - (c_Ma (cnl_add c1 c2) + c_Mb (cnl_add c1 c2)) / L) + (fst p + fst q + (snd p + snd q)) / L) (fst p + fst q)
      ((c_Vb (cnl_add c1 c2) + (c_Ma (cnl_add c1 c2) + c_Mb (cnl_add c1 c2)) / L) - (fst p + fst q + (snd p + snd q)) / L) (snd p + snd q) i - k i r *
      (vec4 ((c_Va (cnl_add c1 c2) - (c_Ma (cnl_add c1 c2) + c_Mb (cnl_add c1 c2)) / L) + (fst p + fst q + (snd p + snd q)) / L) (fst p + fst q)
      ((c_Vb (cnl_add c1 c2) + (c_Ma (cnl_add c1 c2) + c_Mb (cnl_add c1 c2)) / L) - (fst p + fst q + (snd p + snd q)) / L) (snd p + snd q) r / k r r)) : result vec) =
    vradd (if Req_EM_T (k r r) 0 then Err LinAlgError else Ok (fun i => vec4 (c_Va c1 - (c_Ma c1 + c_Mb c1) / L + (fst p + snd p) / L) (fst p) (c_Vb c1 + (c_Ma c1 + c_Mb c1) / L - (fst p + snd p) / L) (snd p) i - k i r * (vec4 (c_Va c1 - (c_Ma c1 + c_Mb c1) / L + (fst p + snd p) / L) (fst p) (c_Vb c1 + (c_Ma c1 + c_Mb c1) / L - (fst p + snd p) / L) (snd p) r / k r r)))
          (if Req_EM_T (k r r) 0 then Err LinAlgError else Ok (fun i => vec4 (c_Va c2 - (c_Ma c2 + c_Mb c2) / L + (fst q + snd q) / L) (fst q) (c_Vb c2 + (c_Ma c2 + c_Mb c2) / L - (fst q + snd q) / L) (snd q) i - k i r * (vec4 (c_Va c2 - (c_Ma c2 + c_Mb c2) / L + (fst q + snd q) / L) (fst q) (c_Vb c2 + (c_Ma c2 + c_Mb c2) / L - (fst q + snd q) / L) (snd q) r / k r r)))).
  { intros k r. destruct (Req_EM_T (k r r) 0) as [Z|Z]; [reflexivity|]. unfold vradd. cbn [rbind]. apply f_equal, functional_extensionality. intros i. unfold vadd.
    assert (S : forall j, vec4 ((c_Va (cnl_add c1 c2) - (c_Ma (cnl_add c1 c2) + c_Mb (cnl_add c1 c2)) / L) + (fst p + fst q + (snd p + snd q)) / L) (fst p + fst q)
      ((c_Vb (cnl_add c1 c2) + (c_Ma (cnl_add c1 c2) + c_Mb (cnl_add c1 c2)) / L) - (fst p + fst q + (snd p + snd q)) / L) (snd p + snd q) j =
      vec4 (c_Va c1 - (c_Ma c1 + c_Mb c1) / L + (fst p + snd p) / L) (fst p) (c_Vb c1 + (c_Ma c1 + c_Mb c1) / L - (fst p + snd p) / L) (snd p) j +
      vec4 (c_Va c2 - (c_Ma c2 + c_Mb c2) / L + (fst q + snd q) / L) (fst q) (c_Vb c2 + (c_Ma c2 + c_Mb c2) / L - (fst q + snd q) / L) (snd q) j).
    { intros [|[|[|[|j]]]]; cbn; unfold Rdiv; ring. }
    rewrite !S. unfold Rdiv. ring. }
  unfold release_from. cbv zeta. destruct t as [|[|[|[|[|t]]]]]; try (destruct kff as [k|e]; cbn [rbind]; [split; [apply T|unfold together; destruct (Req_EM_T _ 0); eauto]|split; [reflexivity|left; eauto]]);
    (split; [|right; eauto]); unfold vradd; cbn [rbind]; apply f_equal, functional_extensionality; unfold vadd; intros [|[|[|[|i]]]]; cbn; unfold Rdiv; ring.
Qed.

Lemma ref_sum m : mb_L m = L -> marks_inside L (mb_EI m) -> (forall g, mb_GAv m = Some g -> marks_inside L g) ->
  ref_one gl m ld = vradd (ref_one gl m l1) (ref_one gl m l2) /\ together (ref_one gl m l1) (ref_one gl m l2).
Proof.
  intros EL HE HG. unfold ref_one. rewrite EL. destruct HS as (_ & _ & _ & (c & c1 & c2 & C & C1 & C2 & EC) & _). destruct (mb_GAv m) as [g|].
  - specialize (HG g eq_refl). unfold ref_timoshenko. rewrite C, C1, C2. cbn [rbind]. subst c.
    destruct (mb_EI m) as [e|s] eqn:EE; [destruct g as [g0|s0] eqn:EG|].
    + cbv zeta. cbn [rbind fst snd].
      match goal with |- _ = vradd (release_from _ ?a1 ?b1 _ ?k _) (release_from _ ?a2 ?b2 _ _ _) /\ _ => pose proof (release_sum c1 c2 (a1, b1) (a2, b2) k (mb_type m)) as Q end. cbn [fst snd] in Q.
      destruct Q as [Q1 Q2]. split; [|exact Q2]. rewrite <- Q1. fit.
    + destruct (timo_sum (RConst e) (RSect s0) HE HG) as [T1 T2]. rewrite T1. destruct T2 as [(x & E1 & E2)|(x & y & E1 & E2)]; rewrite E1, E2; cbn [radd rbind]; [split; [reflexivity|left; eauto]|].
      destruct (timo_flexibility _ _ _ _) as [F|]; cbn [rbind]; [|split; [reflexivity|left; eauto]]. destruct (inv22 F) as [K|]; cbn [rbind]; [|split; [reflexivity|left; eauto]]. cbn [fst snd].
      match goal with |- _ = vradd (release_from _ ?a1 ?b1 _ ?k _) (release_from _ ?a2 ?b2 _ _ _) /\ _ => pose proof (release_sum c1 c2 (a1, b1) (a2, b2) k (mb_type m)) as Q end. cbn [fst snd] in Q.
      destruct Q as [Q1 Q2]. split; [|exact Q2]. rewrite <- Q1. unfold padd. cbn [fst snd]. fit.
    + destruct (timo_sum (RSect s) g HE HG) as [T1 T2]. rewrite T1. destruct T2 as [(x & E1 & E2)|(x & y & E1 & E2)]; rewrite E1, E2; cbn [radd rbind]; [split; [reflexivity|left; eauto]|].
      destruct (timo_flexibility _ _ _ _) as [F|]; cbn [rbind]; [|split; [reflexivity|left; eauto]]. destruct (inv22 F) as [K|]; cbn [rbind]; [|split; [reflexivity|left; eauto]]. cbn [fst snd].
      match goal with |- _ = vradd (release_from _ ?a1 ?b1 _ ?k _) (release_from _ ?a2 ?b2 _ _ _) /\ _ => pose proof (release_sum c1 c2 (a1, b1) (a2, b2) k (mb_type m)) as Q end. cbn [fst snd] in Q.
      destruct Q as [Q1 Q2]. split; [|exact Q2]. rewrite <- Q1. unfold padd. cbn [fst snd]. fit.
  - destruct (mb_EI m) as [e|s].
    + unfold load_get_ref. rewrite C, C1, C2. cbn [rbind]. subst c. split; [|right; eauto]. unfold vradd. cbn [rbind]. apply f_equal, functional_extensionality. unfold vadd, cnl_vec.
      intros i. destruct (mb_type m) as [|[|[|[|[|t]]]]]; destruct i as [|[|[|[|i]]]]; cbn; unfold Rdiv; ring.
    + unfold ref_nonprismatic. destruct (nonprism_sum s HE) as [T1 T2]. rewrite T1. destruct T2 as [(x & E1 & E2)|(x & y & E1 & E2)]; rewrite E1, E2; cbn [radd rbind]; [split; [reflexivity|left; eauto]|].
      destruct (k_theta gl s L) as [K|]; cbn [rbind]; [|split; [reflexivity|left; eauto]]. rewrite C, C1, C2. cbn [rbind]. subst c.
      match goal with |- _ = vradd (release_from _ ?a1 ?b1 _ ?k _) (release_from _ ?a2 ?b2 _ _ _) /\ _ => pose proof (release_sum c1 c2 (a1, b1) (a2, b2) k (mb_type m)) as Q end. cbn [fst snd] in Q.
      destruct Q as [Q1 Q2]. split; [|exact Q2]. rewrite <- Q1. unfold padd. cbn [fst snd]. fit.
Qed.
End Two.
End S.
