(** Stiffening a beam (C79): forces at nodes and the whole beam. *)
From Coq Require Import Permutation.
From Verif Require Import Base BaseFacts Linalg LinalgFacts SectionModel FlexModel LoadModel LoadSpec
  ClampFacts FoundationModel ElementModel ElementSpec ElementFacts ElementFacts2 UtilsModel BeamModel AnalysisModel
  AnalysisSpec LMFacts LinearFacts AnalysisFacts AnalysisFacts2 SuperFacts BalanceFacts MechFacts ResultsFacts StiffSpec StiffFacts.
Open Scope R_scope.

(** ** A force at the start of a span puts nothing into the span *)
Lemma simpson_list_zero a b ys : (forall y, In y ys -> y = 0) -> simpson_list a b ys = 0.
Proof.
  intros Z. assert (N : forall i, nth i ys 0 = 0).
  { intros i. destruct (nth_in_or_default i ys 0) as [I|E]; [exact (Z _ I)|exact E]. }
  unfold simpson_list, simpson. apply rsum_0. intros i _. rewrite !N. ring.
Qed.

Lemma dedup_in l x : In x (dedup_sorted l) -> In x l.
Proof.
  induction l as [|a [|b t] IH]; cbn [dedup_sorted]; auto. destruct (Req_EM_T a b); intros I.
  - right. apply IH. exact I.
  - destruct I as [<-|I]; [left; reflexivity|right; apply IH; exact I].
Qed.

Lemma set_last_in v l x : In x (set_last v l) -> x = v \/ In x l.
Proof.
  destruct l as [|a l]; [intros []|]. unfold set_last. intros I. apply in_app_or in I as [I|[<-|[]]]; [right|left; reflexivity].
  revert I. generalize (a :: l). clear. intros l I. induction l as [|b t IH]; [destruct I|]. cbn [removelast] in I. destruct t; [destruct I|].
  destruct I as [<-|I]; [left; reflexivity|right; apply IH, I].
Qed.
Lemma set_first_in v l x : In x (set_first v l) -> x = v \/ In x l.
Proof. destruct l; [intros []|]. intros [<-|I]; [left; reflexivity|right; right; exact I]. Qed.

Lemma edges_nonneg bps L x : 0 < L -> Forall (fun y => 0 <= y) bps -> In x (edges bps L) -> 0 <= x.
Proof.
  intros HL F I. unfold edges in I. apply set_last_in in I as [->|I]; [lra|]. apply set_first_in in I as [->|I]; [lra|].
  apply filter_In in I as [I _]. apply dedup_in in I. apply (Permutation_in _ (ResultsFacts.sort_perm _)) in I. apply in_app_or in I as [I|[<-|[<-|[]]]]; try lra.
  rewrite Forall_forall in F. exact (F x I).
Qed.

Lemma pairs_in l a b : In (a, b) (pairs l) -> In a l.
Proof.
  induction l as [|x [|y t] IH]; cbn [pairs]; try (intros []; fail). intros [[= <- <-]|I]; [left; reflexivity|right; apply IH; exact I].
Qed.

Lemma fine_grid_after a b y l : a < b -> fine_grid a b = y :: l -> y = a /\ forall x, In x l -> a < x.
Proof.
  intros Hab. unfold fine_grid. generalize simpson_panels. intros n.
  replace (2 * n + 1)%nat with (S (2 * n)) by lia. cbn [seq map]. intros [= <- <-]. split; [unfold grid; cbn [INR]; ring|].
  intros x I. apply in_map_iff in I as (i & <- & Hi). apply in_seq in Hi. unfold grid.
  assert (0 < INR i) by (apply (lt_INR 0); lia). assert (0 < INR (2 * n)) by (apply (lt_INR 0); lia).
  assert (0 < (b - a) / INR (2 * n)) by (apply Rdiv_lt_0_compat; lra). nra.
Qed.

Lemma start_force_sampled P L a b : 0 < L -> 0 <= a -> a < b -> let r := get_mbr_results (LPL P 0) (fine_grid a b) L in
  (forall v, In v (r_V r) -> v = 0) /\ (forall v, In v (r_M r) -> v = 0).
Proof.
  intros HL Ha Hab. cbn [get_mbr_results diag_of sample r_V r_M].
  destruct (fine_grid a b) as [|y l] eqn:E; [split; intros v []|]. destruct (fine_grid_after a b y l Hab E) as [-> X].
  assert (Z : forall f, (forall x, In x l -> f x = 0) -> forall v, In v (zero_ends (map f (a :: l))) -> v = 0).
  { intros f Hf v I. unfold zero_ends in I. apply set_last_in in I as [->|I]; [reflexivity|]. cbn [map set_first] in I. destruct I as [<-|I]; [reflexivity|].
    apply in_map_iff in I as (x & <- & I). exact (Hf x I). }
  split; apply Z; intros x I; specialize (X x I); unfold pl_diag; cbn [f_V f_M]; unfold H, MB; rewrite (Rmax_left (L - 0)) by lra.
  - destruct (Rlt_dec (x - 0) 0); [lra|]. destruct (Rlt_dec 0 (x - 0)); [|lra]. field. lra.
  - rewrite Rmax_left by lra. field. lra.
Qed.

Lemma curvatures_zero P L a b es : 0 < L -> 0 <= a -> a < b -> forall y, In y (curvatures (LPL P 0) es (fine_grid a b) L) -> y = 0.
Proof.
  intros HL Ha Hab y I. unfold curvatures in I. apply in_map_iff in I as ([m [e x]] & <- & I). apply in_combine_l in I.
  rewrite (proj2 (start_force_sampled P L a b HL Ha Hab) m I). unfold Rdiv. ring.
Qed.
Lemma mulpt_zero f xx ys : (forall y, In y ys -> y = 0) -> forall y, In y (mulpt f xx ys) -> y = 0.
Proof. intros Z y I. unfold mulpt in I. apply in_map_iff in I as ([x v] & <- & I). apply in_combine_r in I. cbn [fst snd]. rewrite (Z v I). ring. Qed.

Lemma fold_zero (step : R * R -> R * R -> result (R * R)) (ps : list (R * R)) : (forall ab th th', In ab ps -> step th ab = Ok th' -> th' = th \/ (fst th' = fst th + 0 /\ snd th' = snd th + 0)) ->
  forall th th', foldM step ps th = Ok th' -> fst th = 0 -> snd th = 0 -> fst th' = 0 /\ snd th' = 0.
Proof.
  induction ps as [|ab t IH]; cbn [foldM]; intros S th th' H E1 E2.
  - injection H as <-. auto.
  - apply rbind_ok in H as (th1 & H1 & H). destruct (S ab th th1 (or_introl eq_refl) H1) as [->|[F1 F2]].
    + apply (IH ltac:(intros; eapply S; [right|]; eassumption) th th' H E1 E2).
    + apply (IH ltac:(intros; eapply S; [right|]; eassumption) th1 th' H); lra.
Qed.

Lemma nonprism_theta0_zero P s L th : 0 < L -> Forall (fun x => 0 <= x) (breakpoints s) -> nonprism_theta0 (LPL P 0) s L = Ok th -> fst th = 0 /\ snd th = 0.
Proof.
  intros HL F H. unfold nonprism_theta0 in H. refine (fold_zero _ _ _ _ _ H eq_refl eq_refl).
  intros [a b] t t' I E. cbn [fst snd] in E. assert (Ha := edges_nonneg _ _ a HL F (pairs_in _ _ _ I)).
  destruct (Rleb_spec b a) as [B|B]; [injection E as <-; left; reflexivity|]. apply rbind_ok in E as (es & _ & E). injection E as <-. right. cbn [fst snd].
  rewrite !simpson_list_zero; [split; reflexivity| |]; apply mulpt_zero; apply curvatures_zero; try assumption; lra.
Qed.

Lemma timo_theta0_zero P EI GAv L th : 0 < L -> from_left_end EI -> from_left_end GAv -> timo_theta0 (LPL P 0) EI GAv L = Ok th -> fst th = 0 /\ snd th = 0.
Proof.
  intros HL FE FG H. unfold timo_theta0 in H. set (bps := (match EI with RSect s => breakpoints s | _ => [] end ++ match GAv with RSect s => breakpoints s | _ => [] end)%list) in *.
  assert (F : Forall (fun x => 0 <= x) bps).
  { unfold bps. apply Forall_app. split; [destruct EI|destruct GAv]; try apply Forall_nil; assumption. }
  assert (N : forall x, In x (match bps with [] => [0; L] | _ => edges bps L end) -> 0 <= x).
  { intros x I. destruct bps as [|b0 t] eqn:Eb; [destruct I as [<-|[<-|[]]]; lra|]. eapply edges_nonneg; eassumption. }
  refine (fold_zero _ _ _ _ _ H eq_refl eq_refl).
  intros [a b] t t' I E. cbn [fst snd] in E. assert (Ha := N a (pairs_in _ _ _ I)).
  destruct (Rleb_spec b a) as [B|B]; [injection E as <-; left; reflexivity|]. apply rbind_ok in E as (es & _ & E). apply rbind_ok in E as (gs & _ & E). injection E as <-. right. cbn [fst snd].
  assert (SH : forall y, In y (map (fun g => -1 / L * g) (map (fun p => fst p / snd p) (combine (r_V (get_mbr_results (LPL P 0) (fine_grid a b) L)) gs))) -> y = 0).
  { intros y Iy. apply in_map_iff in Iy as (g & <- & Iy). apply in_map_iff in Iy as ([v w] & <- & Iy). apply in_combine_l in Iy. cbn [fst snd].
    rewrite (proj1 (start_force_sampled P L a b HL Ha ltac:(lra)) v Iy). unfold Rdiv. ring. }
  assert (SC : forall f y, In y (mulpt f (fine_grid a b) (curvatures (LPL P 0) es (fine_grid a b) L)) -> y = 0).
  { intros f. apply mulpt_zero. apply curvatures_zero; try assumption; lra. }
  split; (rewrite (simpson_list_zero _ _ _ SH) || idtac); rewrite !simpson_list_zero; first [ring | apply SC | exact SH].
Qed.

Section G.
Variable gl : nat -> list (R * R).
Variable ill : nat -> mat -> bool.

Lemma start_cnl P L : 0 < L -> get_cnl gl (LPL P 0) L = Ok {| c_Va := P; c_Ma := 0; c_Vb := 0; c_Mb := 0 |}.
Proof. intros HL. cbn [get_cnl]. f_equal. unfold pl_cnl. rewrite ?Rmax_left, ?Rmax_right by lra. apply cnl_eq; cbn; field; lra. Qed.

Lemma start_release P L Ma Mb kff t v : 0 < L -> (1 <= t <= 4)%nat -> Ma = 0 -> Mb = 0 ->
  release_from {| c_Va := P; c_Ma := 0; c_Vb := 0; c_Mb := 0 |} Ma Mb L kff t = Ok v -> eq4 v (vec4 P 0 0 0).
Proof.
  intros HL Ht -> -> Hu. unfold release_from in Hu. cbn [c_Va c_Ma c_Vb c_Mb] in Hu.
  assert (F : eq4 (vec4 (P - (0 + 0) / L + (0 + 0) / L) 0 (0 + (0 + 0) / L - (0 + 0) / L) 0) (vec4 P 0 0 0)).
  { intros i Hi. destruct i as [|[|[|[|i]]]]; try lia; cbn; try reflexivity; field; lra. }
  destruct t as [|[|[|[|[|t]]]]]; try lia.
  - injection Hu as <-. exact F.
  - apply rbind_ok in Hu as (k & _ & Hu). destruct (Req_EM_T (k 3%nat 3%nat) 0); [discriminate|]. injection Hu as <-.
    intros i Hi. cbn beta. rewrite (F i Hi). cbn. unfold Rdiv. ring.
  - apply rbind_ok in Hu as (k & _ & Hu). destruct (Req_EM_T (k 1%nat 1%nat) 0); [discriminate|]. injection Hu as <-.
    intros i Hi. cbn beta. rewrite (F i Hi). cbn. unfold Rdiv. ring.
  - injection Hu as <-. intros i Hi. destruct i as [|[|[|[|i]]]]; try lia; cbn; try reflexivity; field; lra.
Qed.

Lemma start_one m P v : plain_member m -> ref_one gl m (LPL P 0) = Ok v -> eq4 v (vec4 P 0 0 0).
Proof.
  intros (S & FE & FG) H. assert (HL := sm_L _ S). unfold ref_one in H. destruct (mb_GAv m) as [g|] eqn:EG.
  - unfold ref_timoshenko in H. rewrite (start_cnl P _ HL) in H. cbn [rbind c_Ma c_Mb] in H.
    apply rbind_ok in H as (M & HM & H). assert (Z : fst M = 0 /\ snd M = 0).
    { assert (G : forall e, mb_EI m = e -> (do th <- timo_theta0 (LPL P 0) e g (mb_L m); do F <- timo_flexibility gl e g (mb_L m); do K <- inv22 F;
          Ok (m00 K * fst th + m01 K * snd th, m10 K * fst th + m11 K * snd th)) = Ok M -> fst M = 0 /\ snd M = 0).
      { intros e Ee HM'. apply rbind_ok in HM' as (th & Ht & HM'). apply rbind_ok in HM' as (F & _ & HM'). apply rbind_ok in HM' as (K & _ & HM'). injection HM' as <-.
        rewrite Ee in FE. destruct (timo_theta0_zero P e g _ th HL FE (FG g eq_refl) Ht) as [-> ->]. cbn [fst snd]. split; ring. }
      destruct (mb_EI m) as [e|s] eqn:EE, g as [g|g]; try (exact (G _ eq_refl HM)).
      injection HM as <-. cbn [fst snd]. split; unfold Rdiv; ring. }
    exact (start_release P _ _ _ _ _ v HL (sm_type _ S) (proj1 Z) (proj2 Z) H).
  - destruct (mb_EI m) as [e|s] eqn:EE.
    + unfold load_get_ref in H. rewrite (start_cnl P _ HL) in H. cbn [rbind] in H. injection H as <-.
      destruct (sm_type _ S). intros i Hi. destruct (mb_type m) as [|[|[|[|[|t]]]]]; try lia;
        destruct i as [|[|[|[|i]]]]; try lia; cbn; try reflexivity; field; lra.
    + unfold ref_nonprismatic in H. apply rbind_ok in H as (th & Ht & H). apply rbind_ok in H as (K & _ & H). rewrite (start_cnl P _ HL) in H. cbn [rbind] in H.
      destruct (nonprism_theta0_zero P s _ th HL FE Ht) as [E1 E2]. rewrite E1, E2 in H.
      refine (start_release P _ _ _ _ _ v HL (sm_type _ S) _ _ H); ring.
Qed.

Lemma starts_ref m Ps v : plain_member m -> span_ref gl m (map (fun P => LPL P 0) Ps) = Ok v -> eq4 v (vec4 (lsum Ps) 0 0 0).
Proof.
  intros PM H. unfold span_ref in H. rewrite (sm_kf _ (proj1 PM)) in H.
  assert (G : forall acc w, foldM (fun acc ld => do v <- ref_one gl m ld; Ok (fun i => acc i + v i)) (map (fun P => LPL P 0) Ps) acc = Ok w ->
    forall i, (i < 4)%nat -> w i = acc i + vec4 (lsum Ps) 0 0 0 i).
  { clear H v. induction Ps as [|P t IH]; cbn [map foldM]; intros acc w H i Hi.
    - injection H as <-. destruct i as [|[|[|[|i]]]]; try lia; cbn; ring.
    - apply rbind_ok in H as (a1 & H1 & H). apply rbind_ok in H1 as (u & Hu & H1). injection H1 as <-. rewrite (IH _ _ H i Hi), (start_one m P u PM Hu i Hi), lsum_cons.
      destruct i as [|[|[|[|i]]]]; try lia; cbn; ring. }
  intros i Hi. rewrite (G _ _ H i Hi). cbv beta. ring.
Qed.

Definition at_node (fs : list (nat * R)) (m : nat) : list R := map snd (filter (fun f => Nat.eqb (fst f) m) fs).

Lemma forces_parsed b fs : parsed_loads (set_loads b (node_forces fs)) = Ok (map (fun f => (Z.of_nat (fst f), LPL (snd f) 0)) fs).
Proof.
  unfold parsed_loads. cbn [b_LM set_loads with_LM]. unfold node_forces, parse_LM.
  assert (L : forallb is_list_row (map (fun f : nat * R => Row (Z.of_nat (fst f) + 1) 2 [snd f; 0]) fs) = true) by (induction fs; [reflexivity|assumption]).
  rewrite L. cbn [negb].
  assert (M : mapM parse_row (map (fun f : nat * R => Row (Z.of_nat (fst f) + 1) 2 [snd f; 0]) fs) = Ok (map (fun f => [(Z.of_nat (fst f), LPL (snd f) 0)]) fs)).
  { clear. induction fs as [|f t IH]; [reflexivity|]. cbn [map mapM]. rewrite IH. cbn [rbind parse_row get nth_error]. replace (Z.of_nat (fst f) + 1 - 1)%Z with (Z.of_nat (fst f)) by lia. reflexivity. }
  rewrite M. cbn [rbind]. clear M L.
  assert (C : concat (map (fun f : nat * R => [(Z.of_nat (fst f), LPL (snd f) 0)]) fs) = map (fun f => (Z.of_nat (fst f), LPL (snd f) 0)) fs) by (induction fs; cbn; congruence).
  rewrite C. clear C. match goal with |- mapM (attach_EI ?c) _ = _ => generalize c end. intros c. induction fs as [|f t IH]; [reflexivity|]. cbn [map mapM]. rewrite IH. reflexivity.
Qed.

Lemma forces_of fs m : loads_of (map (fun f : nat * R => (Z.of_nat (fst f), LPL (snd f) 0)) fs) m = map (fun P => LPL P 0) (at_node fs m).
Proof.
  unfold loads_of, at_node. induction fs as [|f t IH]; [reflexivity|]. cbn [map filter fst].
  destruct (Nat.eqb_spec (fst f) m) as [->|N].
  - rewrite Z.eqb_refl. cbn [map snd]. rewrite IH. reflexivity.
  - rewrite (proj2 (Z.eqb_neq _ _)) by lia. exact IH.
Qed.

Lemma split_at fs n (d : nat -> R) : Forall (fun f => (fst f < n)%nat) fs ->
  rsum n (fun m => lsum (at_node fs m) * d m) = lsum (map (fun f => snd f * d (fst f)) fs).
Proof.
  induction 1 as [|f t Hf _ IH].
  - cbn. apply rsum_0. intros. cbn. ring.
  - cbn [map]. rewrite lsum_cons, <- IH.
    assert (E := rsum_single n (fst f) (fun m => (if Nat.eqb (fst f) m then snd f else 0) * d m) Hf
      ltac:(intros m Hm Hne; cbv beta; rewrite (proj2 (Nat.eqb_neq _ _)) by (intros Q; apply Hne; symmetry; exact Q); ring)).
    cbv beta in E. rewrite Nat.eqb_refl in E. rewrite <- E, <- rsum_plus. apply rsum_ext. intros m Hm. unfold at_node. cbn [filter].
    destruct (Nat.eqb (fst f) m); cbn [map]; rewrite ?lsum_cons; ring.
Qed.

Lemma forces_vec b n fs rf : members b n plain_member -> loads_vec gl b n (node_forces fs) rf ->
  forall m, (m < n)%nat -> eq4 (rf m) (vec4 (lsum (at_node fs m)) 0 0 0).
Proof.
  intros HM (ls & El & H) m Hm. change (with_LM b (node_forces fs)) with (set_loads b (node_forces fs)) in El. rewrite forces_parsed in El. injection El as <-.
  destruct (H m Hm) as (mb & E1 & E2). rewrite forces_of in E2. exact (starts_ref mb _ _ (HM m mb Hm E1) E2).
Qed.

Lemma forces_work b n fs rf d : members b n plain_member -> Forall (fun f => (fst f < n)%nat) fs -> loads_vec gl b n (node_forces fs) rf ->
  rsum (2 * (n + 1)) (fun i => fcl rf n i * d i) = - lsum (map (fun f => snd f * d (2 * fst f)%nat) fs).
Proof.
  intros HM F LV. rewrite (rsum_ext _ _ (fun i => (-1) * (nodal_sum n rf i * d i))) by (intros i Hi; rewrite fcl_nodal by exact Hi; ring).
  rewrite rsum_scal, virtual_work. rewrite <- (split_at fs n (fun m => d (2 * m)%nat) F).
  rewrite (rsum_ext n _ (fun m => lsum (at_node fs m) * d (2 * m)%nat)); [ring|]. intros m Hm. cbn [rsum].
  rewrite !(forces_vec b n fs rf HM LV m Hm) by lia. cbn [vec4]. rewrite Nat.add_0_r. ring.
Qed.

(** ** The whole beam *)
Definition Kform (kb : nat -> mat) (b : beam) (n : nat) (d e : vec) : R :=
  rsum (2 * (n + 1)) (fun i => mulmv (2 * (n + 1)) (Kcl kb b n) d i * e i).

Lemma Kform_energy kb b n d : Kform kb b n d d =
  rsum n (fun m => energy (kb m) (ends d m)) + rsum (2 * (n + 1)) (fun i => - spring_force b i (d i) * d i).
Proof.
  unfold Kform. rewrite (rsum_ext _ _ (fun i => nodal_sum n (fun m => end_forces (kb m) (ends d m)) i * d i + - spring_force b i (d i) * d i)).
  - rewrite rsum_plus, virtual_work. f_equal. apply rsum_ext. intros m Hm. unfold energy. apply rsum_ext. intros q _. apply Rmult_comm.
  - intros i Hi. rewrite Kcl_mul by exact Hi. rewrite <- scat_nodal by exact Hi. ring.
Qed.

Lemma Kform_minus kb b n d e : (forall m, (m < n)%nat -> symmetric4 (kb m)) ->
  Kform kb b n (fun i => d i - e i) (fun i => d i - e i) = Kform kb b n d d - 2 * Kform kb b n d e + Kform kb b n e e.
Proof.
  intros Sy. assert (C := Kcl_bilinear kb b n d e Sy). change (Kform kb b n d e = Kform kb b n e d) in C.
  assert (E : Kform kb b n (fun i => d i - e i) (fun i => d i - e i) = Kform kb b n d d - Kform kb b n d e - Kform kb b n e d + Kform kb b n e e).
  { unfold Kform. set (N := (2 * (n + 1))%nat).
    assert (L : forall i, mulmv N (Kcl kb b n) (fun i => d i - e i) i = mulmv N (Kcl kb b n) d i - mulmv N (Kcl kb b n) e i).
    { intros i. unfold mulmv. replace (rsum N (fun j => Kcl kb b n i j * d j) - rsum N (fun j => Kcl kb b n i j * e j))
        with (rsum N (fun j => Kcl kb b n i j * d j) + (-1) * rsum N (fun j => Kcl kb b n i j * e j)) by ring.
      rewrite <- rsum_scal, <- rsum_plus. apply rsum_ext. intros j _. ring. }
    rewrite (rsum_ext N _ (fun i => mulmv N (Kcl kb b n) d i * d i + (-1) * (mulmv N (Kcl kb b n) d i * e i) + ((-1) * (mulmv N (Kcl kb b n) e i * d i) + mulmv N (Kcl kb b n) e i * e i)))
      by (intros i _; rewrite L; ring).
    rewrite !rsum_plus, !rsum_scal. ring. }
  lra.
Qed.

Lemma solved_works b n kb rf o e : no_settlement b -> solved gl b n kb rf o -> (forall i, (i < 2 * (n + 1))%nat -> held b i -> e i = 0) ->
  rsum (2 * (n + 1)) (fun i => fcl rf n i * e i) = Kform kb b n (o_d o) e.
Proof.
  intros ND S He. unfold Kform. apply rsum_ext. intros i Hi. assert (X := sv_eq _ _ _ _ _ _ S i Hi). specialize (He i Hi).
  destruct (bcv b i) eqn:E.
  - rewrite (He (proj2 (held_bcv gl ill b i) ltac:(rewrite E; discriminate))). ring.
  - rewrite X. reflexivity.
Qed.
Lemma solved_zero b n kb rf o i : no_settlement b -> solved gl b n kb rf o -> (i < 2 * (n + 1))%nat -> held b i -> o_d o i = 0.
Proof.
  intros ND S Hi Hh. assert (X := sv_eq _ _ _ _ _ _ S i Hi). apply (proj1 (held_bcv gl ill b i)) in Hh.
  assert (Z : forall v, bcv b i = Some v -> v = 0).
  { intros v E. unfold bcv in E. destruct (ND i) as [Q|Q]; rewrite Q in E; [destruct (Rlt_dec (restraint b i) 0)|]; congruence. }
  destruct (bcv b i) as [v|]; [rewrite X; apply Z; reflexivity|congruence].
Qed.

Lemma work_shrinks b b' n kb kb' rf rf' o o' : no_settlement b -> no_settlement b' -> stiffened b b' n -> gauss_rule gl ->
  members b n sound_member -> members b' n sound_member -> solved gl b n kb rf o -> solved gl b' n kb' rf' o' ->
  (forall i, (i < 2 * (n + 1))%nat -> fcl rf n i = fcl rf' n i) ->
  0 <= rsum (2 * (n + 1)) (fun i => fcl rf' n i * o_d o' i) <= rsum (2 * (n + 1)) (fun i => fcl rf n i * o_d o i).
Proof.
  intros ND ND' SB G HM HM' S S' EF. set (N := (2 * (n + 1))%nat) in *.
  assert (GK : forall m, (m < n)%nat -> exists mb mb', member_at b m = Ok mb /\ member_at b' m = Ok mb' /\ span_k gl mb = Ok (kb m) /\ span_k gl mb' = Ok (kb' m)).
  { intros m Hm. destruct (sy_k _ _ _ _ _ (sv_sys _ _ _ _ _ _ S) m Hm) as (mb & E1 & E2). destruct (sy_k _ _ _ _ _ (sv_sys _ _ _ _ _ _ S') m Hm) as (mb' & E3 & E4). eauto 8. }
  assert (GD : forall m, (m < n)%nat -> symmetric4 (kb m) /\ (forall d, 0 <= energy (kb m) d) /\ (forall d, 0 <= energy (kb' m) d) /\ forall d, energy (kb m) d <= energy (kb' m) d).
  { intros m Hm. destruct (GK m Hm) as (mb & mb' & E1 & E2 & E3 & E4). assert (Gd := span_k_good gl mb (kb m) G (HM m mb Hm E1) E3).
    assert (Gd' := span_k_good gl mb' (kb' m) G (HM' m mb' Hm E2) E4). split; [exact (g_sym _ _ Gd)|]. split; [exact (g_pos _ _ Gd)|]. split; [exact (g_pos _ _ Gd')|].
    intros d. exact (member_order gl mb mb' _ _ d G (HM m mb Hm E1) (HM' m mb' Hm E2) (sb_members _ _ _ SB m mb mb' Hm E1 E2) E3 E4). }
  assert (SN : forall c i u, 0 <= - spring_force c i u * u).
  { intros c i u. unfold spring_force. destruct (Rlt_dec 0 (restraint c i)); [|lra]. replace (- (- restraint c i * u) * u) with (restraint c i * (u * u)) by ring. apply Rmult_le_pos; [lra|nra]. }
  set (u := o_d o). set (u' := o_d o').
  assert (Hu' : forall i, (i < N)%nat -> held b' i -> u' i = 0) by (intros i; exact (solved_zero b' n kb' rf' o' i ND' S')).
  assert (Hu : forall i, (i < N)%nat -> held b i -> u i = 0) by (intros i; exact (solved_zero b n kb rf o i ND S)).
  assert (C : rsum N (fun i => fcl rf n i * u i) = Kform kb b n u u) by exact (solved_works b n kb rf o u ND S Hu).
  assert (C' : rsum N (fun i => fcl rf' n i * u' i) = Kform kb' b' n u' u') by exact (solved_works b' n kb' rf' o' u' ND' S' Hu').
  assert (X : rsum N (fun i => fcl rf' n i * u' i) = Kform kb b n u u').
  { rewrite (rsum_ext N _ (fun i => fcl rf n i * u' i)) by (intros i Hi; rewrite (EF i Hi); reflexivity).
    exact (solved_works b n kb rf o u' ND S (fun i Hi Hh => Hu' i Hi (sb_held _ _ _ SB i Hi Hh))). }
  assert (PS : forall d, 0 <= Kform kb b n d d).
  { intros d. rewrite Kform_energy. apply Rplus_le_le_0_compat; apply rsum_nonneg; intros i Hi; [apply (GD i Hi)|apply SN]. }
  assert (PS' : 0 <= Kform kb' b' n u' u').
  { rewrite Kform_energy. apply Rplus_le_le_0_compat; apply rsum_nonneg; intros i Hi; [apply (GD i Hi)|apply SN]. }
  assert (OR : Kform kb b n u' u' <= Kform kb' b' n u' u').
  { rewrite !Kform_energy. apply Rplus_le_compat; apply rsum_le; intros i Hi; [apply (GD i Hi)|].
    unfold spring_force. assert (Dh : held b' i \/ ~ held b' i) by (rewrite (held_bcv gl ill); destruct (bcv b' i); [left; discriminate|right; intros Q; apply Q; reflexivity]).
    destruct Dh as [Hh|Hh]; [rewrite (Hu' i Hi Hh); destruct (Rlt_dec 0 (restraint b i)), (Rlt_dec 0 (restraint b' i)); lra|].
    assert (Rr := sb_springs _ _ _ SB i Hi Hh). assert (0 <= u' i * u' i) by nra.
    destruct (Rlt_dec 0 (restraint b i)), (Rlt_dec 0 (restraint b' i)); nra. }
  assert (D := PS (fun i => u i - u' i)). rewrite Kform_minus in D by (intros m Hm; apply (GD m Hm)).
  rewrite C, C' in *. lra.
Qed.

Lemma stiffening a a' fs check check' o o' : gauss_rule gl -> an_n a' = an_n a -> stiffened (an_beam a) (an_beam a') (an_n a) ->
  no_settlement (an_beam a) -> no_settlement (an_beam a') -> members (an_beam a) (an_n a) plain_member -> members (an_beam a') (an_n a) plain_member ->
  Forall (fun f => (fst f < an_n a)%nat) fs -> run gl ill a (node_forces fs) check = Ok o -> run gl ill a' (node_forces fs) check' = Ok o' ->
  lsum (map (fun f => snd f * o_d o (2 * fst f)%nat) fs) <= lsum (map (fun f => snd f * o_d o' (2 * fst f)%nat) fs) <= 0.
Proof.
  intros G EN SB ND ND' HM HM' F R R'.
  destruct (run_solved _ _ _ _ _ _ R) as (kb & rf & S & LV). destruct (run_solved _ _ _ _ _ _ R') as (kb' & rf' & S' & LV'). rewrite EN in S', LV'.
  assert (EF : forall i, (i < 2 * (an_n a + 1))%nat -> fcl rf (an_n a) i = fcl rf' (an_n a) i).
  { intros i Hi. rewrite !fcl_nodal by exact Hi. f_equal. unfold nodal_sum.
    assert (Ei : (i = 2 * (i / 2) + i mod 2)%nat) by (apply Nat.div_mod; lia). assert ((i mod 2 < 2)%nat) by (apply Nat.mod_upper_bound; lia).
    f_equal.
    - destruct (Nat.ltb_spec i (2 * an_n a)); [|reflexivity]. rewrite (forces_vec _ _ fs rf HM LV), (forces_vec _ _ fs rf' HM' LV') by lia. reflexivity.
    - destruct (Nat.leb_spec 2 i); [|reflexivity]. rewrite (forces_vec _ _ fs rf HM LV), (forces_vec _ _ fs rf' HM' LV') by lia. reflexivity. }
  assert (W := work_shrinks (var (an_beam a) (node_forces fs) (b_D (an_beam a)) (b_version (an_beam a)))
    (var (an_beam a') (node_forces fs) (b_D (an_beam a')) (b_version (an_beam a'))) (an_n a) kb kb' rf rf' o o' ND ND'
    ltac:(destruct SB as [S1 S2 S3]; constructor; [exact S1|exact S2|exact S3]) G (fun m mb Hm E => proj1 (HM m mb Hm E)) (fun m mb Hm E => proj1 (HM' m mb Hm E)) S S' EF).
  rewrite (forces_work _ _ fs rf (o_d o) HM F LV), (forces_work _ _ fs rf' (o_d o') HM' F LV') in W. lra.
Qed.
End G.

Section G2.
Variable gl : nat -> list (R * R).
Variable ill : nat -> mat -> bool.
Lemma maxwell_plain a P i j check oi oj : gauss_rule gl -> no_settlement (an_beam a) -> members (an_beam a) (an_n a) plain_member ->
  (i < an_n a)%nat -> (j < an_n a)%nat -> run gl ill a (node_force P i) check = Ok oi -> run gl ill a (node_force P j) check = Ok oj ->
  P <> 0 -> o_d oi (2 * j)%nat = o_d oj (2 * i)%nat.
Proof.
  intros G ND HM Hi Hj Ri Rj HP.
  destruct (run_solved _ _ _ _ _ _ Ri) as (ki & ri & Si & Li). destruct (run_solved _ _ _ _ _ _ Rj) as (kj & rj & Sj & Lj).
  assert (E : forall A r d, loads_vec gl (an_beam a) (an_n a) A r -> load_work gl (set_loads (an_beam a) A) (an_n a) d (rsum (2 * (an_n a + 1)) (fun i => - nodal_sum (an_n a) r i * d i))).
  { intros A r d L. exists r. split; [exact L|reflexivity]. }
  assert (B := betti gl ill a _ _ check oi oj _ _ G ND (fun m mb Hm Em => proj1 (HM m mb Hm Em)) Ri Rj (E _ _ _ Li) (E _ _ _ Lj)).
  assert (W : forall k r d, (k < an_n a)%nat -> loads_vec gl (an_beam a) (an_n a) (node_force P k) r ->
    rsum (2 * (an_n a + 1)) (fun i => - nodal_sum (an_n a) r i * d i) = - (P * d (2 * k)%nat)).
  { intros k r d Hk L. rewrite (rsum_ext _ _ (fun i => fcl r (an_n a) i * d i)) by (intros q Hq; rewrite fcl_nodal by exact Hq; reflexivity).
    rewrite (forces_work gl (an_beam a) (an_n a) [(k, P)] r d HM ltac:(repeat constructor; exact Hk) L). cbn. ring. }
  rewrite (W i ri _ Hi Li), (W j rj _ Hj Lj) in B. apply (Rmult_eq_reg_l P); [lra|exact HP].
Qed.
End G2.

Lemma rigid_refl e : stiffer_rigid e e.
Proof.
  destruct e as [c|s]; cbn; [lra|]. split.
  - induction (s_pieces s); constructor; auto.
  - intros p x v v' _ _ E E'. rewrite E in E'. injection E' as ->. lra.
Qed.
Lemma stiff_refl b n : stiffened b b n.
Proof.
  constructor; auto; try (intros; lra). intros m mb mb' _ E E'. rewrite E in E'. injection E' as <-.
  constructor; auto using rigid_refl. destruct (mb_GAv mb); auto using rigid_refl.
Qed.

Lemma stiffening_sense gl ill a fs check o : gauss_rule gl -> no_settlement (an_beam a) -> members (an_beam a) (an_n a) plain_member ->
  Forall (fun f => (fst f < an_n a)%nat) fs -> run gl ill a (node_forces fs) check = Ok o ->
  lsum (map (fun f => snd f * o_d o (2 * fst f)%nat) fs) <= 0.
Proof. intros G ND HM F R. exact (proj2 (stiffening gl ill a a fs check check o o G eq_refl (stiff_refl _ _) ND ND HM HM F R R)). Qed.

Lemma stiffening_total gl ill a a' fs check check' o o' : gauss_rule gl -> an_n a' = an_n a -> stiffened (an_beam a) (an_beam a') (an_n a) ->
  no_settlement (an_beam a) -> no_settlement (an_beam a') -> members (an_beam a) (an_n a) plain_member -> members (an_beam a') (an_n a) plain_member ->
  Forall (fun f => (fst f < an_n a)%nat) fs -> run gl ill a (node_forces fs) check = Ok o -> run gl ill a' (node_forces fs) check' = Ok o' ->
  Rabs (lsum (map (fun f => snd f * o_d o' (2 * fst f)%nat) fs)) <= Rabs (lsum (map (fun f => snd f * o_d o (2 * fst f)%nat) fs)).
Proof.
  intros. destruct (stiffening gl ill a a' fs check check' o o') as [S1 S2]; auto. rewrite !Rabs_left1 by lra. lra.
Qed.

Lemma stiffening_one gl ill a a' j P check check' o o' : gauss_rule gl -> an_n a' = an_n a -> stiffened (an_beam a) (an_beam a') (an_n a) ->
  no_settlement (an_beam a) -> no_settlement (an_beam a') -> members (an_beam a) (an_n a) plain_member -> members (an_beam a') (an_n a) plain_member ->
  (j < an_n a)%nat -> 0 < P -> run gl ill a (node_force P j) check = Ok o -> run gl ill a' (node_force P j) check' = Ok o' ->
  o_d o (2 * j)%nat <= o_d o' (2 * j)%nat <= 0.
Proof.
  intros G EN SB ND ND' HM HM' Hj HP R R'.
  assert (S := stiffening gl ill a a' [(j, P)] check check' o o' G EN SB ND ND' HM HM' ltac:(repeat constructor; exact Hj) R R').
  cbn [map fst snd] in S. rewrite !lsum_cons in S. change (lsum []) with 0 in S. cbn [fst snd] in S. split; apply (Rmult_le_reg_l P); try exact HP; lra.
Qed.
