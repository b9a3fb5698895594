(** Facts for C88, part five: loads of a member replaced by others that say the same. *)
From Coq Require Import Lia ZArith Permutation FunctionalExtensionality.
From Verif Require Import Base BaseFacts Linalg SectionModel FlexModel LoadModel LoadSpec FoundationModel ElementModel UtilsModel BeamModel AnalysisModel AnalysisFacts LinearFacts SuperFacts ResultsModel ResultsFacts CombFacts LoadEqSpec LoadEqFacts LoadEqFacts2 LoadEqFacts3 LoadEqFacts4.
Open Scope R_scope.

Lemma foldM_ext_in {A S} (f g : S -> A -> result S) l : (forall s a, In a l -> f s a = g s a) -> forall s, foldM f l s = foldM g l s.
Proof. induction l as [|a l IH]; intros H s; cbn [foldM]; [reflexivity|]. rewrite (H s a (or_introl eq_refl)). destruct (g s a); cbn [rbind]; auto. apply IH. intros. apply H. right. assumption. Qed.
Lemma map2_assoc a b c : map2 Rplus a (map2 Rplus b c) = map2 Rplus (map2 Rplus a b) c.
Proof. revert b c. induction a as [|x a IH]; intros [|y b] [|z c]; try reflexivity. unfold map2 in *. cbn. rewrite IH. f_equal. ring. Qed.
Lemma mres_add_assoc a b c : mres_add a (mres_add b c) = mres_add (mres_add a b) c.
Proof. unfold mres_add. cbn [r_x r_M r_V r_R r_D]. rewrite !map2_assoc. reflexivity. Qed.

Section S.
Variables (gl : nat -> list (R * R)) (m : member).
Local Notation L := (mb_L m).
Hypothesis HL : 0 < L.
Hypothesis HK : mb_kf m = None.
Hypothesis HE : marks_inside L (mb_EI m).
Hypothesis HG : forall g, mb_GAv m = Some g -> marks_inside L g.

Lemma curv_same ld l1 es xx : equals gl L ld l1 -> within L xx -> curvatures ld es xx L = curvatures l1 es xx L.
Proof.
  intros (N & N1 & _ & H) W. unfold curvatures. rewrite (H xx W). apply map_ext. intros (a & e & x). destruct ld, l1; try contradiction; reflexivity.
Qed.
Lemma nonprism_same ld l1 EI : equals gl L ld l1 -> Forall (fun x => 0 <= x <= L) (breakpoints EI) -> nonprism_theta0 ld EI L = nonprism_theta0 l1 EI L.
Proof.
  intros H HB. rewrite !nonprism_steps. apply foldM_ext_in. intros s ab Hab. destruct (within_pairs L _ ab (within_edges L _ HL HB) Hab) as [A B]. unfold nstep.
  destruct (Rleb (snd ab) (fst ab)) eqn:E; [reflexivity|]. assert (W : within L (fine_grid (fst ab) (snd ab))). { apply within_fine; [exact A| |exact B]. unfold Rleb in E. destruct (Rle_dec (snd ab) (fst ab)); [discriminate|lra]. }
  cbv zeta. destruct (mapM _ _); cbn [rbind]; [|reflexivity]. rewrite (curv_same _ _ _ _ H W). reflexivity.
Qed.
Lemma timo_same ld l1 EI GAv : equals gl L ld l1 -> marks_inside L EI -> marks_inside L GAv -> timo_theta0 ld EI GAv L = timo_theta0 l1 EI GAv L.
Proof.
  intros H HE' HG'. rewrite !timo_steps.
  assert (W : within L (tbps EI GAv)). { unfold tbps, within. apply Forall_app. split; [destruct EI; [constructor|exact HE']|destruct GAv; [constructor|exact HG']]. }
  assert (We : within L (tedges L EI GAv)). { unfold tedges. destruct (tbps EI GAv) as [|p l] eqn:E; [constructor; [lra|constructor; [lra|constructor]]|rewrite <- E; apply within_edges; [exact HL|rewrite E; exact W]]. }
  apply foldM_ext_in. intros s ab Hab. destruct (within_pairs L _ ab We Hab) as [A B]. unfold tstep.
  destruct (Rleb (snd ab) (fst ab)) eqn:E; [reflexivity|]. assert (Wf : within L (fine_grid (fst ab) (snd ab))). { apply within_fine; [exact A| |exact B]. unfold Rleb in E. destruct (Rle_dec (snd ab) (fst ab)); [discriminate|lra]. }
  cbv zeta. destruct (rigid_at EI _); cbn [rbind]; [|reflexivity]. destruct (rigid_at GAv _); cbn [rbind]; [|reflexivity]. rewrite (curv_same _ _ _ _ H Wf).
  destruct H as (_ & _ & _ & H). rewrite (H _ Wf). reflexivity.
Qed.
Lemma ref_same ld l1 : equals gl L ld l1 -> ref_one gl m ld = ref_one gl m l1.
Proof.
  intros H. pose proof H as (_ & _ & (c & C & C1) & _). unfold ref_one. destruct (mb_GAv m) as [g|] eqn:EG.
  - unfold ref_timoshenko. rewrite C, C1. cbn [rbind]. rewrite (timo_same ld l1 _ _ H HE (HG g eq_refl)). reflexivity.
  - destruct (mb_EI m) as [e|s] eqn:EE; [unfold load_get_ref; rewrite C, C1; reflexivity|]. unfold ref_nonprismatic. rewrite (nonprism_same ld l1 s H HE). rewrite C, C1. reflexivity.
Qed.

Lemma span_same ld l1 k : equals gl L ld l1 -> span_ref gl m (ld :: k) = span_ref gl m (l1 :: k).
Proof. intros H. unfold span_ref. rewrite HK. cbn [foldM]. rewrite (ref_same ld l1 H). reflexivity. Qed.
Lemma span_sum ld l1 l2 k : sums gl L ld l1 l2 -> span_ref gl m (ld :: k) = span_ref gl m (l1 :: l2 :: k).
Proof.
  intros H. unfold span_ref. rewrite HK. cbn [foldM]. destruct (ref_sum gl L HL ld l1 l2 H m eq_refl HE HG) as [E T]. rewrite E.
  destruct T as [(e & E1 & E2)|(u & v & E1 & E2)]; rewrite E1, E2; [reflexivity|]. unfold vradd. cbn [rbind].
  match goal with |- foldM ?f k ?s = foldM ?f k ?t => replace t with s; [reflexivity|] end. apply functional_extensionality. intros i. unfold vadd. ring.
Qed.

Definition kapf (l : list load) (x s : R) : R := fold_left (fun s ld => match ld with LIC k0 _ => s + kappa_imp k0 x | _ => s end) l s.
Lemma kapf_skip ld k x s : not_ic ld -> kapf (ld :: k) x s = kapf k x s.
Proof. destruct ld; intros H; try contradiction; reflexivity. Qed.

Lemma values_same ld l1 k f d npts sp : equals gl L ld l1 -> member_values gl m (ld :: k) f d npts sp = member_values gl m (l1 :: k) f d npts sp.
Proof.
  intros (N & N1 & (c & C & C1) & H). unfold member_values. cbv zeta. cbn [mapM fold_left]. rewrite C, C1. cbn [rbind]. rewrite (H _ (within_stations L npts sp HL)).
  assert (K : forall x, fold_left (fun s ld => match ld with LIC k0 _ => s + kappa_imp k0 x | _ => s end) k (match ld with LIC k0 _ => 0 + kappa_imp k0 x | _ => 0 end) =
    fold_left (fun s ld => match ld with LIC k0 _ => s + kappa_imp k0 x | _ => s end) k (match l1 with LIC k0 _ => 0 + kappa_imp k0 x | _ => 0 end)).
  { intros x. destruct ld, l1; try contradiction; reflexivity. }
  rewrite (map_ext _ _ K). reflexivity.
Qed.
Lemma values_sum ld l1 l2 k f d npts sp : sums gl L ld l1 l2 -> member_values gl m (ld :: k) f d npts sp = member_values gl m (l1 :: l2 :: k) f d npts sp.
Proof.
  intros (N & N1 & N2 & (c & c1 & c2 & C & C1 & C2 & EC) & H). unfold member_values. cbv zeta. cbn [mapM fold_left]. rewrite C, C1, C2. cbn [rbind]. rewrite (H _ (within_stations L npts sp HL)).
  assert (K : forall x, fold_left (fun s ld => match ld with LIC k0 _ => s + kappa_imp k0 x | _ => s end) k (match ld with LIC k0 _ => 0 + kappa_imp k0 x | _ => 0 end) =
    fold_left (fun s ld => match ld with LIC k0 _ => s + kappa_imp k0 x | _ => s end) k (match l2 with LIC k0 _ => match l1 with LIC k1 _ => 0 + kappa_imp k1 x | _ => 0 end + kappa_imp k0 x | _ => match l1 with LIC k0 _ => 0 + kappa_imp k0 x | _ => 0 end end)).
  { intros x. destruct ld, l1, l2; try contradiction; reflexivity. }
  rewrite (map_ext _ _ K). rewrite mres_add_assoc. destruct (mapM (fun ld0 => get_cnl gl ld0 L) k) as [cs|]; cbn [rbind]; [|reflexivity]. cbn [fold_left]. subst c.
  replace (0 + c_Ma (cnl_add c1 c2)) with (0 + c_Ma c1 + c_Ma c2) by (cbn; ring). replace (0 + c_Mb (cnl_add c1 c2)) with (0 + c_Mb c1 + c_Mb c2) by (cbn; ring). reflexivity.
Qed.

Lemma on_same ld l1 k : equals gl L ld l1 -> same_on gl m (ld :: k) (l1 :: k) /\ same_on gl m (l1 :: k) (ld :: k).
Proof.
  intros H. assert (V : forall f d npts sp, member_results gl m (ld :: k) f d npts sp = member_results gl m (l1 :: k) f d npts sp).
  { intros. unfold member_results. rewrite HK. apply values_same, H. }
  split; (split; [intros v; rewrite (span_same ld l1 k H); auto|intros f d npts sp r; rewrite V; auto]).
Qed.
Lemma on_sum ld l1 l2 k : sums gl L ld l1 l2 -> same_on gl m (ld :: k) (l1 :: l2 :: k) /\ same_on gl m (l1 :: l2 :: k) (ld :: k).
Proof.
  intros H. assert (V : forall f d npts sp, member_results gl m (ld :: k) f d npts sp = member_results gl m (l1 :: l2 :: k) f d npts sp).
  { intros. unfold member_results. rewrite HK. apply values_sum, H. }
  split; (split; [intros v; rewrite (span_sum ld l1 l2 k H); auto|intros f d npts sp r; rewrite V; auto]).
Qed.
End S.

(** ** The loads *)
Section Loads.
Variables (gl : nat -> list (R * R)) (L : R).
Hypothesis HL : 0 < L.

Lemma sums_of ld l1 l2 c c1 c2 d d1 d2 : not_ic ld -> not_ic l1 -> not_ic l2 -> get_cnl gl ld L = Ok c -> get_cnl gl l1 L = Ok c1 -> get_cnl gl l2 L = Ok c2 -> c = cnl_add c1 c2 ->
  diag_of ld L = Some d -> diag_of l1 L = Some d1 -> diag_of l2 L = Some d2 -> diag_sum L d d1 d2 -> sums gl L ld l1 l2.
Proof.
  intros N N1 N2 C C1 C2 E D D1 D2 H. split; [exact N|]. split; [exact N1|]. split; [exact N2|]. split; [eauto 10|]. intros xs W.
  assert (G : forall l d, not_ic l -> diag_of l L = Some d -> get_mbr_results l xs L = sample d xs). { intros l d' Hl Hd. unfold get_mbr_results. rewrite Hd. destruct l; try contradiction; reflexivity. }
  rewrite (G _ _ N D), (G _ _ N1 D1), (G _ _ N2 D2). apply sample_sum with L; assumption.
Qed.
Lemma equals_of ld l1 c d d1 : not_ic ld -> not_ic l1 -> get_cnl gl ld L = Ok c -> get_cnl gl l1 L = Ok c ->
  diag_of ld L = Some d -> diag_of l1 L = Some d1 -> diag_same L d d1 -> equals gl L ld l1.
Proof.
  intros N N1 C C1 D D1 H. split; [exact N|]. split; [exact N1|]. split; [eauto|]. intros xs W.
  assert (G : forall l d, not_ic l -> diag_of l L = Some d -> get_mbr_results l xs L = sample d xs). { intros l d' Hl Hd. unfold get_mbr_results. rewrite Hd. destruct l; try contradiction; reflexivity. }
  rewrite (G _ _ N D), (G _ _ N1 D1). apply sample_same with L; assumption.
Qed.
Lemma cnl_eq a b : c_Va a = c_Va b -> c_Ma a = c_Ma b -> c_Vb a = c_Vb b -> c_Mb a = c_Mb b -> a = b.
Proof. destruct a, b; cbn; intros; subst; reflexivity. Qed.
Lemma ok_cnl a b : c_Va a = c_Va b -> c_Ma a = c_Ma b -> c_Vb a = c_Vb b -> c_Mb a = c_Mb b -> Ok a = Ok b.
Proof. intros. apply f_equal, cnl_eq; assumption. Qed.

Lemma sum_udl u v : sums gl L (LUDL (u + v)) (LUDL u) (LUDL v).
Proof.
  eapply sums_of; try exact I; try reflexivity; [apply cnl_eq; cbn; unfold Rdiv; ring|]. intros x _. cbn. unfold Rdiv. repeat split; ring.
Qed.
Lemma sum_point P Q a : sums gl L (LPL (P + Q) a) (LPL P a) (LPL Q a).
Proof.
  eapply sums_of; try exact I; try reflexivity; [apply cnl_eq; cbn; unfold Rdiv; ring|]. intros x _. cbn. unfold Rdiv. repeat split; ring.
Qed.
Definition pform (w a c : R) : cnl := let s := a + c / 2 in let t := L - s in
  {| c_Va := (w * c / L^3) * ((2 * s + L) * t^2 + (s - t) * c^2 / 4); c_Vb := w * c - (w * c / L^3) * ((2 * s + L) * t^2 + (s - t) * c^2 / 4);
     c_Ma := (w * c / L^2) * (s * t^2 + (s - 2 * t) * c^2 / 12); c_Mb := - (w * c / L^2) * (t * s^2 + (t - 2 * s) * c^2 / 12) |}.
Definition clip (a c : R) : R := if Rltb (L - (a + c)) 0 then c + (L - (a + c)) else c.
Lemma part_form w a c : a <= L -> get_cnl gl (LPUDL w a c) L = Ok (pform w a (clip a c)).
Proof. intros H. cbn [get_cnl]. unfold pudl_cnl. unfold Rltb at 1. destruct (Rlt_dec L a); [lra|]. reflexivity. Qed.
Lemma part_inside w a c : 0 <= c -> a + c <= L -> get_cnl gl (LPUDL w a c) L = Ok (pform w a c).
Proof. intros Hc H. rewrite part_form by lra. unfold clip, Rltb. destruct (Rlt_dec (L - (a + c)) 0); [lra|reflexivity]. Qed.
Lemma sum_part u v a c : a <= L -> sums gl L (LPUDL (u + v) a c) (LPUDL u a c) (LPUDL v a c).
Proof.
  intros Ha. refine (sums_of (LPUDL (u + v) a c) (LPUDL u a c) (LPUDL v a c) _ _ _ _ _ _ I I I (part_form _ _ _ Ha) (part_form _ _ _ Ha) (part_form _ _ _ Ha) _ eq_refl eq_refl eq_refl _).
  - generalize (clip a c). intros k. apply cnl_eq; cbn; unfold Rdiv; ring.
  - intros x _. cbn. unfold Rdiv. repeat split; ring.
Qed.
Lemma sum_moment M N a : sums gl L (LML (M + N) a) (LML M a) (LML N a).
Proof.
  eapply sums_of; try exact I; try reflexivity; [apply cnl_eq; cbn; unfold Rdiv; ring|]. intros x _. cbn. unfold Rdiv. repeat split; ring.
Qed.
Lemma sum_ramp u1 u2 v1 v2 a co : sums gl L (LTrap (u1 + v1) (u2 + v2) a co) (LTrap u1 u2 a co) (LTrap v1 v2 a co).
Proof.
  eapply sums_of; try exact I; try reflexivity.
  - unfold trap_cnl, trap_resolve. cbv zeta. set (c := match co with Some c => c | None => L - a end).
    destruct (Rleb L a || Rleb c 0); [|destruct (Rltb L (a + c))]; (match goal with |- context [Rleb ?x 0] => destruct (Rleb x 0) end); apply cnl_eq; cbn; unfold Rdiv; ring.
  - intros x _. unfold trap_diag, trap_resolve. cbv zeta. set (c := match co with Some c => c | None => L - a end).
    destruct (Rleb L a || Rleb c 0); [|destruct (Rltb L (a + c))]; (match goal with |- context [Rleb ?x 0] => destruct (Rleb x 0) end); cbn [f_V f_M f_R f_D]; unfold Rdiv; repeat split; ring.
Qed.
Lemma MB_pos v : 0 <= v -> MB v = v.
Proof. intros. unfold MB. apply Rmax_left. lra. Qed.
Lemma MB_neg v : v <= 0 -> MB v = 0.
Proof. intros. unfold MB. apply Rmax_right. lra. Qed.
Lemma same_whole w : equals gl L (LUDL w) (LPUDL w 0 L).
Proof.
  eapply equals_of with (c := udl_cnl w L); try exact I; try reflexivity.
  - cbn [get_cnl]. unfold pudl_cnl. unfold Rltb. destruct (Rlt_dec L 0); [lra|]. destruct (Rlt_dec (L - (0 + L)) 0); [lra|]. apply ok_cnl; cbn; field; lra.
  - intros x Hx. cbn [udl_diag pudl_diag f_V f_M f_R f_D]. rewrite (MB_pos (x - 0)) by lra. rewrite (MB_neg (x - (L + 0))) by lra. repeat split; field; lra.
Qed.
Lemma ramp_inside w1 w2 a c : 0 < c -> a + c <= L -> trap_resolve w1 w2 a (Some c) L = (w1, w2, w2 - w1, a, c).
Proof.
  intros Hc H. unfold trap_resolve. cbv zeta. unfold Rleb, Rltb. destruct (Rle_dec L a); [lra|]. destruct (Rle_dec c 0); [lra|]. cbn [orb]. destruct (Rlt_dec L (a + c)); [lra|]. reflexivity.
Qed.
Lemma same_level w a c : 0 <= a -> 0 < c -> a + c <= L -> equals gl L (LPUDL w a c) (LTrap w w a (Some c)).
Proof.
  intros Ha Hc H. assert (C0 : Rleb c 0 = false) by (unfold Rleb; destruct (Rle_dec c 0); [lra|reflexivity]). refine (equals_of (LPUDL w a c) (LTrap w w a (Some c)) _ _ _ I I (part_inside w a c _ _) _ eq_refl eq_refl _); [lra|lra| |].
  - cbn [get_cnl]. unfold trap_cnl. rewrite ramp_inside by lra. rewrite C0. apply ok_cnl; cbn; field; repeat split; lra.
  - intros x Hx. unfold trap_diag. rewrite ramp_inside by lra. rewrite C0. cbn [pudl_diag f_V f_M f_R f_D]. replace (x - (c + a)) with (x - (a + c)) by ring. repeat split; field; repeat split; lra.
Qed.
Lemma same_extent w1 w2 a : equals gl L (LTrap w1 w2 a None) (LTrap w1 w2 a (Some (L - a))).
Proof. eapply equals_of; try exact I; try reflexivity. intros x Hx. repeat split; reflexivity. Qed.
Lemma cut_part w a c d : 0 <= a -> 0 <= c -> 0 <= d -> a + c + d <= L -> sums gl L (LPUDL w a (c + d)) (LPUDL w a c) (LPUDL w (a + c) d).
Proof.
  intros Ha Hc Hd H. refine (sums_of (LPUDL w a (c + d)) (LPUDL w a c) (LPUDL w (a + c) d) _ _ _ _ _ _ I I I (part_inside w a (c + d) _ _) (part_inside w a c _ _) (part_inside w (a + c) d _ _) _ eq_refl eq_refl eq_refl _); try lra.
  - apply cnl_eq; cbn; field; lra.
  - intros x _. cbn [pudl_diag f_V f_M f_R f_D]. replace (x - (c + a)) with (x - (a + c)) by ring. replace (x - (c + d + a)) with (x - (d + (a + c))) by ring. repeat split; field; lra.
Qed.
Lemma cut_ramp w1 w2 a c d : 0 <= a -> 0 < c -> 0 < d -> a + c + d <= L -> let mid := w1 + (w2 - w1) * (c / (c + d)) in
  sums gl L (LTrap w1 w2 a (Some (c + d))) (LTrap w1 mid a (Some c)) (LTrap mid w2 (a + c) (Some d)).
Proof.
  intros Ha Hc Hd H mid. assert (C0 : Rleb c 0 = false) by (unfold Rleb; destruct (Rle_dec c 0); [lra|reflexivity]). assert (D0 : Rleb d 0 = false) by (unfold Rleb; destruct (Rle_dec d 0); [lra|reflexivity]).
  assert (CD0 : Rleb (c + d) 0 = false) by (unfold Rleb; destruct (Rle_dec (c + d) 0); [lra|reflexivity]).
  eapply sums_of; try exact I; try reflexivity.
  - unfold trap_cnl. rewrite !ramp_inside by lra. rewrite C0, D0, CD0. unfold mid. apply cnl_eq; cbn; field; repeat split; lra.
  - intros x _. unfold trap_diag. rewrite !ramp_inside by lra. rewrite C0, D0, CD0. cbn [f_V f_M f_R f_D]. replace (x - (a + (c + d))) with (x - (a + c + d)) by ring. unfold mid.
    repeat split; field; repeat split; lra.
Qed.
End Loads.
