(** Member results are linear in the loads, end forces and displacements (C29). *)
From Coq Require Import Lia Permutation String.
From Verif Require Import Base BaseFacts Linalg LinalgFacts SectionModel FlexModel LoadModel LoadSpec FoundationModel
  ElementModel ElementSpec UtilsModel BeamModel AnalysisModel AnalysisSpec LMFacts LinearFacts AnalysisFacts AnalysisFacts2 SuperFacts
  ClampFacts ResultsModel ResultsSpec ResultsFacts LoadCasesModel LoadCasesSpec LoadCasesFacts.
Open Scope R_scope.
Local Notation length := List.length.
Local Open Scope list_scope.

(** ** Entrywise combinations of lists *)
Inductive L3 (c1 c2 : R) : list R -> list R -> list R -> Prop :=
  | L3_nil : L3 c1 c2 [] [] []
  | L3_cons a b c l1 l2 l : c = c1 * a + c2 * b -> L3 c1 c2 l1 l2 l -> L3 c1 c2 (a :: l1) (b :: l2) (c :: l).
Lemma L3_lcomb c1 c2 l1 l2 l : L3 c1 c2 l1 l2 l <-> lcomb c1 l1 c2 l2 l.
Proof.
  split.
  - induction 1 as [|a b c l1 l2 l E H IH]; [split; [reflexivity|]; split; [reflexivity|]; intros [|i]; cbn; ring|].
    destruct IH as (H1 & H2 & H3). split; [cbn; congruence|]. split; [cbn; congruence|]. intros [|i]; cbn; [exact E|apply H3].
  - revert l1 l2. induction l as [|c l IH]; intros [|a l1] [|b l2] (H1 & H2 & H3); try discriminate; constructor.
    + exact (H3 0%nat).
    + apply IH. split; [cbn in H1; lia|]. split; [cbn in H2; lia|]. intros i. exact (H3 (S i)).
Qed.
Lemma L3_len c1 c2 l1 l2 l : L3 c1 c2 l1 l2 l -> length l1 = length l /\ length l2 = length l.
Proof. induction 1 as [|? ? ? ? ? ? _ _ [A B]]; cbn; auto. Qed.
Lemma L3_nth c1 c2 l1 l2 l i : L3 c1 c2 l1 l2 l -> nth i l 0 = c1 * nth i l1 0 + c2 * nth i l2 0.
Proof. intros H. apply L3_lcomb in H. apply H. Qed.
Lemma L3_app c1 c2 l1 l2 l k1 k2 k : L3 c1 c2 l1 l2 l -> L3 c1 c2 k1 k2 k -> L3 c1 c2 (l1 ++ k1) (l2 ++ k2) (l ++ k).
Proof. induction 1; intros H'; cbn; [exact H'|]. constructor; auto. Qed.
Lemma L3_tl c1 c2 l1 l2 l : L3 c1 c2 l1 l2 l -> L3 c1 c2 (tl l1) (tl l2) (tl l).
Proof. induction 1; cbn; [constructor|assumption]. Qed.
Lemma L3_removelast c1 c2 l1 l2 l : L3 c1 c2 l1 l2 l -> L3 c1 c2 (removelast l1) (removelast l2) (removelast l).
Proof.
  induction 1 as [|a b c l1 l2 l E H IH]; [constructor|]. destruct H; [constructor|]. change (L3 c1 c2 (a :: removelast (a0 :: l1)) (b :: removelast (b0 :: l2)) (c :: removelast (c0 :: l))).
  constructor; [exact E|exact IH].
Qed.
Lemma L3_inner c1 c2 l1 l2 l : L3 c1 c2 l1 l2 l -> L3 c1 c2 (inner l1) (inner l2) (inner l).
Proof. intros H. apply L3_removelast, L3_tl, H. Qed.
Lemma L3_last c1 c2 l1 l2 l : L3 c1 c2 l1 l2 l -> last l 0 = c1 * last l1 0 + c2 * last l2 0.
Proof.
  induction 1 as [|a b c l1 l2 l E H IH]; [cbn; ring|]. destruct H; [exact E|exact IH].
Qed.
Lemma L3_plus c1 c2 l1 l2 l k1 k2 k : L3 c1 c2 l1 l2 l -> L3 c1 c2 k1 k2 k ->
  L3 c1 c2 (map2 Rplus l1 k1) (map2 Rplus l2 k2) (map2 Rplus l k).
Proof.
  intros H. revert k1 k2 k. induction H as [|a b c l1 l2 l E H IH]; intros k1 k2 k K; [constructor|].
  destruct K as [|a' b' c' k1 k2 k E' K]; [constructor|]. change (L3 c1 c2 (a + a' :: map2 Rplus l1 k1) (b + b' :: map2 Rplus l2 k2) (c + c' :: map2 Rplus l k)).
  constructor; [rewrite E, E'; ring|apply IH, K].
Qed.
Lemma L3_scaled (f : R -> R -> R) c1 c2 l1 l2 l k : (forall a b e, f (c1 * a + c2 * b) e = c1 * f a e + c2 * f b e) ->
  L3 c1 c2 l1 l2 l -> L3 c1 c2 (map2 f l1 k) (map2 f l2 k) (map2 f l k).
Proof.
  intros F H. revert k. induction H as [|a b c l1 l2 l E H IH]; intros [|e k]; try constructor; [|apply IH].
  cbn. rewrite E. apply F.
Qed.
Lemma L3_shift c1 c2 l1 l2 l s1 s2 s : s = c1 * s1 + c2 * s2 -> L3 c1 c2 l1 l2 l ->
  L3 c1 c2 (map (fun p => p + s1) l1) (map (fun p => p + s2) l2) (map (fun p => p + s) l).
Proof. intros Hs. induction 1 as [|a b c l1 l2 l E H IH]; cbn; constructor; [rewrite E, Hs; ring|exact IH]. Qed.
Lemma L3_map {A} c1 c2 (g1 g2 g : A -> R) l : (forall x, g x = c1 * g1 x + c2 * g2 x) -> L3 c1 c2 (map g1 l) (map g2 l) (map g l).
Proof. intros H. induction l; cbn; constructor; auto. Qed.
Lemma L3_cumtrapz_from c1 c2 xs : forall xp a1 a2 a p1 p2 p l1 l2 l, a = c1 * a1 + c2 * a2 -> p = c1 * p1 + c2 * p2 -> L3 c1 c2 l1 l2 l ->
  L3 c1 c2 (cumtrapz_from a1 xp p1 xs l1) (cumtrapz_from a2 xp p2 xs l2) (cumtrapz_from a xp p xs l).
Proof.
  induction xs as [|x xs IH]; intros xp a1 a2 a p1 p2 p l1 l2 l Ha Hp H; [constructor|]. destruct H as [|u v w l1 l2 l E H]; [constructor|].
  cbn [cumtrapz_from]. constructor; [rewrite Ha, Hp, E; field|]. apply IH; [rewrite Ha, Hp, E; field|exact E|exact H].
Qed.
Lemma L3_cumtrapz c1 c2 xs l1 l2 l : L3 c1 c2 l1 l2 l -> L3 c1 c2 (cumtrapz l1 xs) (cumtrapz l2 xs) (cumtrapz l xs).
Proof.
  intros H. destruct xs as [|x xs]; [constructor|]. destruct H as [|u v w l1 l2 l E H]; [constructor|]. cbn [cumtrapz].
  constructor; [ring|]. apply L3_cumtrapz_from; [ring|exact E|exact H].
Qed.
Lemma L3_set_inner c1 c2 l1 l2 l v1 v2 v : L3 c1 c2 l1 l2 l -> L3 c1 c2 v1 v2 v ->
  L3 c1 c2 (set_inner l1 v1) (set_inner l2 v2) (set_inner l v).
Proof.
  intros H V. assert (HL := L3_last _ _ _ _ _ H). destruct H as [|a b c l1 l2 l E H]; [constructor|]. cbn [set_inner]. constructor; [exact E|].
  apply L3_app; [exact V|]. constructor; [exact HL|constructor].
Qed.
Lemma L3_flat {A} c1 c2 (f : A -> list R) l1 l2 l : length l1 = length l -> length l2 = length l ->
  (forall i a b c, nth_error l1 i = Some a -> nth_error l2 i = Some b -> nth_error l i = Some c -> L3 c1 c2 (f a) (f b) (f c)) ->
  L3 c1 c2 (flat_map f l1) (flat_map f l2) (flat_map f l).
Proof.
  revert l1 l2. induction l as [|c l IH]; intros [|a l1] [|b l2] H1 H2 H; try discriminate; [constructor|]. cbn [flat_map].
  apply L3_app; [apply (H 0%nat a b c); reflexivity|]. apply IH; [cbn in H1; lia|cbn in H2; lia|]. intros i x y z X Y Z. apply (H (S i) x y z X Y Z).
Qed.

(** ** Loads *)
(** [l] acts like [c1 l1 + c2 l2] for everything homogeneous. *)
Definition loads_lin (c1 : R) (l1 : list load) (c2 : R) (l2 l : list load) : Prop :=
  forall phi : load -> R, (forall g ld, phi (scale_load g ld) = g * phi ld) ->
    lsum (map phi l) = c1 * lsum (map phi l1) + c2 * lsum (map phi l2).
Lemma lin_nil l1 l2 : loads_lin 0 l1 0 l2 [].
Proof. intros phi _. unfold lsum at 1. cbn. ring. Qed.
Lemma lin_step g l1 l2 : loads_lin 1 l1 g l2 (l1 ++ map (scale_load g) l2).
Proof.
  intros phi H. rewrite map_app, lsum_app, map_map. rewrite Rmult_1_l. f_equal. unfold lsum. induction l2 as [|ld l2 IH]; cbn; [ring|]. rewrite IH, H. ring.
Qed.

Lemma diag_scale_RD g ld L d : diag_of ld L = Some d -> exists d', diag_of (scale_load g ld) L = Some d' /\
  forall x, f_R d' x = g * f_R d x /\ f_D d' x = g * f_D d x.
Proof.
  destruct ld; cbn [scale_load diag_of]; intros [= <-]; eexists; (split; [reflexivity|]); intros x.
  - cbn. unfold Rdiv. split; ring.
  - cbn. unfold Rdiv. split; ring.
  - cbn. unfold Rdiv. split; ring.
  - unfold trap_diag. rewrite trap_resolve_scale. destruct (trap_resolve w1 w2 a c L) as [[[[x1 x2] x3] x4] x5].
    cbn [fst snd]. destruct (Rleb x5 0); cbn; unfold Rdiv; split; ring.
  - cbn. unfold Rdiv. split; ring.
  - cbn. unfold Rdiv. split; ring.
Qed.
Lemma cumtrapz_from_scale g xs : forall ys acc xp yp, cumtrapz_from (g * acc) xp (g * yp) xs (map (Rmult g) ys) = map (Rmult g) (cumtrapz_from acc xp yp xs ys).
Proof.
  induction xs as [|x xs IH]; intros [|y ys] acc xp yp; cbn; try reflexivity.
  replace (g * acc + (x - xp) * (g * yp + g * y) / 2) with (g * (acc + (x - xp) * (yp + y) / 2)) by field. f_equal. apply IH.
Qed.
Lemma cumtrapz_scale g xs ys : cumtrapz (map (Rmult g) ys) xs = map (Rmult g) (cumtrapz ys xs).
Proof.
  destruct xs as [|x xs], ys as [|y ys]; cbn; try reflexivity. f_equal; [ring|]. rewrite <- cumtrapz_from_scale. f_equal. ring.
Qed.
Lemma last_scale g l : last (map (Rmult g) l) 0 = g * last l 0.
Proof. induction l as [|x [|y l] IH]; cbn; try ring. exact IH. Qed.
Lemma mbr_scale_RD g ld xs L :
  r_R (get_mbr_results (scale_load g ld) xs L) = map (Rmult g) (r_R (get_mbr_results ld xs L)) /\
  r_D (get_mbr_results (scale_load g ld) xs L) = map (Rmult g) (r_D (get_mbr_results ld xs L)).
Proof.
  destruct (diag_of ld L) as [d|] eqn:E.
  - destruct (diag_scale_RD g ld L d E) as (d' & E' & H).
    assert (A : get_mbr_results ld xs L = sample d xs) by (unfold get_mbr_results; rewrite E; destruct ld; try reflexivity; discriminate).
    assert (A' : get_mbr_results (scale_load g ld) xs L = sample d' xs) by (unfold get_mbr_results; rewrite E'; destruct ld; try reflexivity; discriminate).
    rewrite A, A'. cbn [sample r_R r_D]. rewrite !map_map. split; apply map_ext; intros x; apply H.
  - destruct ld as [| | | | | |k e]; try discriminate. cbn [scale_load get_mbr_results]. unfold ic_mres. cbn [r_R r_D].
    assert (K : map (kappa_imp (map (Rmult g) k)) xs = map (Rmult g) (map (kappa_imp k) xs)).
    { rewrite map_map. apply map_ext. intros x. apply kappa_imp_scale. }
    rewrite K, !cumtrapz_scale, last_scale. set (rot := cumtrapz (map (kappa_imp k) xs) xs). set (defl := cumtrapz rot xs). split.
    + rewrite !map_map. apply map_ext. intros x. unfold Rdiv. ring.
    + clear K. generalize (last defl 0) as z. intros z. generalize xs as ys. induction defl as [|u t IH]; intros ys; [reflexivity|]. destruct ys as [|y ys]; [reflexivity|]. cbn [map combine fst snd].
      f_equal; [unfold Rdiv; ring|]. exact (IH ys).
Qed.

(** ** Sums over the loads of a member *)
Lemma fold_sum {A} (g : A -> R) l : forall s, fold_left (fun s a => s + g a) l s = s + lsum (map g l).
Proof. unfold lsum. induction l as [|a l IH]; intros s; cbn; [ring|]. rewrite IH. ring. Qed.
Section Fold.
Variables (p : mres -> list R) (F : load -> mres) (N : nat).
Hypothesis Hadd : forall a b, p (mres_add a b) = map2 Rplus (p a) (p b).
Hypothesis HF : forall ld, length (p (F ld)) = N.
Lemma fold_proj lds : forall r, length (p r) = N -> length (p (fold_left (fun r ld => mres_add r (F ld)) lds r)) = N /\
  forall k, nth k (p (fold_left (fun r ld => mres_add r (F ld)) lds r)) 0 = nth k (p r) 0 + lsum (map (fun ld => nth k (p (F ld)) 0) lds).
Proof.
  induction lds as [|ld lds IH]; intros r Hr; cbn [fold_left map].
  - split; [exact Hr|]. intros k. unfold lsum. cbn. ring.
  - assert (HL : length (p (mres_add r (F ld))) = N) by (rewrite Hadd; apply map2_len; [exact Hr|apply HF]).
    destruct (IH _ HL) as [A B]. split; [exact A|]. intros k. rewrite B, Hadd. unfold lsum. cbn [fold_right].
    destruct (Nat.lt_ge_cases k N) as [Hk|Hk].
    + rewrite (map2_nth Rplus _ _ N k Hr (HF ld) Hk). ring.
    + rewrite !(nth_overflow (p _)) by (rewrite ?HF, ?Hr; lia). rewrite nth_overflow; [ring|]. rewrite (map2_len Rplus _ _ N Hr (HF ld)). exact Hk.
Qed.
Lemma fold_comb c1 c2 l1 l2 l r1 r2 r : (forall g ld k, nth k (p (F (scale_load g ld))) 0 = g * nth k (p (F ld)) 0) ->
  loads_lin c1 l1 c2 l2 l -> length (p r1) = N -> length (p r2) = N -> length (p r) = N -> L3 c1 c2 (p r1) (p r2) (p r) ->
  L3 c1 c2 (p (fold_left (fun r ld => mres_add r (F ld)) l1 r1)) (p (fold_left (fun r ld => mres_add r (F ld)) l2 r2)) (p (fold_left (fun r ld => mres_add r (F ld)) l r)).
Proof.
  intros HS HL A1 A2 A H. destruct (fold_proj l1 r1 A1) as [P1 Q1], (fold_proj l2 r2 A2) as [P2 Q2], (fold_proj l r A) as [P Q].
  apply L3_lcomb. split; [congruence|]. split; [congruence|]. intros k. rewrite Q, Q1, Q2, (L3_nth _ _ _ _ _ k H), (HL _ (fun g ld => HS g ld k)). ring.
Qed.
End Fold.

Lemma nth_scaled g l k : nth k (map (Rmult g) l) 0 = g * nth k l 0.
Proof. rewrite <- (Rmult_0_r g) at 1. apply map_nth. Qed.
Lemma L3_zero_ends c1 c2 l1 l2 l : L3 c1 c2 l1 l2 l -> L3 c1 c2 (zero_ends l1) (zero_ends l2) (zero_ends l).
Proof.
  intros H. destruct (L3_len _ _ _ _ _ H) as [A B]. apply L3_lcomb. split; [rewrite !zero_ends_length; exact A|]. split; [rewrite !zero_ends_length; exact B|].
  intros i. destruct (Nat.lt_ge_cases i (length l)) as [Hi|Hi].
  - rewrite !nth_zero_ends by lia. rewrite A, B. destruct (Nat.eqb _ _); [ring|]. destruct (Nat.eqb _ _); [ring|]. apply L3_nth, H.
  - rewrite !nth_overflow by (rewrite zero_ends_length; lia). ring.
Qed.
Lemma base_comb c1 c2 a1 b1 a2 b2 x L :
  let T a b := get_mbr_results (LMaMb a b) x L in let r := T (c1 * a1 + c2 * a2) (c1 * b1 + c2 * b2) in
  L3 c1 c2 (r_M (T a1 b1)) (r_M (T a2 b2)) (r_M r) /\ L3 c1 c2 (r_V (T a1 b1)) (r_V (T a2 b2)) (r_V r) /\
  L3 c1 c2 (r_R (T a1 b1)) (r_R (T a2 b2)) (r_R r) /\ L3 c1 c2 (r_D (T a1 b1)) (r_D (T a2 b2)) (r_D r).
Proof.
  cbv zeta. cbn [get_mbr_results diag_of sample r_M r_V r_R r_D mamb_diag f_M f_V f_R f_D].
  repeat apply conj; try apply L3_zero_ends; apply L3_map; intros y; unfold Rdiv; ring.
Qed.

Definition no_imposed (l : list load) : Prop := forall ld, In ld l -> match ld with LIC _ _ => False | _ => True end.
Definition kap_of (l : list load) (x : list R) : list R :=
  map (fun x => fold_left (fun s ld => match ld with LIC k _ => s + kappa_imp k x | _ => s end) l 0) x.
Definition kphi (x : R) (ld : load) : R := match ld with LIC k _ => kappa_imp k x | _ => 0 end.
Lemma kap_sum l x : fold_left (fun s ld => match ld with LIC k _ => s + kappa_imp k x | _ => s end) l 0 = lsum (map (kphi x) l).
Proof.
  assert (H : forall s, fold_left (fun s ld => match ld with LIC k _ => s + kappa_imp k x | _ => s end) l s = s + lsum (map (kphi x) l)).
  { unfold lsum. induction l as [|ld l IH]; intros s; cbn [fold_left map fold_right]; [ring|]. rewrite IH. destruct ld; cbn [kphi]; ring. }
  rewrite H. ring.
Qed.
Lemma kap_comb c1 c2 l1 l2 l x : loads_lin c1 l1 c2 l2 l -> L3 c1 c2 (kap_of l1 x) (kap_of l2 x) (kap_of l x).
Proof.
  intros H. apply L3_map. intros y. rewrite !kap_sum. apply H. intros g ld. destruct ld; cbn; try ring. apply kappa_imp_scale.
Qed.
Lemma kap_none l x : no_imposed l -> nonzero (kap_of l x) = false.
Proof.
  intros H. unfold nonzero, kap_of. induction x as [|y x IH]; [reflexivity|]. cbn [map existsb]. rewrite IH, orb_false_r. rewrite kap_sum. replace (lsum (map (kphi y) l)) with 0; [rewrite (proj2 (Reqb_true 0 0) eq_refl); reflexivity|]. unfold lsum. clear IH. induction l as [|ld l IHl]; [reflexivity|]. cbn. rewrite <- IHl by (intros q Hq; apply H; right; exact Hq). specialize (H ld (or_introl eq_refl)). destruct ld; try contradiction; cbn; ring.
Qed.
Lemma cnl_comb gl (sel : cnl -> R) c1 c2 l1 l2 l L cs1 cs2 cs : (forall g c, sel (cnl_scale g c) = g * sel c) -> loads_lin c1 l1 c2 l2 l ->
  mapM (fun ld => get_cnl gl ld L) l1 = Ok cs1 -> mapM (fun ld => get_cnl gl ld L) l2 = Ok cs2 -> mapM (fun ld => get_cnl gl ld L) l = Ok cs ->
  fold_left (fun s c => s + sel c) cs 0 = c1 * fold_left (fun s c => s + sel c) cs1 0 + c2 * fold_left (fun s c => s + sel c) cs2 0.
Proof.
  intros HS HL. set (phi := fun ld => match get_cnl gl ld L with Ok c => sel c | Err _ => 0 end).
  assert (E : forall l cs, mapM (fun ld => get_cnl gl ld L) l = Ok cs -> fold_left (fun s c => s + sel c) cs 0 = lsum (map phi l)).
  { intros k ks H. rewrite fold_sum. replace (map sel ks) with (map phi k); [ring|]. revert ks H. induction k as [|ld k IH]; intros ks H; cbn [mapM] in H.
    - injection H as <-. reflexivity.
    - apply rbind_ok in H as (c & Hc & H). apply rbind_ok in H as (t & Ht & H). injection H as <-. cbn [map]. f_equal; [unfold phi; rewrite Hc; reflexivity|apply IH, Ht]. }
  intros H1 H2 H3. rewrite (E _ _ H1), (E _ _ H2), (E _ _ H3). apply HL. intros g ld. unfold phi. rewrite get_cnl_scale.
  destruct (get_cnl gl ld L); cbn [rbind]; [apply HS|ring].
Qed.

(** Rotations and deflections are recovered the same way with and without imposed curvature. *)
Definition one_recovery (m : member) : Prop := (mb_type m <= 1)%nat \/ is_sect (mb_EI m) = true \/ mb_GAv m <> None.

Lemma ok_inj {A} (a b : A) : Ok a = Ok b -> a = b.
Proof. congruence. Qed.
Lemma member_values_comb gl m npts sp l1 f1 d1 l2 f2 d2 l f d c1 c2 r1 r2 cs :
  member_values gl m l1 f1 d1 npts sp = Ok r1 -> member_values gl m l2 f2 d2 npts sp = Ok r2 ->
  loads_lin c1 l1 c2 l2 l -> mapM (fun ld => get_cnl gl ld (mb_L m)) l = Ok cs ->
  (forall i, (i < 4)%nat -> f i = c1 * f1 i + c2 * f2 i) -> (forall i, (i < 4)%nat -> d i = c1 * d1 i + c2 * d2 i) ->
  exists r, member_values gl m l f d npts sp = Ok r /\ r_x r = r_x r1 /\ L3 c1 c2 (r_M r1) (r_M r2) (r_M r) /\ L3 c1 c2 (r_V r1) (r_V r2) (r_V r) /\
    (one_recovery m \/ (no_imposed l1 /\ no_imposed l2 /\ no_imposed l) -> L3 c1 c2 (r_R r1) (r_R r2) (r_R r) /\ L3 c1 c2 (r_D r1) (r_D r2) (r_D r)).
Proof.
  unfold member_values. cbv zeta. fold (kap_of l1 (stations (mb_L m) npts sp)). fold (kap_of l2 (stations (mb_L m) npts sp)). fold (kap_of l (stations (mb_L m) npts sp)).
  set (L := mb_L m). set (x := stations L npts sp). set (xi := inner x).
  intros H1 H2 HL Hc Hf Hd.
  apply rbind_ok in H1 as (cs1 & C1 & H1). apply rbind_ok in H2 as (cs2 & C2 & H2). rewrite Hc. cbn [rbind].
  apply rbind_ok in H1 as (ei & E1 & H1). rewrite E1 in *. cbn [rbind] in H2 |- *.
  set (T := fun r ld => mres_add r (get_mbr_results ld x L)) in *.
  set (R1 := fold_left T l1 _) in *. set (R2 := fold_left T l2 _) in *. set (R0 := fold_left T l _) in *.
  assert (BC := base_comb c1 c2 (f1 1%nat) (f1 3%nat) (f2 1%nat) (f2 3%nat) x L). cbv zeta in BC. rewrite <- !Hf in BC by lia. destruct BC as (BM & BV & BR & BD).
  assert (LT : forall ld, let r := get_mbr_results ld x L in length (r_M r) = length x /\ length (r_V r) = length x /\ length (r_R r) = length x /\ length (r_D r) = length x).
  { intros ld. destruct (load_table L x ld) as [_ (q1 & q2 & q3 & q4) _]. cbv zeta. repeat apply conj; congruence. }
  assert (CM : L3 c1 c2 (r_M R1) (r_M R2) (r_M R0)).
  { apply (fold_comb r_M (fun ld => get_mbr_results ld x L) (length x)); try (intros; apply LT); try exact HL; try exact BM; try reflexivity.
    intros g ld k. rewrite (proj1 (mbr_scale g ld x L)). apply nth_scaled. }
  assert (CV : L3 c1 c2 (r_V R1) (r_V R2) (r_V R0)).
  { apply (fold_comb r_V (fun ld => get_mbr_results ld x L) (length x)); try (intros; apply LT); try exact HL; try exact BV; try reflexivity.
    intros g ld k. rewrite (proj2 (mbr_scale g ld x L)). apply nth_scaled. }
  assert (CR : L3 c1 c2 (r_R R1) (r_R R2) (r_R R0)).
  { apply (fold_comb r_R (fun ld => get_mbr_results ld x L) (length x)); try (intros; apply LT); try exact HL; try exact BR; try reflexivity.
    intros g ld k. rewrite (proj1 (mbr_scale_RD g ld x L)). apply nth_scaled. }
  assert (CD : L3 c1 c2 (r_D R1) (r_D R2) (r_D R0)).
  { apply (fold_comb r_D (fun ld => get_mbr_results ld x L) (length x)); try (intros; apply LT); try exact HL; try exact BD; try reflexivity.
    intros g ld k. rewrite (proj2 (mbr_scale_RD g ld x L)). apply nth_scaled. }
  assert (CX : r_x R0 = r_x R1).
  { assert (G : forall l r, r_x (fold_left T l r) = r_x r) by (induction l0; intros; cbn; [reflexivity|]; rewrite IHl0; reflexivity).
    unfold R0, R1. rewrite !G. reflexivity. }
  set (cv1 := map2 Rplus (map2 Rdiv (r_M R1) ei) (kap_of l1 x)) in *. set (cv2 := map2 Rplus (map2 Rdiv (r_M R2) ei) (kap_of l2 x)) in *.
  set (cv := map2 Rplus (map2 Rdiv (r_M R0) ei) (kap_of l x)) in *.
  assert (CC : L3 c1 c2 cv1 cv2 cv).
  { apply L3_plus; [|apply kap_comb, HL]. apply L3_scaled; [|exact CM]. intros a b e. unfold Rdiv. ring. }
  apply rbind_ok in H1 as (g1 & G1 & H1). apply rbind_ok in H2 as (g2 & G2 & H2).
  assert (CG : exists g, match mb_GAv m with Some g => do gs <- rigid_at g xi; Ok (map2 (fun v g => - v / g) (inner (r_V R0)) gs) | None => Ok (map (fun _ => 0) xi) end = Ok g /\
     L3 c1 c2 g1 g2 g).
  { destruct (mb_GAv m) as [ga|].
    - apply rbind_ok in G1 as (gs & Gs & G1). rewrite Gs in *. cbn [rbind] in G2 |- *. injection G1 as <-. injection G2 as <-. eexists. split; [reflexivity|].
      apply L3_scaled; [|apply L3_inner, CV]. intros a b e. unfold Rdiv. ring.
    - injection G1 as <-. injection G2 as <-. eexists. split; [reflexivity|]. apply L3_map. intros. ring. }
  destruct CG as (g & Eg & CG). rewrite Eg. cbn [rbind].
  apply ok_inj in H1. apply ok_inj in H2. subst r1 r2. eexists. split; [reflexivity|]. cbn [r_x r_M r_V r_R r_D]. split; [exact CX|]. split; [exact CM|]. split; [exact CV|].
  intros HR.
  assert (CP : L3 c1 c2 (cumtrapz (inner cv1) xi) (cumtrapz (inner cv2) xi) (cumtrapz (inner cv) xi)) by (apply L3_cumtrapz, L3_inner, CC).
  set (gv := match mb_GAv m with Some _ => true | None => false end) in *.
  assert (CDp : last (cumtrapz (map2 Rplus (cumtrapz (inner cv) xi) g) xi) 0 = c1 * last (cumtrapz (map2 Rplus (cumtrapz (inner cv1) xi) g1) xi) 0 + c2 * last (cumtrapz (map2 Rplus (cumtrapz (inner cv2) xi) g2) xi) 0).
  { apply L3_last, L3_cumtrapz, L3_plus; assumption. }
  assert (CMa := cnl_comb gl c_Ma c1 c2 l1 l2 l L cs1 cs2 cs (fun _ _ => eq_refl) HL C1 C2 Hc).
  assert (CMb := cnl_comb gl c_Mb c1 c2 l1 l2 l L cs1 cs2 cs (fun _ _ => eq_refl) HL C1 C2 Hc).
  match goal with |- L3 _ _ (set_inner _ ?p1) (set_inner _ ?p2) (set_inner _ ?p0) /\ _ => assert (CPs : L3 c1 c2 p1 p2 p0) end.
  { destruct (Nat.ltb 1 (mb_type m)) eqn:ET.
    - apply Nat.ltb_lt in ET.
      assert (U : (is_sect (mb_EI m) || nonzero (kap_of l1 x) || gv = is_sect (mb_EI m) || nonzero (kap_of l x) || gv /\
                   is_sect (mb_EI m) || nonzero (kap_of l2 x) || gv = is_sect (mb_EI m) || nonzero (kap_of l x) || gv)%bool).
      { destruct HR as [HR|(N1 & N2 & N)]; [|rewrite !kap_none by assumption; auto].
        destruct HR as [HR|[HR|HR]]; [lia|rewrite HR; auto|]. unfold gv. destruct (mb_GAv m); [|congruence]. rewrite !orb_true_r. auto. }
      destruct U as [-> ->]. destruct (is_sect _ || _ || _)%bool; apply L3_shift; try exact CP.
      + rewrite CDp, !Hd by lia. unfold Rdiv. ring.
      + rewrite CMa, CMb, !Hd, !Hf by lia. unfold Rdiv. ring.
    - apply L3_shift; [apply Hd; lia|exact CP]. }
  split; apply L3_set_inner; try assumption. apply L3_shift; [apply Hd; lia|]. apply L3_cumtrapz, L3_plus; assumption.
Qed.

(** ** Results of the analysis *)
Section Results.
Variables (gl : nat -> list (R * R)) (ill : nat -> mat -> bool) (a : analysis) (sps : nat -> list R) (npts : option nat) (check : bool).
Let b := an_beam a.
Definition solve_lm (lm : list row) : analysis * result bres := analyze gl ill (with_beam a (set_loads b lm)) sps npts check.
Hypothesis EN : an_n a = b_nspans b.
Hypothesis KF : members b (an_n a) (fun mb => mb_kf mb = None).

Definition plain (lm : list row) : Prop := forall p m, parsed_loads (set_loads b lm) = Ok p -> no_imposed (loads_of p m).
Record loads_rel (c1 : R) (A : list row) (c2 : R) (B C : list row) : Prop := {
  lr_parsed : exists p1 p2 p, parsed_loads (set_loads b A) = Ok p1 /\ parsed_loads (set_loads b B) = Ok p2 /\ parsed_loads (set_loads b C) = Ok p /\
    forall m, loads_lin c1 (loads_of p1 m) c2 (loads_of p2 m) (loads_of p m) /\
      forall L cs1 cs2, mapM (fun ld => get_cnl gl ld L) (loads_of p1 m) = Ok cs1 -> mapM (fun ld => get_cnl gl ld L) (loads_of p2 m) = Ok cs2 ->
        exists cs, mapM (fun ld => get_cnl gl ld L) (loads_of p m) = Ok cs;
  lr_plain : plain A -> plain B -> plain C }.
Definition res_comb (c1 : R) (lm1 : list row) (r1 : bres) (c2 : R) (lm2 : list row) (r2 r : bres) : Prop :=
  r_x (br_all r) = r_x (br_all r1) /\
  L3 c1 c2 (r_M (br_all r1)) (r_M (br_all r2)) (r_M (br_all r)) /\ L3 c1 c2 (r_V (br_all r1)) (r_V (br_all r2)) (r_V (br_all r)) /\
  (members b (an_n a) one_recovery \/ plain lm1 /\ plain lm2 ->
   L3 c1 c2 (r_R (br_all r1)) (r_R (br_all r2)) (r_R (br_all r)) /\ L3 c1 c2 (r_D (br_all r1)) (r_D (br_all r2)) (r_D (br_all r))).
(** The results of each member and the reactions. *)
Definition mem_comb (c1 c2 : R) (l1 l2 l : list mres) : Prop := length l1 = length l /\ length l2 = length l /\
  forall i x1 x2 x, nth_error l1 i = Some x1 -> nth_error l2 i = Some x2 -> nth_error l i = Some x ->
    r_x x = r_x x1 /\ L3 c1 c2 (r_M x1) (r_M x2) (r_M x) /\ L3 c1 c2 (r_V x1) (r_V x2) (r_V x).
Definition parts_comb (c1 : R) (r1 : bres) (c2 : R) (r2 r : bres) : Prop :=
  mem_comb c1 c2 (br_mem r1) (br_mem r2) (br_mem r) /\ lcomb c1 (br_R r1) c2 (br_R r2) (br_R r).

Lemma member_analysis_build bb d ndof np ls : parsed_loads bb = Ok ls ->
  (forall i, (i < b_nspans bb)%nat -> exists m f r, span_res gl bb d ndof np sps ls i m f r) ->
  exists v, member_analysis gl bb d ndof np sps = Ok v.
Proof.
  intros El H. unfold member_analysis. rewrite El. cbn [rbind]. set (stp := fun (acc : list mres * R) i => _).
  assert (P : forall l acc, (forall i, In i l -> (i < b_nspans bb)%nat) -> exists st, foldM stp l acc = Ok st).
  { induction l as [|i l IH]; intros acc Hi; [eexists; reflexivity|]. cbn [foldM].
    destruct (H i (Hi i (or_introl eq_refl))) as (m & f & r & E1 & E2 & E3 & E4). unfold stp at 1. rewrite E1. cbn [rbind].
    destruct (Nat.ltb _ _) eqn:EL; [apply Nat.ltb_lt in EL; lia|]. rewrite E3. cbn [rbind]. rewrite E4. cbn [rbind]. apply IH.
    intros j Hj. apply Hi. right. exact Hj. }
  destruct (P (seq 0 (b_nspans bb)) ([], 0)) as (st & E); [intros i Hi; apply in_seq in Hi; lia|]. rewrite E. eexists. reflexivity.
Qed.

Lemma core_run lm : snd (analyze_core gl ill (with_beam a (set_loads b lm)) npts check) = run gl ill a lm check.
Proof. unfold run. apply core_npts. Qed.
Lemma solve_run lm a' r : solve_lm lm = (a', Ok r) -> exists o, run gl ill a lm check = Ok o.
Proof. intros H. destruct (analyze_split _ _ _ _ _ _ _ _ H) as (o & E & _). exists o. rewrite <- core_run, E. reflexivity. Qed.

Lemma analyze_outputs x sp np ch a' r aa rr : analyze gl ill x sp np ch = (a', Ok r) -> (aa, rr) = analyze_core gl ill x np ch -> exists o, rr = Ok o /\ br_R r = o_R o.
Proof.
  unfold analyze. intros H E. rewrite <- E in H. destruct rr as [o|e]; [|discriminate]. exists o. split; [reflexivity|]. injection H as _ H.
  unfold beam_results in H. apply rbind_ok in H as (v & _ & H). injection H as <-. reflexivity.
Qed.
Lemma results_parts c1 A r1 c2 B r2 C a1 a2 : solve_lm A = (a1, Ok r1) -> solve_lm B = (a2, Ok r2) -> loads_rel c1 A c2 B C ->
  (forall o1 o2, run gl ill a A check = Ok o1 -> run gl ill a B check = Ok o2 ->
     exists o, run gl ill a C check = Ok o /\ combination (an_ndof a) c1 o1 c2 o2 o /\
       forall m, (m < an_n a)%nat -> ends_comb c1 (member_forces gl (set_loads b A) (o_d o1) m) c2 (member_forces gl (set_loads b B) (o_d o2) m)
         (member_forces gl (set_loads b C) (o_d o) m)) ->
  exists a' r, solve_lm C = (a', Ok r) /\ res_comb c1 A r1 c2 B r2 r /\ parts_comb c1 r1 c2 r2 r.
Proof.
  intros H1 H2 [(p1 & p2 & p & P1 & P2 & P3 & HL) HP] HR.
  destruct (analyze_split _ _ _ _ _ _ _ _ H1) as (o1 & Ho1 & Hv1 & A1 & _), (analyze_split _ _ _ _ _ _ _ _ H2) as (o2 & Ho2 & Hv2 & A2 & _).
  destruct (HR o1 o2) as (o & Ho & (HD & HRR & _) & HE); [rewrite <- core_run, Ho1; reflexivity|rewrite <- core_run, Ho2; reflexivity|].
  destruct (analyze_core_state _ _ _ _ _ _ _ Ho1) as (EB1 & _ & EF1 & EP1), (analyze_core_state _ _ _ _ _ _ _ Ho2) as (EB2 & _ & EF2 & EP2).
  rewrite <- core_run in Ho. unfold solve_lm, analyze. destruct (analyze_core gl ill (with_beam a (set_loads b C)) npts check) as [a3 r3] eqn:Ho3. cbn in Ho. subst r3.
  destruct (analyze_core_state _ _ _ _ _ _ _ Ho3) as (EB3 & _ & EF3 & EP3). cbn [with_beam an_beam an_npts an_ndof an_n] in *.
  change (an_ndof (with_beam a (set_loads b A))) with (an_ndof a) in EF1. change (an_ndof (with_beam a (set_loads b B))) with (an_ndof a) in EF2.
  change (an_ndof (with_beam a (set_loads b C))) with (an_ndof a) in EF3.
  set (np := match npts with Some p => _ | None => _ end) in *.
  rewrite EB1, EF1, EP1 in Hv1. rewrite EB2, EF2, EP2 in Hv2.
  destruct (member_analysis_spec _ _ _ _ _ _ _ Hv1) as (ls1 & Q1 & N1 & S1), (member_analysis_spec _ _ _ _ _ _ _ Hv2) as (ls2 & Q2 & N2 & S2).
  replace ls1 with p1 in * by congruence. replace ls2 with p2 in * by congruence. clear Q1 Q2.
  change (b_nspans (set_loads b A)) with (b_nspans b) in *. change (b_nspans (set_loads b B)) with (b_nspans b) in *.
  change (node_x (set_loads b A)) with (node_x b) in *. change (node_x (set_loads b B)) with (node_x b) in *.
  assert (ST : forall i, (i < b_nspans b)%nat -> exists mb f q q1 q2, span_res gl (set_loads b C) (o_d o) (an_ndof a) np sps p i mb f q /\
     nth_error (br_mem r1) i = Some (shift_x (node_x b i) q1) /\ nth_error (br_mem r2) i = Some (shift_x (node_x b i) q2) /\
     r_x q = r_x q1 /\ L3 c1 c2 (r_M q1) (r_M q2) (r_M q) /\ L3 c1 c2 (r_V q1) (r_V q2) (r_V q) /\
     (members b (an_n a) one_recovery \/ plain A /\ plain B -> L3 c1 c2 (r_R q1) (r_R q2) (r_R q) /\ L3 c1 c2 (r_D q1) (r_D q2) (r_D q))).
  { intros i Hi. destruct (S1 i Hi) as (mb & f1 & q1 & (M1 & D1 & F1 & V1) & X1), (S2 i Hi) as (mb2 & f2 & q2 & (M2 & D2 & F2 & V2) & X2).
    change (member_at (set_loads b A) i) with (member_at b i) in M1. change (member_at (set_loads b B) i) with (member_at b i) in M2.
    replace mb2 with mb in * by congruence. clear M2.
    assert (K := KF i mb ltac:(lia) M1). unfold member_results in V1, V2. rewrite K in V1, V2.
    destruct (HE i ltac:(lia)) as (e1 & e2 & e & Y1 & Y2 & Y3 & HF). rewrite F1 in Y1. rewrite F2 in Y2. injection Y1 as <-. injection Y2 as <-.
    destruct (HL i) as [Lin Cn].
    assert (CC : exists cs, mapM (fun ld => get_cnl gl ld (mb_L mb)) (loads_of p i) = Ok cs).
    { unfold member_values in V1, V2. apply rbind_ok in V1 as (k1 & K1 & _). apply rbind_ok in V2 as (k2 & K2 & _). exact (Cn _ _ _ K1 K2). }
    destruct CC as (cs & CC).
    destruct (member_values_comb gl mb np (sps i) _ _ _ _ _ _ (loads_of p i) e (fun q => o_d o (2 * i + q)%nat) c1 c2 q1 q2 cs V1 V2 Lin CC HF) as (q & Eq & R1 & R2 & R3 & R4).
    { intros j Hj. apply HD. unfold an_ndof. lia. }
    exists mb, e, q, q1, q2. split; [|split; [exact X1|split; [exact X2|split; [exact R1|split; [exact R2|split; [exact R3|]]]]]].
    - split; [exact M1|]. split; [exact D1|]. split; [exact Y3|]. unfold member_results. rewrite K. exact Eq.
    - intros Hc. apply R4. destruct Hc as [Hc|[Pa Pb]]; [left; exact (Hc i mb ltac:(lia) M1)|right].
      split; [apply Pa; exact P1|]. split; [apply Pb; exact P2|]. apply (HP Pa Pb). exact P3. }
  destruct (member_analysis_build (set_loads b C) (o_d o) (an_ndof a) np p P3) as (v & Ev).
  { intros i Hi. destruct (ST i Hi) as (mb & f & q & _ & _ & S & _). eauto. }
  assert (S3 := member_analysis_spec _ _ _ _ _ _ _ Ev). destruct S3 as (ls3 & Q3 & N3 & S3). replace ls3 with p in * by congruence. clear Q3.
  exists a3. unfold beam_results. rewrite EB3, EF3, EP3, Ev. cbn [rbind]. eexists. split; [reflexivity|].
  assert (PT : forall i x1 x2 x3, nth_error (br_mem r1) i = Some x1 -> nth_error (br_mem r2) i = Some x2 -> nth_error v i = Some x3 ->
     r_x x3 = r_x x1 /\ L3 c1 c2 (r_M x1) (r_M x2) (r_M x3) /\ L3 c1 c2 (r_V x1) (r_V x2) (r_V x3) /\
     (members b (an_n a) one_recovery \/ plain A /\ plain B -> L3 c1 c2 (r_R x1) (r_R x2) (r_R x3) /\ L3 c1 c2 (r_D x1) (r_D x2) (r_D x3))).
  { intros i x1 x2 x3 Z1 Z2 Z3.
    assert (Hi : (i < b_nspans b)%nat) by (rewrite <- N1; apply nth_error_Some; congruence).
    destruct (ST i Hi) as (mb & f & q & q1 & q2 & (M1 & _ & F1 & V1) & W1 & W2 & W). destruct (S3 i Hi) as (mb' & f' & q' & (M1' & _ & F1' & V1') & W3).
    rewrite M1 in M1'. injection M1' as <-. rewrite F1 in F1'. injection F1' as <-. rewrite V1 in V1'. injection V1' as <-.
    rewrite W1 in Z1. rewrite W2 in Z2. rewrite W3 in Z3. injection Z1 as <-. injection Z2 as <-. injection Z3 as <-.
    cbn [shift_x r_x r_M r_V r_R r_D]. destruct W as (Wx & W). split; [rewrite Wx; reflexivity|exact W]. }
  assert (LN1 : length (br_mem r1) = length v) by (rewrite N1, N3; reflexivity). assert (LN2 : length (br_mem r2) = length v) by (rewrite N2, N3; reflexivity).
  split; [|split; [split; [exact LN1|split; [exact LN2|]]|]].
  2: { cbn [br_mem]. intros i x1 x2 x3 Z1 Z2 Z3. destruct (PT i x1 x2 x3 Z1 Z2 Z3) as (U1 & U2 & U3 & _). auto. }
  2: { cbn [br_R]. destruct (analyze_outputs _ _ _ _ _ _ _ _ H1 (eq_sym Ho1)) as (o1' & G1 & ->), (analyze_outputs _ _ _ _ _ _ _ _ H2 (eq_sym Ho2)) as (o2' & G2 & ->).
       apply ok_inj in G1, G2. subst o1' o2'. exact HRR. }
  unfold res_comb. cbn [br_all]. rewrite A1, A2. cbn [mres_concat r_x r_M r_V r_R r_D].
  split; [|split; [|split]].
  - assert (G : forall l1 l3, length l1 = length l3 -> (forall i x1 x3, nth_error l1 i = Some x1 -> nth_error l3 i = Some x3 -> r_x x3 = r_x x1) -> flat_map r_x l3 = flat_map r_x l1).
    { induction l1 as [|u l1 IH]; intros [|w l3] Hn Hx; try discriminate; [reflexivity|]. cbn [flat_map]. rewrite (Hx 0%nat u w eq_refl eq_refl). f_equal.
      apply IH; [cbn in Hn; lia|]. intros i x1 x3 U1 U3. exact (Hx (S i) x1 x3 U1 U3). }
    apply G; [exact LN1|]. intros i x1 x3 U1 U3.
    destruct (nth_error (br_mem r2) i) as [x2|] eqn:U2; [|apply nth_error_None in U2; assert (i < length v)%nat by (apply nth_error_Some; congruence); lia].
    apply (PT i x1 x2 x3 U1 U2 U3).
  - apply L3_flat; [exact LN1|exact LN2|]. intros i x1 x2 x3 U1 U2 U3. apply (PT i x1 x2 x3 U1 U2 U3).
  - apply L3_flat; [exact LN1|exact LN2|]. intros i x1 x2 x3 U1 U2 U3. apply (PT i x1 x2 x3 U1 U2 U3).
  - intros Hc. split; (apply L3_flat; [exact LN1|exact LN2|]; intros i x1 x2 x3 U1 U2 U3; apply (PT i x1 x2 x3 U1 U2 U3); exact Hc).
Qed.
Lemma results_comb c1 A r1 c2 B r2 C a1 a2 : solve_lm A = (a1, Ok r1) -> solve_lm B = (a2, Ok r2) -> loads_rel c1 A c2 B C ->
  (forall o1 o2, run gl ill a A check = Ok o1 -> run gl ill a B check = Ok o2 ->
     exists o, run gl ill a C check = Ok o /\ combination (an_ndof a) c1 o1 c2 o2 o /\
       forall m, (m < an_n a)%nat -> ends_comb c1 (member_forces gl (set_loads b A) (o_d o1) m) c2 (member_forces gl (set_loads b B) (o_d o2) m)
         (member_forces gl (set_loads b C) (o_d o) m)) ->
  exists a' r, solve_lm C = (a', Ok r) /\ res_comb c1 A r1 c2 B r2 r.
Proof. intros H1 H2 H3 H4. destruct (results_parts _ _ _ _ _ _ _ _ _ H1 H2 H3 H4) as (a' & r & E & H & _). eauto. Qed.
End Results.
