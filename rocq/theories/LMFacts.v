(** Load matrices: parsing and factoring. *)
From Coquelicot Require Import Coquelicot.
From Verif Require Import Base BaseFacts SectionModel FlexModel LoadModel LoadSpec.
Open Scope R_scope.

Lemma wf_cases r : wf_row r -> exists s t args, r = Row s t args /\
  ((t = 1%Z /\ exists w tl, args = w :: tl) \/
   (t = 2%Z /\ exists P a tl, args = P :: a :: tl) \/
   (t = 3%Z /\ exists w a c tl, args = w :: a :: c :: tl) \/
   (t = 4%Z /\ exists m a tl, args = m :: a :: tl) \/
   (t = 5%Z /\ exists w1 w2 tl, args = w1 :: w2 :: tl) \/
   (t = 6%Z /\ exists k tl, args = k :: tl)).
Proof.
  destruct r as [s t args| |]; cbn; try contradiction.
  intros Hw. exists s, t, args. split; [reflexivity|].
  destruct args as [|x1 [|x2 [|x3 tl]]]; cbn in Hw.
  - lia.
  - destruct Hw as [[-> ?]|[[-> ?]|[[-> ?]|[[-> ?]|[[-> ?]|[-> ?]]]]]]; try lia;
      [left; eauto | do 5 right; eauto].
  - destruct Hw as [[-> ?]|[[-> ?]|[[-> ?]|[[-> ?]|[[-> ?]|[-> ?]]]]]]; try lia.
    + left; eauto. + right; left; eauto. + do 3 right; left; eauto.
    + do 4 right; left; eauto. + do 5 right; eauto.
  - destruct Hw as [[-> ?]|[[-> ?]|[[-> ?]|[[-> ?]|[[-> ?]|[-> ?]]]]]]; try lia.
    + left; eauto. + right; left; eauto. + do 2 right; left; eauto 6. + do 3 right; left; eauto.
    + do 4 right; left; eauto. + do 5 right; eauto.
Qed.

Definition scale_pl (g : R) (p : Z * load) : Z * load := (fst p, scale_load g (snd p)).

Lemma row_parse_factor g r : wf_row r ->
  exists p r', parse_row r = Ok [p] /\ factor_row g r = Ok r' /\ wf_row r' /\
    parse_row r' = Ok [scale_pl g p].
Proof.
  intros Hw. apply wf_cases in Hw.
  destruct Hw as (s & t & args & -> &
    [[-> (w & tl & ->)]|[[-> (P & a & tl & ->)]|[[-> (w & a & c & tl & ->)]|
     [[-> (m & a & tl & ->)]|[[-> (w1 & w2 & tl & ->)]|[-> (k & tl & ->)]]]]]]);
    cbn; do 2 eexists; repeat split; try reflexivity; cbn; try lia.
Qed.

Lemma factor_parse LM g : Forall wf_row LM ->
  exists ps LM', parse_LM LM = Ok ps /\ factor_LM LM g = Ok LM' /\ Forall wf_row LM' /\
    parse_LM LM' = Ok (map (scale_pl g) ps) /\ length ps = length LM.
Proof.
  intros HW. unfold parse_LM, factor_LM.
  assert (A : forall l, Forall wf_row l -> forallb is_list_row l = true).
  { intros l Hl. apply forallb_forall. intros r Hr. rewrite Forall_forall in Hl.
    specialize (Hl r Hr). destruct r; try contradiction; reflexivity. }
  assert (B : exists pss LM', mapM parse_row LM = Ok pss /\ mapM (factor_row g) LM = Ok LM' /\
     Forall wf_row LM' /\ mapM parse_row LM' = Ok (map (map (scale_pl g)) pss) /\
     length (concat pss) = length LM).
  { induction HW as [|r l Hr Hl IH].
    - exists [], []. repeat split; constructor.
    - destruct IH as (pss & l' & E1 & E2 & W & E3 & E4).
      destruct (row_parse_factor g r Hr) as (p & r' & F1 & F2 & W1 & F3).
      exists ([p] :: pss), (r' :: l'). cbn [mapM]. rewrite E1, E2, F1, F2. cbn.
      rewrite F3. cbn. rewrite E3. cbn. rewrite E4. repeat split. constructor; auto. }
  destruct B as (pss & LM' & E1 & E2 & W & E3 & E4).
  exists (concat pss), LM'. rewrite (A LM HW), (A LM' W). cbn. rewrite E1, E3. cbn.
  repeat split; auto. rewrite concat_map. reflexivity.
Qed.

Lemma scale_load_1 ld : scale_load 1 ld = ld.
Proof.
  destruct ld; cbn; rewrite ?Rmult_1_l; try reflexivity.
  f_equal. rewrite <- (map_id kappa) at 2. apply map_ext. intros; ring.
Qed.
Lemma scale_load_comp g h ld : scale_load g (scale_load h ld) = scale_load (g * h) ld.
Proof.
  destruct ld; cbn; rewrite <- ?Rmult_assoc; try reflexivity.
  f_equal. rewrite map_map. apply map_ext. intros; ring.
Qed.
Lemma scale_pl_1 ps : map (scale_pl 1) ps = ps.
Proof.
  rewrite <- (map_id ps) at 2. apply map_ext. intros [s l]. unfold scale_pl; cbn. rewrite scale_load_1. reflexivity.
Qed.

Lemma factor_LM_wf LM g LM' : Forall wf_row LM -> factor_LM LM g = Ok LM' -> Forall wf_row LM'.
Proof.
  intros W E. destruct (factor_parse LM g W) as (ps & L2 & _ & E2 & W2 & _).
  rewrite E in E2. injection E2 as ->. exact W2.
Qed.

(** Factoring twice multiplies the factors, as matrices. *)
Lemma factor_row_twice g h r r1 r2 : wf_row r -> factor_row g r = Ok r1 -> factor_row h r1 = Ok r2 ->
  factor_row (h * g) r = Ok r2.
Proof.
  intros Hw. apply wf_cases in Hw.
  destruct Hw as (s & t & args & -> &
    [[-> (w & tl & ->)]|[[-> (P & a & tl & ->)]|[[-> (w & a & c & tl & ->)]|
     [[-> (m & a & tl & ->)]|[[-> (w1 & w2 & tl & ->)]|[-> (k & tl & ->)]]]]]]);
    cbn; intros E1 E2; injection E1 as <-; cbn in E2; injection E2 as <-;
    rewrite <- ?Rmult_assoc; try reflexivity.
  do 3 f_equal. rewrite map_map. apply map_ext. intros x. ring.
Qed.

Lemma factor_LM_twice LM g h LM1 LM2 : Forall wf_row LM ->
  factor_LM LM g = Ok LM1 -> factor_LM LM1 h = Ok LM2 -> factor_LM LM (h * g) = Ok LM2.
Proof.
  intros HW. unfold factor_LM. revert LM1 LM2.
  induction HW as [|r l Hr Hl IH]; cbn; intros LM1 LM2 E1 E2.
  - injection E1 as <-. cbn in E2. exact E2.
  - apply rbind_ok in E1. destruct E1 as (r1 & F1 & E1). apply rbind_ok in E1.
    destruct E1 as (l1 & G1 & E1). injection E1 as <-. cbn in E2.
    apply rbind_ok in E2. destruct E2 as (r2 & F2 & E2). apply rbind_ok in E2.
    destruct E2 as (l2 & G2 & E2). injection E2 as <-.
    rewrite (factor_row_twice g h r r1 r2 Hr F1 F2). cbn. rewrite (IH _ _ G1 G2). reflexivity.
Qed.

Lemma factor_LM_app LM1 LM2 g L1 L2 :
  factor_LM LM1 g = Ok L1 -> factor_LM LM2 g = Ok L2 ->
  factor_LM (add_LM LM1 LM2) g = Ok (add_LM L1 L2).
Proof.
  intros E1 E2. unfold factor_LM, add_LM in *. rewrite mapM_app, E1, E2. reflexivity.
Qed.

Lemma parse_LM_app LM1 LM2 p1 p2 :
  parse_LM LM1 = Ok p1 -> parse_LM LM2 = Ok p2 -> parse_LM (add_LM LM1 LM2) = Ok (p1 ++ p2).
Proof.
  unfold parse_LM, add_LM. rewrite forallb_app.
  destruct (forallb is_list_row LM1); cbn; [|discriminate].
  destruct (forallb is_list_row LM2); cbn; [|intros _; discriminate].
  intros E1 E2. apply rbind_ok in E1. destruct E1 as (l1 & F1 & E1). injection E1 as <-.
  apply rbind_ok in E2. destruct E2 as (l2 & F2 & E2). injection E2 as <-.
  rewrite mapM_app, F1. cbn. rewrite F2. cbn. rewrite concat_app. reflexivity.
Qed.

(** Scaling the fixed-end forces. *)
Lemma polyval_acc l x acc g : fold_left (fun a c => a * x + c) (map (Rmult g) l) (g * acc)
  = g * fold_left (fun a c => a * x + c) l acc.
Proof.
  revert acc. induction l as [|c l IH]; intros acc; cbn; [reflexivity|].
  rewrite <- IH. f_equal. ring.
Qed.
Lemma kappa_imp_scale g k x : kappa_imp (map (Rmult g) k) x = g * kappa_imp k x.
Proof.
  unfold kappa_imp, polyval. rewrite <- map_rev.
  replace 0 with (g * 0) at 1 by ring. apply polyval_acc.
Qed.

Lemma cnl_eq p q : c_Va p = c_Va q -> c_Ma p = c_Ma q -> c_Vb p = c_Vb q -> c_Mb p = c_Mb q -> p = q.
Proof. destruct p, q; cbn. intros -> -> -> ->. reflexivity. Qed.

Lemma simpson_ext n h f f' : (forall i, f i = f' i) -> simpson n h f = simpson n h f'.
Proof. intros E. unfold simpson. apply rsum_ext. intros i _. rewrite !E. reflexivity. Qed.
Lemma simpson_scal n h f g : simpson n h (fun i => g * f i) = g * simpson n h f.
Proof. unfold simpson. rewrite <- rsum_scal. apply rsum_ext. intros. ring. Qed.

Lemma ic_theta0_scale g k es L :
  ic_theta0 (map (Rmult g) k) es L = (g * fst (ic_theta0 k es L), g * snd (ic_theta0 k es L)).
Proof.
  unfold ic_theta0.
  match goal with |- fold_left ?f _ _ = (g * fst (fold_left ?f' _ _), _) => set (F := f); set (F' := f') end.
  assert (G : forall ps th, fold_left F ps (g * fst th, g * snd th)
     = (g * fst (fold_left F' ps th), g * snd (fold_left F' ps th))).
  { induction ps as [|[a b] ps IH]; intros th; cbn [fold_left]; [reflexivity|].
    rewrite <- IH. f_equal. unfold F, F'; cbn [fst snd].
    destruct (Rleb b a); [reflexivity|]. cbn [fst snd].
    rewrite !Rmult_plus_distr_l, <- !simpson_scal.
    f_equal; f_equal; apply simpson_ext; intros i; rewrite kappa_imp_scale; ring. }
  rewrite <- (G _ (0, 0)). cbn. rewrite Rmult_0_r. reflexivity.
Qed.

Lemma get_cnl_scale gl g ld L :
  get_cnl gl (scale_load g ld) L = (do c <- get_cnl gl ld L; Ok (cnl_scale g c)).
Proof.
  destruct ld; cbn [scale_load get_cnl rbind].
  - f_equal. apply cnl_eq; cbn; unfold Rdiv; ring.
  - f_equal. apply cnl_eq; cbn; unfold Rdiv; ring.
  - unfold pudl_cnl. rcase L a; [reflexivity|]. cbn. f_equal. apply cnl_eq; cbn; unfold Rdiv; ring.
  - f_equal. unfold trap_cnl, trap_resolve.
    destruct (Rleb L a || Rleb _ 0); [rewrite (proj2 (Rleb_true 0 0)) by lra; apply cnl_eq; cbn; ring|].
    destruct (Rltb L _).
    + destruct (Rleb (L - a) 0); apply cnl_eq; cbn; unfold Rdiv; ring.
    + destruct (Rleb _ 0); apply cnl_eq; cbn; unfold Rdiv; ring.
  - f_equal. apply cnl_eq; cbn; unfold Rdiv; ring.
  - f_equal. apply cnl_eq; cbn; unfold Rdiv; ring.
  - unfold ic_cnl. destruct EI as [e|]; [|reflexivity]. unfold ic_end_moments.
    rewrite ic_theta0_scale. destruct (ic_Ktheta gl e L) as [K|]; cbn; [|reflexivity].
    f_equal. apply cnl_eq; cbn; unfold Rdiv; ring.
Qed.

Lemma release_scale g c L et : release (cnl_scale g c) L et = cnl_scale g (release c L et).
Proof.
  unfold release. destruct et as [|[|[|[|[|]]]]]; apply cnl_eq; cbn; unfold Rdiv; ring.
Qed.
Lemma release_add c d L et : release (cnl_add c d) L et = cnl_add (release c L et) (release d L et).
Proof.
  unfold release. destruct et as [|[|[|[|[|]]]]]; apply cnl_eq; cbn; unfold Rdiv; ring.
Qed.

Lemma load_get_ref_scale gl g ld L et :
  load_get_ref gl (scale_load g ld) L et = (do c <- load_get_ref gl ld L et; Ok (cnl_scale g c)).
Proof.
  unfold load_get_ref. rewrite get_cnl_scale. destruct (get_cnl gl ld L); cbn; [|reflexivity].
  rewrite release_scale. reflexivity.
Qed.
