(** The released end forces of a span are additive in its list of loads, homogeneous in
    their magnitudes and do not depend on their order. *)
From Coq Require Import Permutation.
From Verif Require Import Base BaseFacts Linalg LinalgFacts SectionModel FlexModel LoadModel LoadSpec
  FoundationModel ElementModel UtilsModel BeamModel LMFacts.
Open Scope R_scope.

Section G.
Variable gl : nat -> list (R * R).

(** ** Additivity *)
Definition addM (m : member) := fun (acc : vec) ld => do v <- ref_one gl m ld; Ok (fun i => acc i + v i).

Lemma foldM_refs_shift m l : forall s v, foldM (addM m) l s = Ok v ->
  exists v0, foldM (addM m) l (fun _ => 0) = Ok v0 /\ forall i, v i = s i + v0 i.
Proof.
  induction l as [|ld l IH]; intros s v H.
  - injection H as <-. exists (fun _ => 0). split; [reflexivity|]. intros; ring.
  - cbn [foldM] in *. apply rbind_ok in H as (s1 & H1 & H).
    unfold addM in H1 at 1. apply rbind_ok in H1 as (w & Hw & H1). injection H1 as <-.
    destruct (IH _ _ H) as (v0 & H0 & E).
    unfold addM at 1. rewrite Hw. cbn [rbind].
    assert (X : forall s', exists v', foldM (addM m) l s' = Ok v').
    { clear - H. revert H. generalize (fun i => s i + w i). revert v. induction l as [|a l IHl]; intros v s0 H s'.
      - eexists; reflexivity.
      - cbn [foldM] in *. apply rbind_ok in H as (s2 & H2 & H). unfold addM in H2 at 1.
        apply rbind_ok in H2 as (w' & Hw' & H2). unfold addM at 1. rewrite Hw'. cbn [rbind].
        injection H2 as <-. eapply IHl. exact H. }
    destruct (X (fun i => 0 + w i)) as (v1 & H1). rewrite H1. exists v1. split; [reflexivity|].
    destruct (IH _ _ H1) as (v0' & H0' & E'). intros i. rewrite E, E'.
    replace v0' with v0 by congruence. ring.
Qed.

Lemma foldM_refs_any m l s s' v : foldM (addM m) l s = Ok v -> exists v', foldM (addM m) l s' = Ok v'.
Proof.
  revert s s' v. induction l as [|ld l IH]; intros s s' v H.
  - eexists; reflexivity.
  - cbn [foldM] in *. apply rbind_ok in H as (s1 & H1 & H).
    unfold addM in H1 at 1. apply rbind_ok in H1 as (w & Hw & H1).
    unfold addM at 1. rewrite Hw. cbn [rbind]. eapply IH. exact H.
Qed.

(** Foundation vectors. *)
Lemma sum_refs_shift L et l : forall s v,
  foldM (fun acc ld => do c <- load_get_ref gl ld L et; Ok (cnl_add acc c)) l s = Ok v ->
  exists v0, sum_refs gl l L et = Ok v0 /\ v = cnl_add s v0.
Proof.
  unfold sum_refs.
  assert (AA : forall a b c, cnl_add (cnl_add a b) c = cnl_add a (cnl_add b c)).
  { intros. apply cnl_eq; cbn; ring. }
  assert (Z : forall a, cnl_add cnl_zero a = a). { intros [? ? ? ?]. apply cnl_eq; cbn; ring. }
  assert (Z' : forall a, cnl_add a cnl_zero = a). { intros [? ? ? ?]. apply cnl_eq; cbn; ring. }
  induction l as [|ld l IH]; intros s v H.
  - injection H as <-. exists cnl_zero. rewrite Z'. split; reflexivity.
  - cbn [foldM] in *. apply rbind_ok in H as (s1 & H1 & H).
    apply rbind_ok in H1 as (w & Hw & H1). injection H1 as <-.
    destruct (IH _ _ H) as (v0 & H0 & ->). rewrite Hw. cbn [rbind].
    assert (X : forall s0 s' v, foldM (fun acc ld => do c <- load_get_ref gl ld L et; Ok (cnl_add acc c)) l s0 = Ok v ->
       exists v', foldM (fun acc ld => do c <- load_get_ref gl ld L et; Ok (cnl_add acc c)) l s' = Ok v').
    { clear. induction l as [|a l IHl]; intros s0 s' v H; [eexists; reflexivity|].
      cbn [foldM] in *. apply rbind_ok in H as (s2 & H2 & H). apply rbind_ok in H2 as (w' & Hw' & H2).
      rewrite Hw'. cbn [rbind]. eapply IHl. exact H. }
    destruct (X _ (cnl_add cnl_zero w) _ H) as (v1 & H1). rewrite H1. exists v1. split; [reflexivity|].
    destruct (IH _ _ H1) as (v2 & H2 & ->). replace v2 with v0 by congruence. rewrite Z. apply AA.
Qed.

Lemma sum_refs_app l1 l2 L et : sum_refs gl (l1 ++ l2) L et =
  do a <- sum_refs gl l1 L et; do b <- sum_refs gl l2 L et; Ok (cnl_add a b).
Proof.
  unfold sum_refs at 1. rewrite foldM_app. fold (sum_refs gl l1 L et).
  destruct (sum_refs gl l1 L et) as [a|e]; cbn [rbind]; [|reflexivity].
  destruct (foldM _ l2 a) as [v|e] eqn:E.
  - destruct (sum_refs_shift _ _ _ _ _ E) as (v0 & -> & ->). reflexivity.
  - assert (X : forall s s' v, foldM (fun acc ld => do c <- load_get_ref gl ld L et; Ok (cnl_add acc c)) l2 s = Err v ->
       foldM (fun acc ld => do c <- load_get_ref gl ld L et; Ok (cnl_add acc c)) l2 s' = Err v).
    { clear. induction l2 as [|a l IHl]; intros s0 s' v H; [discriminate|].
      cbn [foldM] in *. destruct (load_get_ref gl a L et); cbn [rbind] in *; [|assumption]. eapply IHl. exact H. }
    unfold sum_refs. rewrite (X _ _ _ E). reflexivity.
Qed.

Lemma sub_loads_app f l1 l2 e : sub_loads f (l1 ++ l2) e =
  do a <- sub_loads f l1 e; do b <- sub_loads f l2 e; Ok (a ++ b).
Proof.
  unfold sub_loads. rewrite mapM_app.
  destruct (mapM (fun ld => sub_load f ld e) l1); cbn [rbind]; [|reflexivity].
  destruct (mapM (fun ld => sub_load f ld e) l2); cbn [rbind]; [|reflexivity].
  rewrite concat_app. reflexivity.
Qed.

Definition felt f lds e := do sl <- sub_loads f lds e; sum_refs gl sl (fe_h f) 1.

Lemma felt_app_ok f l1 l2 e c : felt f (l1 ++ l2) e = Ok c ->
  exists a b, felt f l1 e = Ok a /\ felt f l2 e = Ok b /\ c = cnl_add a b.
Proof.
  unfold felt. rewrite sub_loads_app.
  destruct (sub_loads f l1 e) as [a|]; cbn [rbind]; [|discriminate].
  destruct (sub_loads f l2 e) as [b|]; cbn [rbind]; [|discriminate].
  rewrite sum_refs_app. destruct (sum_refs gl a _ _); cbn [rbind]; [|discriminate].
  destruct (sum_refs gl b _ _); cbn [rbind]; [|discriminate].
  intros [= <-]. eauto.
Qed.

Lemma felt_app f l1 l2 e a b : felt f l1 e = Ok a -> felt f l2 e = Ok b ->
  felt f (l1 ++ l2) e = Ok (cnl_add a b).
Proof.
  unfold felt. rewrite sub_loads_app.
  destruct (sub_loads f l1 e) as [x|]; cbn [rbind]; [|discriminate].
  destruct (sub_loads f l2 e) as [y|]; cbn [rbind]; [|discriminate].
  rewrite sum_refs_app. intros -> ->. reflexivity.
Qed.

Lemma fe_refs_nth f lds rs e : fe_refs gl f lds = Ok rs -> (e < fe_n f)%nat ->
  felt f lds e = Ok (nth e rs cnl_zero).
Proof.
  unfold fe_refs. fold (felt f lds). intros H He. apply mapM_ok in H.
  assert (G : forall l rs, Forall2 (fun a b => felt f lds a = Ok b) l rs ->
    forall k, (k < length l)%nat -> felt f lds (nth k l 0%nat) = Ok (nth k rs cnl_zero)).
  { induction 1 as [|x y l' rs' Hxy H' IH]; intros k Hk; [cbn in Hk; lia|].
    destruct k; cbn; [exact Hxy|]. apply IH. cbn in Hk. lia. }
  specialize (G _ _ H e). rewrite seq_length, seq_nth in G by lia. auto.
Qed.

Lemma fe_refs_total f lds (F : nat -> cnl) : (forall e, (e < fe_n f)%nat -> felt f lds e = Ok (F e)) ->
  exists rs, fe_refs gl f lds = Ok rs /\ forall e, (e < fe_n f)%nat -> nth e rs cnl_zero = F e.
Proof.
  intros H. exists (map F (seq 0 (fe_n f))).
  assert (E : fe_refs gl f lds = Ok (map F (seq 0 (fe_n f)))).
  { unfold fe_refs. fold (felt f lds). apply mapM_complete.
    assert (G : forall l, (forall e, In e l -> (e < fe_n f)%nat) -> Forall2 (fun a b => felt f lds a = Ok b) l (map F l)).
    { induction l; cbn; constructor; auto. }
    apply G. intros e He. apply in_seq in He. lia. }
  split; [exact E|]. intros e He. assert (X := fe_refs_nth _ _ _ _ E He). rewrite H in X by lia. congruence.
Qed.

Lemma assemble_vec_ext F G n i : (forall e p, (e < n)%nat -> F e p = G e p) -> assemble_vec F n i = assemble_vec G n i.
Proof.
  induction n as [|n IH]; intros H; cbn [assemble_vec]; [reflexivity|].
  rewrite IH by (intros; apply H; lia). destruct (_ && _); [rewrite H by lia|]; reflexivity.
Qed.
Lemma assemble_vec_plus F G n i : assemble_vec (fun e p => F e p + G e p) n i = assemble_vec F n i + assemble_vec G n i.
Proof.
  induction n as [|n IH]; cbn [assemble_vec]; [ring|]. rewrite IH. destruct (_ && _); ring.
Qed.
Lemma assemble_vec_scal c F n i : assemble_vec (fun e p => c * F e p) n i = c * assemble_vec F n i.
Proof.
  induction n as [|n IH]; cbn [assemble_vec]; [ring|]. rewrite IH. destruct (_ && _); ring.
Qed.
Lemma cnl_vec_add a b p : cnl_vec (cnl_add a b) p = cnl_vec a p + cnl_vec b p.
Proof. destruct p as [|[|[|[|p]]]]; cbn; ring. Qed.
Lemma cnl_vec_scale g a p : cnl_vec (cnl_scale g a) p = g * cnl_vec a p.
Proof. destruct p as [|[|[|[|p]]]]; cbn; ring. Qed.

Lemma fe_rfull_app f l1 l2 v1 v2 : fe_rfull gl f l1 = Ok v1 -> fe_rfull gl f l2 = Ok v2 ->
  exists v, fe_rfull gl f (l1 ++ l2) = Ok v /\ forall i, v i = v1 i + v2 i.
Proof.
  unfold fe_rfull. intros H1 H2.
  apply rbind_ok in H1 as (r1 & E1 & H1). injection H1 as <-.
  apply rbind_ok in H2 as (r2 & E2 & H2). injection H2 as <-.
  destruct (fe_refs_total f (l1 ++ l2) (fun e => cnl_add (nth e r1 cnl_zero) (nth e r2 cnl_zero))) as (r & E & N).
  { intros e He. apply felt_app; apply fe_refs_nth; auto. }
  rewrite E. cbn [rbind]. eexists. split; [reflexivity|]. intros i.
  rewrite <- assemble_vec_plus. apply assemble_vec_ext. intros e p He. rewrite N by exact He. apply cnl_vec_add.
Qed.

Lemma fe_rfull_app_ok f l1 l2 v : fe_rfull gl f (l1 ++ l2) = Ok v ->
  exists v1 v2, fe_rfull gl f l1 = Ok v1 /\ fe_rfull gl f l2 = Ok v2 /\ forall i, v i = v1 i + v2 i.
Proof.
  unfold fe_rfull at 1. intros H. apply rbind_ok in H as (r & E & H). injection H as <-.
  assert (X : forall lds, (forall e, (e < fe_n f)%nat -> exists c, felt f lds e = Ok c) ->
     exists w, fe_rfull gl f lds = Ok w).
  { intros lds H. unfold fe_rfull.
    destruct (fe_refs_total f lds (fun e => match felt f lds e with Ok c => c | Err _ => cnl_zero end)) as (rr & -> & _).
    { intros e He. destruct (H e He) as (c & ->). reflexivity. }
    eexists; reflexivity. }
  destruct (X l1) as (v1 & H1).
  { intros e He. destruct (felt_app_ok f l1 l2 e _ (fe_refs_nth _ _ _ _ E He)) as (a & b & H1 & _). eauto. }
  destruct (X l2) as (v2 & H2).
  { intros e He. destruct (felt_app_ok f l1 l2 e _ (fe_refs_nth _ _ _ _ E He)) as (a & b & _ & H2 & _). eauto. }
  exists v1, v2. split; [exact H1|]. split; [exact H2|].
  destruct (fe_rfull_app f l1 l2 v1 v2 H1 H2) as (v & Hv & Ev). intros i. rewrite <- Ev.
  unfold fe_rfull in Hv. rewrite E in Hv. injection Hv as <-. reflexivity.
Qed.

Definition fe_cond (f : felem) (B : mat) (Rf : vec) : vec := fun i => Rf (fe_r f i)
      - rsum (fe_nc f) (fun p => rsum (fe_nc f) (fun q => fe_K f (fe_r f i) (fe_c q) * B q p) * Rf (fe_c p)).
Lemma fe_cond_plus f B u v w i : (forall j, w j = u j + v j) -> fe_cond f B w i = fe_cond f B u i + fe_cond f B v i.
Proof.
  intros E. unfold fe_cond. rewrite E.
  rewrite (rsum_ext _ (fun p => _ * w (fe_c p)) (fun p =>
    rsum (fe_nc f) (fun q => fe_K f (fe_r f i) (fe_c q) * B q p) * u (fe_c p) +
    rsum (fe_nc f) (fun q => fe_K f (fe_r f i) (fe_c q) * B q p) * v (fe_c p))).
  - rewrite rsum_plus. ring.
  - intros p _. rewrite E. ring.
Qed.
Lemma fe_cond_scal f B g u w i : (forall j, w j = g * u j) -> fe_cond f B w i = g * fe_cond f B u i.
Proof.
  intros E. unfold fe_cond. rewrite E.
  rewrite (rsum_ext _ (fun p => _ * w (fe_c p)) (fun p => g * (
    rsum (fe_nc f) (fun q => fe_K f (fe_r f i) (fe_c q) * B q p) * u (fe_c p)))).
  - rewrite rsum_scal. ring.
  - intros p _. rewrite E. ring.
Qed.

Lemma span_ref_app m l1 l2 v1 v2 : span_ref gl m l1 = Ok v1 -> span_ref gl m l2 = Ok v2 ->
  exists v, span_ref gl m (l1 ++ l2) = Ok v /\ forall i, v i = v1 i + v2 i.
Proof.
  unfold span_ref. destruct (mb_kf m) as [kf|].
  - destruct (foundation_of m kf) as [f|]; cbn [rbind]; [|discriminate]. unfold fe_ref.
    intros H1 H2. apply rbind_ok in H1 as (r1 & R1 & H1). apply rbind_ok in H2 as (r2 & R2 & H2).
    apply rbind_ok in H1 as (B & HB & H1). rewrite HB in H2. cbn [rbind] in H2. injection H1 as <-. injection H2 as <-.
    destruct (fe_rfull_app f l1 l2 r1 r2 R1 R2) as (r & -> & E). cbn [rbind]. rewrite HB. cbn [rbind].
    eexists. split; [reflexivity|]. intros i. apply (fe_cond_plus f B r1 r2 r i E).
  - fold (addM m). intros H1 H2. rewrite foldM_app, H1. cbn [rbind].
    destruct (foldM_refs_any m l2 _ v1 _ H2) as (v & Hv). exists v. split; [exact Hv|].
    destruct (foldM_refs_shift m l2 _ _ Hv) as (v0 & H0 & E). intros i. rewrite E.
    assert (X : Ok v0 = Ok v2) by (rewrite <- H0; exact H2). injection X as ->. reflexivity.
Qed.

Lemma span_ref_app_ok m l1 l2 v : span_ref gl m (l1 ++ l2) = Ok v ->
  exists v1 v2, span_ref gl m l1 = Ok v1 /\ span_ref gl m l2 = Ok v2 /\ forall i, v i = v1 i + v2 i.
Proof.
  unfold span_ref. destruct (mb_kf m) as [kf|].
  - destruct (foundation_of m kf) as [f|]; cbn [rbind]; [|discriminate]. unfold fe_ref.
    intros H. apply rbind_ok in H as (r & R1 & H). apply rbind_ok in H as (B & HB & H). injection H as <-.
    destruct (fe_rfull_app_ok f l1 l2 r R1) as (r1 & r2 & -> & -> & E). cbn [rbind]. rewrite HB. cbn [rbind].
    do 2 eexists. split; [reflexivity|]. split; [reflexivity|]. intros i. apply (fe_cond_plus f B r1 r2 r i E).
  - fold (addM m). rewrite foldM_app. intros H. apply rbind_ok in H as (v1 & H1 & H).
    destruct (foldM_refs_shift m l2 _ _ H) as (v2 & H2 & E). eauto.
Qed.

Lemma span_ref_perm m l l' : Permutation l l' -> forall v, span_ref gl m l = Ok v ->
  exists v', span_ref gl m l' = Ok v' /\ forall i, v' i = v i.
Proof.
  induction 1 as [|x l l' HP IH|x y l|l l' l'' H1 IH1 H2 IH2]; intros v Hv.
  - eauto.
  - change (x :: l) with ([x] ++ l) in Hv. apply span_ref_app_ok in Hv as (a & b & Ha & Hb & E).
    destruct (IH b Hb) as (b' & Hb' & E'). destruct (span_ref_app m [x] l' a b' Ha Hb') as (v' & Hv' & E2).
    exists v'. split; [exact Hv'|]. intros i. rewrite E2, E', E. reflexivity.
  - change (y :: x :: l) with ([y] ++ [x] ++ l) in Hv. apply span_ref_app_ok in Hv as (a & b & Ha & Hb & E).
    apply span_ref_app_ok in Hb as (c & d & Hc & Hd & E2).
    destruct (span_ref_app m [y] l a d Ha Hd) as (w & Hw & Ew).
    destruct (span_ref_app m [x] ([y] ++ l) c w Hc Hw) as (v' & Hv' & E3).
    exists v'. split; [exact Hv'|]. intros i. rewrite E3, Ew, E, E2. ring.
  - destruct (IH1 v Hv) as (v' & Hv' & E). destruct (IH2 v' Hv') as (v'' & Hv'' & E').
    exists v''. split; [exact Hv''|]. intros i. rewrite E'. apply E.
Qed.

(** ** Homogeneity *)
Lemma set_first_scale g l : set_first 0 (map (Rmult g) l) = map (Rmult g) (set_first 0 l).
Proof. destruct l; cbn; [reflexivity|]. f_equal. ring. Qed.
Lemma set_last_scale g l : set_last 0 (map (Rmult g) l) = map (Rmult g) (set_last 0 l).
Proof.
  destruct l as [|a l]; [reflexivity|]. unfold set_last.
  assert (R : forall l : list R, removelast (map (Rmult g) l) = map (Rmult g) (removelast l)).
  { induction l0 as [|x l0 IH]; cbn; [reflexivity|]. destruct l0; cbn in *; [reflexivity|]. f_equal. apply IH. }
  change (map (Rmult g) (a :: l)) with (map (Rmult g) (a :: l)).
  rewrite R, map_app. cbn [map app]. destruct (map (Rmult g) (a :: l)) eqn:E; [discriminate|].
  f_equal. f_equal. cbn. ring.
Qed.
Lemma zero_ends_scale g l : zero_ends (map (Rmult g) l) = map (Rmult g) (zero_ends l).
Proof. unfold zero_ends. rewrite set_first_scale, set_last_scale. reflexivity. Qed.

Lemma trap_resolve_scale g w1 w2 a c L :
  trap_resolve (g * w1) (g * w2) a c L =
  match trap_resolve w1 w2 a c L with (x, y, z, a', c') => (g * x, g * y, g * z, a', c') end.
Proof.
  unfold trap_resolve. cbv zeta. set (cc := match c with Some c0 => c0 | None => L - a end). clearbody cc.
  assert (P5 : forall x1 x2 x3 y1 y2 y3 u v : R, x1 = y1 -> x2 = y2 -> x3 = y3 ->
    (x1, x2, x3, u, v) = (y1, y2, y3, u, v)) by (intros; subst; reflexivity).
  destruct (_ || _); [|destruct (Rltb L _)]; apply P5; unfold Rdiv; ring.
Qed.

Lemma diag_scale g ld L d : diag_of ld L = Some d -> exists d', diag_of (scale_load g ld) L = Some d' /\
  forall x, f_M d' x = g * f_M d x /\ f_V d' x = g * f_V d x.
Proof.
  destruct ld; cbn [scale_load diag_of]; intros [= <-]; eexists; (split; [reflexivity|]); intros x.
  - cbn. unfold Rdiv. split; ring.
  - cbn. unfold Rdiv. split; ring.
  - cbn. unfold Rdiv. split; ring.
  - unfold trap_diag. rewrite trap_resolve_scale. destruct (trap_resolve w1 w2 a c L) as [[[[x1 x2] x3] x4] x5].
    cbn [fst snd]. destruct (Rleb x5 0); cbn; unfold Rdiv; split; ring.
  - cbn. unfold Rdiv. split; ring.
  - cbn. unfold Rdiv. split; ring.
Qed.

Lemma mbr_scale g ld xs L :
  r_M (get_mbr_results (scale_load g ld) xs L) = map (Rmult g) (r_M (get_mbr_results ld xs L)) /\
  r_V (get_mbr_results (scale_load g ld) xs L) = map (Rmult g) (r_V (get_mbr_results ld xs L)).
Proof.
  assert (Z : zero_ends (map (fun _ : R => 0) xs) = map (Rmult g) (zero_ends (map (fun _ : R => 0) xs))).
  { rewrite <- zero_ends_scale, map_map. f_equal. apply map_ext. intros; ring. }
  destruct (diag_of ld L) as [d|] eqn:E.
  - destruct (diag_scale g ld L d E) as (d' & E' & H).
    assert (A : get_mbr_results ld xs L = sample d xs).
    { unfold get_mbr_results. rewrite E. destruct ld; try reflexivity. discriminate. }
    assert (A' : get_mbr_results (scale_load g ld) xs L = sample d' xs).
    { unfold get_mbr_results. rewrite E'. destruct ld; try reflexivity. discriminate. }
    rewrite A, A'. cbn [sample r_M r_V]. rewrite <- !zero_ends_scale, !map_map.
    split; f_equal; apply map_ext; intros x; apply H.
  - destruct ld; try discriminate. cbn [scale_load get_mbr_results ic_mres r_M r_V]. auto.
Qed.

Lemma curv_scale g ld es xx L : curvatures (scale_load g ld) es xx L = map (Rmult g) (curvatures ld es xx L).
Proof.
  unfold curvatures. rewrite (proj1 (mbr_scale g ld xx L)). generalize (r_M (get_mbr_results ld xx L)) as Ms.
  generalize (combine es xx) as t. intros t Ms. revert t. induction Ms as [|m Ms IH]; intros [|[e x] t]; cbn; auto.
  rewrite <- IH. f_equal. destruct ld; cbn [scale_load]; rewrite ?kappa_imp_scale; unfold Rdiv; ring.
Qed.

Lemma mulpt_scale g f xx ys : mulpt f xx (map (Rmult g) ys) = map (Rmult g) (mulpt f xx ys).
Proof.
  unfold mulpt. revert ys. induction xx as [|x xx IH]; intros [|y ys]; cbn; auto. rewrite <- IH. f_equal. ring.
Qed.
Lemma simpson_list_scale g a b ys : simpson_list a b (map (Rmult g) ys) = g * simpson_list a b ys.
Proof.
  unfold simpson_list. rewrite <- simpson_scal. apply simpson_ext. intros i.
  replace 0 with (g * 0) at 1 by ring. apply map_nth.
Qed.

Lemma nonprism_scale g ld s L : nonprism_theta0 (scale_load g ld) s L =
  do th <- nonprism_theta0 ld s L; Ok (g * fst th, g * snd th).
Proof.
  unfold nonprism_theta0. generalize (pairs (edges (breakpoints s) L)) as ps.
  assert (X : forall ps t,
    foldM (fun th ab => if Rleb (snd ab) (fst ab) then Ok th else
      do es <- mapM (sect_eval s) (fine_grid (fst ab) (snd ab));
      Ok (fst th + simpson_list (fst ab) (snd ab) (mulpt (fun x => 1 - x / L) (fine_grid (fst ab) (snd ab)) (curvatures (scale_load g ld) es (fine_grid (fst ab) (snd ab)) L)),
          snd th + simpson_list (fst ab) (snd ab) (mulpt (fun x => - x / L) (fine_grid (fst ab) (snd ab)) (curvatures (scale_load g ld) es (fine_grid (fst ab) (snd ab)) L)))) ps (g * fst t, g * snd t)
    = do th <- foldM (fun th ab => if Rleb (snd ab) (fst ab) then Ok th else
      do es <- mapM (sect_eval s) (fine_grid (fst ab) (snd ab));
      Ok (fst th + simpson_list (fst ab) (snd ab) (mulpt (fun x => 1 - x / L) (fine_grid (fst ab) (snd ab)) (curvatures ld es (fine_grid (fst ab) (snd ab)) L)),
          snd th + simpson_list (fst ab) (snd ab) (mulpt (fun x => - x / L) (fine_grid (fst ab) (snd ab)) (curvatures ld es (fine_grid (fst ab) (snd ab)) L)))) ps t;
      Ok (g * fst th, g * snd th)).
  { induction ps as [|ab ps IH]; intros t; cbn [foldM rbind]; [reflexivity|].
    destruct (Rleb (snd ab) (fst ab)); cbn [rbind]; [apply IH|].
    destruct (mapM (sect_eval s) _) as [es|]; cbn [rbind]; [|reflexivity].
    rewrite <- IH. f_equal. cbn [fst snd]. rewrite !curv_scale, !mulpt_scale, !simpson_list_scale. f_equal; ring. }
  intros ps. assert (X0 := X ps (0, 0)). cbn [fst snd] in X0.
  replace (g * 0) with 0 in X0 by ring. exact X0.
Qed.

Definition scalev g (r : result vec) (r' : result vec) : Prop :=
  match r, r' with
  | Ok v, Ok v' => forall i, v' i = g * v i
  | Err e, Err e' => e = e'
  | _, _ => False
  end.

Lemma release_from_scale g c Ma Mb L k et :
  scalev g (release_from c Ma Mb L k et) (release_from (cnl_scale g c) (g * Ma) (g * Mb) L k et).
Proof.
  unfold release_from. cbn [cnl_scale c_Va c_Ma c_Vb c_Mb].
  assert (F : forall i, vec4 (g * c_Va c - (g * c_Ma c + g * c_Mb c) / L + (g * Ma + g * Mb) / L) (g * Ma)
                (g * c_Vb c + (g * c_Ma c + g * c_Mb c) / L - (g * Ma + g * Mb) / L) (g * Mb) i
            = g * vec4 (c_Va c - (c_Ma c + c_Mb c) / L + (Ma + Mb) / L) Ma
                (c_Vb c + (c_Ma c + c_Mb c) / L - (Ma + Mb) / L) Mb i).
  { intros [|[|[|[|i]]]]; cbn; unfold Rdiv; ring. }
  destruct et as [|[|[|[|[|et]]]]]; try exact F.
  - destruct k as [k|]; cbn [rbind]; [|reflexivity].
    destruct (Req_EM_T (k 3%nat 3%nat) 0); [reflexivity|]. cbn [scalev]. intros i. rewrite !F. unfold Rdiv. ring.
  - destruct k as [k|]; cbn [rbind]; [|reflexivity].
    destruct (Req_EM_T (k 1%nat 1%nat) 0); [reflexivity|]. cbn [scalev]. intros i. rewrite !F. unfold Rdiv. ring.
  - cbn [scalev]. intros [|[|[|[|i]]]]; cbn; unfold Rdiv; ring.
Qed.

Lemma map_div_scale g Ms gs : map (fun p => fst p / snd p) (combine (map (Rmult g) Ms) gs)
  = map (Rmult g) (map (fun p => fst p / snd p) (combine Ms gs)).
Proof.
  revert gs. induction Ms as [|m Ms IH]; intros [|x gs]; cbn; auto. rewrite IH. f_equal. unfold Rdiv. ring.
Qed.

Lemma timo_scale g ld EI GAv L : timo_theta0 (scale_load g ld) EI GAv L =
  do th <- timo_theta0 ld EI GAv L; Ok (g * fst th, g * snd th).
Proof.
  unfold timo_theta0.
  set (es := match _ with [] => [0; L] | _ => edges _ L end).
  generalize (pairs es) as ps. intros ps.
  match goal with |- foldM ?F1 ps _ = (do th <- foldM ?F2 ps _; _) =>
    assert (X : forall ps t, foldM F1 ps (g * fst t, g * snd t) = do th <- foldM F2 ps t; Ok (g * fst th, g * snd th)) end.
  { induction ps0 as [|ab ps0 IH]; intros t; cbn [foldM rbind]; [reflexivity|].
    destruct (Rleb (snd ab) (fst ab)); cbn [rbind]; [apply IH|].
    destruct (rigid_at EI _) as [eis|]; cbn [rbind]; [|reflexivity].
    destruct (rigid_at GAv _) as [gs|]; cbn [rbind]; [|reflexivity].
    rewrite <- IH. f_equal. cbn [fst snd].
    rewrite (proj2 (mbr_scale g ld _ L)), map_div_scale.
    rewrite !(map_map (Rmult g)).
    rewrite (map_ext (fun x => -1 / L * (g * x)) (fun x => g * (-1 / L * x))) by (intros; ring).
    rewrite <- (map_map (fun x => -1 / L * x) (Rmult g)).
    rewrite !curv_scale, !mulpt_scale, !simpson_list_scale. f_equal; ring. }
  assert (X0 := X ps (0, 0)). cbn [fst snd] in X0. replace (g * 0) with 0 in X0 by ring. exact X0.
Qed.

Lemma ref_one_scale g m ld : scalev g (ref_one gl m ld) (ref_one gl m (scale_load g ld)).
Proof.
  unfold ref_one. destruct (mb_GAv m) as [ga|].
  - unfold ref_timoshenko. rewrite get_cnl_scale. destruct (get_cnl gl ld (mb_L m)) as [c|]; cbn [rbind]; [|reflexivity].
    set (KT := k_timoshenko gl (mb_EI m) ga (mb_L m) 1). clearbody KT.
    assert (Gen : scalev g
       (do M <- (do th <- timo_theta0 ld (mb_EI m) ga (mb_L m); do F <- timo_flexibility gl (mb_EI m) ga (mb_L m);
          do K <- inv22 F; Ok (m00 K * fst th + m01 K * snd th, m10 K * fst th + m11 K * snd th));
        release_from c (fst M) (snd M) (mb_L m) KT (mb_type m))
       (do M <- (do th <- timo_theta0 (scale_load g ld) (mb_EI m) ga (mb_L m); do F <- timo_flexibility gl (mb_EI m) ga (mb_L m);
          do K <- inv22 F; Ok (m00 K * fst th + m01 K * snd th, m10 K * fst th + m11 K * snd th));
        release_from (cnl_scale g c) (fst M) (snd M) (mb_L m) KT (mb_type m))).
    { rewrite timo_scale. destruct (timo_theta0 ld _ _ _) as [th|]; cbn [rbind]; [|reflexivity].
      destruct (timo_flexibility gl _ _ _) as [F|]; cbn [rbind]; [|reflexivity].
      destruct (inv22 F) as [K|]; cbn [rbind]; [|reflexivity]. cbn [fst snd].
      replace (m00 K * (g * fst th) + m01 K * (g * snd th)) with (g * (m00 K * fst th + m01 K * snd th)) by ring.
      replace (m10 K * (g * fst th) + m11 K * (g * snd th)) with (g * (m10 K * fst th + m11 K * snd th)) by ring.
      apply release_from_scale. }
    destruct (mb_EI m) as [e|s]; [destruct ga as [ga|gs]|]; try exact Gen.
    cbn [rbind fst snd cnl_scale c_Ma c_Mb].
    set (phi := 12 * e / (ga * mb_L m ^ 2)).
    replace (((2 + phi) * (g * c_Ma c) - phi * (g * c_Mb c)) / (2 * (1 + phi)))
      with (g * (((2 + phi) * c_Ma c - phi * c_Mb c) / (2 * (1 + phi)))) by (unfold Rdiv; ring).
    replace ((- phi * (g * c_Ma c) + (2 + phi) * (g * c_Mb c)) / (2 * (1 + phi)))
      with (g * ((- phi * c_Ma c + (2 + phi) * c_Mb c) / (2 * (1 + phi)))) by (unfold Rdiv; ring).
    apply release_from_scale.
  - destruct (mb_EI m) as [e|s].
    + rewrite load_get_ref_scale. destruct (load_get_ref gl ld _ _) as [c|]; cbn [rbind scalev]; [|reflexivity].
      intros i. apply cnl_vec_scale.
    + unfold ref_nonprismatic. rewrite nonprism_scale.
      destruct (nonprism_theta0 ld s _) as [th|]; cbn [rbind]; [|reflexivity].
      destruct (k_theta gl s _) as [K|]; cbn [rbind]; [|reflexivity].
      rewrite get_cnl_scale. destruct (get_cnl gl ld _) as [c|]; cbn [rbind]; [|reflexivity]. cbn [fst snd].
      replace (m00 K * (g * fst th) + m01 K * (g * snd th)) with (g * (m00 K * fst th + m01 K * snd th)) by ring.
      replace (m10 K * (g * fst th) + m11 K * (g * snd th)) with (g * (m10 K * fst th + m11 K * snd th)) by ring.
      apply release_from_scale.
Qed.

Lemma sub_load_scale f g ld e : sub_load f (scale_load g ld) e = do l <- sub_load f ld e; Ok (map (scale_load g) l).
Proof.
  destruct ld; cbn [scale_load sub_load]; try reflexivity.
  - destruct (py_index _ _) as [i|]; cbn [rbind]; [|reflexivity]. destruct (Nat.eqb i e); reflexivity.
  - destruct (Rltb _ _); [|reflexivity]. destruct (_ && _); reflexivity.
Qed.

Lemma sub_loads_scale f g lds e : sub_loads f (map (scale_load g) lds) e =
  do l <- sub_loads f lds e; Ok (map (scale_load g) l).
Proof.
  unfold sub_loads. induction lds as [|ld lds IH]; cbn [map mapM rbind]; [reflexivity|].
  rewrite sub_load_scale. destruct (sub_load f ld e) as [a|]; cbn [rbind]; [|reflexivity].
  destruct (mapM (fun ld => sub_load f ld e) (map (scale_load g) lds)) as [x|];
  destruct (mapM (fun ld => sub_load f ld e) lds) as [y|]; cbn [rbind concat] in *; try discriminate; try congruence.
  injection IH as IH. rewrite IH, map_app. reflexivity.
Qed.

Lemma sum_refs_scale g l L et : sum_refs gl (map (scale_load g) l) L et = do c <- sum_refs gl l L et; Ok (cnl_scale g c).
Proof.
  unfold sum_refs. assert (Z : cnl_zero = cnl_scale g cnl_zero) by (apply cnl_eq; cbn; ring). rewrite Z at 1.
  generalize cnl_zero. induction l as [|ld l IH]; intros s; cbn [map foldM rbind]; [reflexivity|].
  rewrite load_get_ref_scale. destruct (load_get_ref gl ld L et) as [c|]; cbn [rbind]; [|reflexivity].
  rewrite <- IH. f_equal. apply cnl_eq; cbn; ring.
Qed.

Lemma span_ref_scale g m lds v : span_ref gl m lds = Ok v ->
  exists v', span_ref gl m (map (scale_load g) lds) = Ok v' /\ forall i, v' i = g * v i.
Proof.
  unfold span_ref. destruct (mb_kf m) as [kf|].
  - destruct (foundation_of m kf) as [f|]; cbn [rbind]; [|discriminate]. unfold fe_ref.
    intros H. apply rbind_ok in H as (r & R1 & H). apply rbind_ok in H as (B & HB & H). injection H as <-.
    unfold fe_rfull in *. apply rbind_ok in R1 as (rs & E & R1). injection R1 as <-.
    destruct (fe_refs_total f (map (scale_load g) lds) (fun e => cnl_scale g (nth e rs cnl_zero))) as (rs' & -> & N).
    { intros e He. assert (X := fe_refs_nth _ _ _ _ E He). unfold felt in *. rewrite sub_loads_scale.
      destruct (sub_loads f lds e) as [sl|]; cbn [rbind] in *; [|discriminate].
      rewrite sum_refs_scale, X. reflexivity. }
    cbn [rbind]. rewrite HB. cbn [rbind]. eexists. split; [reflexivity|]. intros i.
    apply (fe_cond_scal f B g (assemble_vec (fun e => cnl_vec (nth e rs cnl_zero)) (fe_n f))).
    intros j. rewrite <- assemble_vec_scal. apply assemble_vec_ext. intros e p He. rewrite N by exact He. apply cnl_vec_scale.
  - fold (addM m). assert (X : forall s s' v, (forall i, s' i = g * s i) -> foldM (addM m) lds s = Ok v ->
      exists v', foldM (addM m) (map (scale_load g) lds) s' = Ok v' /\ forall i, v' i = g * v i).
    { induction lds as [|ld lds IH]; intros s s' w Hs H; cbn [map foldM] in *.
      - injection H as <-. eauto.
      - apply rbind_ok in H as (s1 & H1 & H). unfold addM in H1 at 1.
        apply rbind_ok in H1 as (x & Hx & H1). injection H1 as <-.
        assert (S := ref_one_scale g m ld). rewrite Hx in S. unfold addM at 1.
        destruct (ref_one gl m (scale_load g ld)) as [x'|]; cbn [scalev] in S; [|contradiction]. cbn [rbind].
        eapply IH; [|exact H]. intros i. cbn. rewrite Hs, S. ring. }
    intros H. apply (X (fun _ => 0) (fun _ => 0) v); [intros; ring|exact H].
Qed.
End G.
