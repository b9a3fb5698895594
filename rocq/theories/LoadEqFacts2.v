(** Facts for C88, part two: the order of the rows. *)
From Coq Require Import Lia ZArith Permutation FunctionalExtensionality.
From Verif Require Import Base BaseFacts Linalg SectionModel FlexModel LoadModel LoadSpec FoundationModel ElementModel UtilsModel BeamModel AnalysisModel AnalysisFacts LinearFacts SuperFacts ResultsModel ResultsFacts CombFacts LoadEqSpec LoadEqFacts.
Open Scope R_scope.

Lemma fold_left_perm {A S} (f : S -> A -> S) : (forall s x y, f (f s x) y = f (f s y) x) ->
  forall l k, Permutation l k -> forall s, fold_left f l s = fold_left f k s.
Proof.
  intros C. induction 1 as [|x l k P IH|x y l|l k j P1 IH1 P2 IH2]; intros s; cbn [fold_left].
  - reflexivity.
  - apply IH.
  - rewrite C. reflexivity.
  - rewrite IH1. apply IH2.
Qed.
Lemma mapM_perm {A B} (f : A -> result B) l k : Permutation l k -> forall p, mapM f l = Ok p -> exists q, mapM f k = Ok q /\ Permutation p q.
Proof.
  induction 1 as [|x l k P IH|x y l|l k j P1 IH1 P2 IH2]; intros p E.
  - exists []. cbn in *. injection E as <-. auto.
  - cbn [mapM] in *. apply rbind_ok in E as (y & Ey & E). apply rbind_ok in E as (t & Et & E). apply ok_inj in E. subst p.
    destruct (IH t Et) as (q & Eq & Q). exists (y :: q). rewrite Ey. cbn [rbind]. rewrite Eq. cbn [rbind]. auto.
  - cbn [mapM] in *. apply rbind_ok in E as (y' & Ey & E). apply rbind_ok in E as (t & Et & E). apply rbind_ok in Et as (x' & Ex & Et).
    apply rbind_ok in Et as (t' & Et' & Et). apply ok_inj in E, Et. subst p t. exists (x' :: y' :: t'). rewrite Ex. cbn [rbind]. rewrite Ey. cbn [rbind]. rewrite Et'. cbn [rbind].
    split; [reflexivity|constructor].
  - destruct (IH1 p E) as (q & Eq & Q). destruct (IH2 q Eq) as (r & Er & R). exists r. split; [exact Er|]. etransitivity; eassumption.
Qed.
Lemma concat_perm {A} (l k : list (list A)) : Permutation l k -> Permutation (concat l) (concat k).
Proof.
  induction 1 as [|x l k P IH|x y l|l k j P1 IH1 P2 IH2]; cbn [concat].
  - constructor.
  - apply Permutation_app_head. exact IH.
  - rewrite !app_assoc. apply Permutation_app_tail. apply Permutation_app_comm.
  - etransitivity; eassumption.
Qed.
Lemma filter_perm {A} (f : A -> bool) l k : Permutation l k -> Permutation (filter f l) (filter f k).
Proof.
  induction 1 as [|x l k P IH|x y l|l k j P1 IH1 P2 IH2]; cbn [filter].
  - constructor.
  - destruct (f x); [constructor|]; exact IH.
  - destruct (f x), (f y); auto using Permutation_refl, perm_swap.
  - etransitivity; eassumption.
Qed.
Lemma forallb_perm {A} (f : A -> bool) l k : Permutation l k -> forallb f l = forallb f k.
Proof.
  induction 1 as [|x l k P IH|x y l|l k j P1 IH1 P2 IH2]; cbn [forallb].
  - reflexivity.
  - rewrite IH. reflexivity.
  - destruct (f x), (f y); reflexivity.
  - congruence.
Qed.

Lemma map2_swap a b c : map2 Rplus (map2 Rplus a b) c = map2 Rplus (map2 Rplus a c) b.
Proof.
  revert b c. induction a as [|x a IH]; intros [|y b] [|z c]; try reflexivity. unfold map2 in *. cbn. rewrite IH. f_equal. ring.
Qed.
Lemma mres_add_swap r x y : mres_add (mres_add r x) y = mres_add (mres_add r y) x.
Proof. unfold mres_add. cbn [r_x r_M r_V r_R r_D]. rewrite (map2_swap (r_M r)), (map2_swap (r_V r)), (map2_swap (r_R r)), (map2_swap (r_D r)). reflexivity. Qed.

Section S.
Variables (gl : nat -> list (R * R)).

Lemma parsed_perm b A B p : Permutation A B -> parsed_loads (set_loads b A) = Ok p -> exists q, parsed_loads (set_loads b B) = Ok q /\ Permutation p q.
Proof.
  intros P. unfold parsed_loads, parse_LM. cbn [set_loads with_LM b_LM]. rewrite <- (forallb_perm _ _ _ P).
  destruct (negb _); [discriminate|]. intros E. apply rbind_ok in E as (u & Eu & E). apply rbind_ok in Eu as (ls & Els & Eu). apply ok_inj in Eu. subst u.
  destruct (mapM_perm _ _ _ P _ Els) as (ks & Eks & K). rewrite Eks. cbn [rbind].
  destruct (mapM_perm _ _ _ (concat_perm _ _ K) _ E) as (q & Eq & Q). exists q. split; [exact Eq|exact Q].
Qed.

Lemma span_ref_same m l k v : Permutation l k -> span_ref gl m l = Ok v -> span_ref gl m k = Ok v.
Proof. intros P E. destruct (span_ref_perm gl m l k P v E) as (v' & E' & H). rewrite E'. apply f_equal. apply functional_extensionality. exact H. Qed.

Lemma member_values_perm m l k f d npts sp r : Permutation l k -> member_values gl m l f d npts sp = Ok r -> member_values gl m k f d npts sp = Ok r.
Proof.
  intros P. unfold member_values. cbv zeta. intros E. apply rbind_ok in E as (cs & Ecs & E).
  destruct (mapM_perm _ _ _ P _ Ecs) as (ks & Eks & K). rewrite Eks. cbn [rbind].
  rewrite <- (fold_left_perm (fun (s : R) (c : cnl) => s + c_Ma c) ltac:(intros; cbv beta; ring) _ _ K), <- (fold_left_perm (fun (s : R) (c : cnl) => s + c_Mb c) ltac:(intros; cbv beta; ring) _ _ K).
  rewrite <- (fold_left_perm (fun r ld => mres_add r (get_mbr_results ld (stations (mb_L m) npts sp) (mb_L m))) ltac:(intros; cbv beta; apply mres_add_swap) _ _ P).
  assert (KP : map (fun x => fold_left (fun s ld => match ld with LIC k0 _ => s + kappa_imp k0 x | _ => s end) k 0) (stations (mb_L m) npts sp) =
    map (fun x => fold_left (fun s ld => match ld with LIC k0 _ => s + kappa_imp k0 x | _ => s end) l 0) (stations (mb_L m) npts sp)).
  { apply map_ext. intros x. symmetry. apply fold_left_perm; [|exact P]. intros s [] []; try reflexivity. ring. }
  rewrite KP. exact E.
Qed.

(** Foundation members. *)
Lemma sub_loads_perm f l k e s : Permutation l k -> sub_loads f l e = Ok s -> exists t, sub_loads f k e = Ok t /\ Permutation s t.
Proof.
  intros P. unfold sub_loads. intros E. apply rbind_ok in E as (u & Eu & E). apply ok_inj in E. subst s. destruct (mapM_perm _ _ _ P _ Eu) as (w & Ew & W). rewrite Ew. cbn [rbind].
  eexists. split; [reflexivity|]. apply concat_perm. exact W.
Qed.
Lemma cnl_add_swap r x y : cnl_add (cnl_add r x) y = cnl_add (cnl_add r y) x.
Proof. unfold cnl_add. cbn. f_equal; ring. Qed.
Lemma sum_refs_perm L et l k : Permutation l k -> forall c, sum_refs gl l L et = Ok c -> sum_refs gl k L et = Ok c.
Proof.
  unfold sum_refs. generalize cnl_zero. intros s P. revert s. induction P as [|x l k P IH|x y l|l k j P1 IH1 P2 IH2]; intros s c E.
  - exact E.
  - cbn [foldM] in *. apply rbind_ok in E as (s' & Es & E). rewrite Es. cbn [rbind]. exact (IH _ _ E).
  - cbn [foldM] in *. apply rbind_ok in E as (s1 & E1 & E). apply rbind_ok in E as (s2 & E2 & E). apply rbind_ok in E1 as (cy & Ey & E1). apply rbind_ok in E2 as (cx & Ex & E2).
    apply ok_inj in E1, E2. subst s1 s2. rewrite Ex. cbn [rbind]. rewrite Ey. cbn [rbind]. rewrite cnl_add_swap. exact E.
  - exact (IH2 _ _ (IH1 _ _ E)).
Qed.
Lemma mapM_mono {A B} (f g : A -> result B) l : (forall a b, In a l -> f a = Ok b -> g a = Ok b) -> forall p, mapM f l = Ok p -> mapM g l = Ok p.
Proof.
  induction l as [|a l IH]; intros H p E; [exact E|]. cbn [mapM] in *. apply rbind_ok in E as (y & Ey & E). apply rbind_ok in E as (t & Et & E).
  rewrite (H a y (or_introl eq_refl) Ey). cbn [rbind]. rewrite (IH (fun x b Hx => H x b (or_intror Hx)) t Et). exact E.
Qed.
Lemma fe_refs_perm f l k rs : Permutation l k -> fe_refs gl f l = Ok rs -> fe_refs gl f k = Ok rs.
Proof.
  intros P. unfold fe_refs. apply mapM_mono. intros e c _ E. apply rbind_ok in E as (s & Es & E). destruct (sub_loads_perm f l k e s P Es) as (t & Et & T). rewrite Et. cbn [rbind].
  exact (sum_refs_perm _ _ _ _ T _ E).
Qed.
Lemma fe_rfull_perm f l k rs : Permutation l k -> fe_rfull gl f l = Ok rs -> fe_rfull gl f k = Ok rs.
Proof. intros P. unfold fe_rfull. intros E. apply rbind_ok in E as (u & Eu & E). rewrite (fe_refs_perm f l k u P Eu). exact E. Qed.
Lemma fe_dmesh_perm f dr l k v : Permutation l k -> fe_dmesh gl f dr l = Ok v -> fe_dmesh gl f dr k = Ok v.
Proof. intros P. unfold fe_dmesh. intros E. apply rbind_ok in E as (u & Eu & E). rewrite (fe_rfull_perm f l k u P Eu). exact E. Qed.
Lemma eb_values_perm L EI f d l k n : Permutation l k -> eb_values L EI f d l n = eb_values L EI f d k n.
Proof.
  intros P. unfold eb_values. cbv zeta.
  rewrite (fold_left_perm (fun r ld => mres_add r (get_mbr_results ld (0 :: uniform L n ++ [L]) L)) ltac:(intros; cbv beta; apply mres_add_swap) _ _ P). reflexivity.
Qed.
Lemma mapM_pointwise {A B} (P : B -> B -> Prop) (f g : A -> result B) l : (forall a b, In a l -> f a = Ok b -> exists c, g a = Ok c /\ P b c) ->
  forall p, mapM f l = Ok p -> exists q, mapM g l = Ok q /\ Forall2 P p q.
Proof.
  induction l as [|a l IH]; intros H p E.
  - injection E as <-. exists []. split; [reflexivity|constructor].
  - cbn [mapM] in *. apply rbind_ok in E as (y & Ey & E). apply rbind_ok in E as (t & Et & E). apply ok_inj in E. subst p.
    destruct (H a y (or_introl eq_refl) Ey) as (c & Ec & HP). destruct (IH (fun x b Hx => H x b (or_intror Hx)) t Et) as (q & Eq & HQ).
    exists (c :: q). rewrite Ec. cbn [rbind]. rewrite Eq. cbn [rbind]. split; [reflexivity|constructor; assumption].
Qed.
Lemma fe_recover_perm f dr l k n r : Permutation l k -> fe_recover gl f dr l n = Ok r -> fe_recover gl f dr k n = Ok r.
Proof.
  intros P. unfold fe_recover. cbv zeta. intros E. apply rbind_ok in E as (rs & Ers & E). rewrite (fe_refs_perm f l k rs P Ers). cbn [rbind].
  apply rbind_ok in E as (dm & Edm & E). rewrite (fe_dmesh_perm f dr l k dm P Edm). cbn [rbind]. apply rbind_ok in E as (per & Eper & E). apply ok_inj in E. subst r.
  destruct (mapM_pointwise (@Permutation load) _ (fun e => sub_loads f k e) _ (fun e s _ => sub_loads_perm f l k e s P) _ Eper) as (per' & Eper' & HP). rewrite Eper'. cbn [rbind].
  apply f_equal, f_equal, map_ext_in. intros e He. apply f_equal. apply eb_values_perm.
  clear - HP. revert e. induction HP as [|x y p q H HP IH]; intros e; destruct e; cbn; auto using Permutation_refl, Permutation_sym.
Qed.

Lemma same_on_perm m l k : Permutation l k -> same_on gl m l k.
Proof.
  intros P. split; [intros v; apply span_ref_same; exact P|]. intros f d npts sp r. unfold member_results. destruct (mb_kf m) as [kf|].
  - destruct (foundation_of m kf) as [fe|]; cbn [rbind]; [|discriminate]. apply fe_recover_perm. exact P.
  - apply member_values_perm. exact P.
Qed.

Lemma order_swaps b A B : Permutation A B -> swaps gl b A B.
Proof.
  intros P p E. destruct (parsed_perm b A B p P E) as (q & Eq & Q). exists q. split; [exact Eq|]. intros i m _ _. apply same_on_perm.
  unfold loads_of. apply Permutation_map, filter_perm, Q.
Qed.
End S.
