(** Facts for C88, part three: one load and the two loads that make it up, on a member. *)
From Coq Require Import Lia ZArith Permutation FunctionalExtensionality.
From Verif Require Import Base BaseFacts Linalg SectionModel FlexModel LoadModel LoadSpec FoundationModel ElementModel UtilsModel BeamModel AnalysisModel AnalysisFacts LinearFacts SuperFacts ResultsModel ResultsFacts CombFacts LoadEqSpec LoadEqFacts LoadEqFacts2.
Open Scope R_scope.

Definition within (L : R) (xs : list R) : Prop := Forall (fun x => 0 <= x <= L) xs.
Definition not_ic (ld : load) : Prop := match ld with LIC _ _ => False | _ => True end.

(** ** Points of evaluation *)
Lemma In_sort x l : In x (sort_R l) <-> In x l.
Proof. split; apply Permutation_in; [apply ResultsFacts.sort_perm|apply Permutation_sym, ResultsFacts.sort_perm]. Qed.
Lemma within_sort L l : within L l -> within L (sort_R l).
Proof. unfold within. rewrite !Forall_forall. intros H x Hx. apply H, In_sort, Hx. Qed.
Lemma within_dedup L l : within L l -> within L (dedup_sorted l).
Proof.
  unfold within. induction 1 as [|x l Hx H IH]; [constructor|]. cbn [dedup_sorted]. destruct l as [|y l]; [constructor; auto|].
  destruct (Req_EM_T x y); [exact IH|constructor; auto].
Qed.
Lemma within_removelast L l : within L l -> within L (removelast l).
Proof. unfold within. induction 1 as [|x l Hx H IH]; [constructor|]. cbn [removelast]. destruct l; [constructor|constructor; auto]. Qed.
Lemma within_set_first L v l : 0 <= v <= L -> within L l -> within L (set_first v l).
Proof. intros Hv H. destruct H; cbn [set_first]; constructor; auto. Qed.
Lemma within_set_last L v l : 0 <= v <= L -> within L l -> within L (set_last v l).
Proof. intros Hv H. unfold set_last. destruct l as [|x l]; [constructor|]. apply Forall_app. split; [apply within_removelast, H|constructor; auto]. Qed.
Lemma within_edges L bps : 0 < L -> within L bps -> within L (edges bps L).
Proof.
  intros HL H. unfold edges. apply within_set_last; [lra|]. apply within_set_first; [lra|]. unfold within. rewrite Forall_forall. intros x Hx. apply filter_In in Hx as [Hx _].
  assert (W : within L (dedup_sorted (sort_R (bps ++ [0; L])))).
  { apply within_dedup, within_sort, Forall_app. split; [exact H|]. constructor; [lra|constructor; [lra|constructor]]. }
  unfold within in W. rewrite Forall_forall in W. apply W, Hx.
Qed.
Lemma within_pairs L l ab : within L l -> In ab (pairs l) -> 0 <= fst ab /\ snd ab <= L.
Proof.
  unfold within. induction 1 as [|x l Hx H IH]; intros Hi; [destruct Hi|]. cbn [pairs] in Hi. destruct l as [|y l]; [destruct Hi|].
  destruct Hi as [<-|Hi]; [|exact (IH Hi)]. cbn [fst snd]. inversion H; subst. lra.
Qed.
Lemma within_fine L a b : 0 <= a -> a < b -> b <= L -> within L (fine_grid a b).
Proof.
  intros Ha Hab Hb. unfold fine_grid, within. apply Forall_forall. intros x Hx. apply in_map_iff in Hx as (i & <- & Hi). apply in_seq in Hi. unfold grid.
  assert (N : 0 < INR (2 * simpson_panels)). { apply lt_0_INR. unfold simpson_panels. lia. }
  assert (I : 0 <= INR i <= INR (2 * simpson_panels)). { split; [apply pos_INR|apply le_INR; lia]. }
  set (n := INR (2 * simpson_panels)) in *. assert (Q : 0 <= INR i * ((b - a) / n) <= b - a).
  { replace (INR i * ((b - a) / n)) with ((b - a) * (INR i / n)) by (field; lra). assert (0 <= INR i / n <= 1).
    { split; [apply Rmult_le_pos; [lra|]; left; apply Rinv_0_lt_compat; lra|]. apply Rmult_le_reg_r with n; [lra|]. unfold Rdiv. rewrite Rmult_assoc, Rinv_l by lra. lra. }
    split; nra. }
  lra.
Qed.
Lemma within_uniform L n : 0 < L -> within L (uniform L n).
Proof.
  intros HL. unfold uniform, within. apply Forall_forall. intros x Hx. apply in_map_iff in Hx as (k & <- & Hk). apply in_seq in Hk. destruct n as [|n].
  - assert (k = 0%nat) by lia. subst. cbn [INR]. lra.
  - assert (N : 0 < INR (S n)) by (apply lt_0_INR; lia). assert (I : 0 <= INR k <= INR (S n)) by (split; [apply pos_INR|apply le_INR; lia]).
    replace (L / INR (S n) * INR k) with (L * (INR k / INR (S n))) by (field; lra). assert (0 <= INR k / INR (S n) <= 1).
    { split; [apply Rmult_le_pos; [lra|]; left; apply Rinv_0_lt_compat; lra|]. apply Rmult_le_reg_r with (INR (S n)); [lra|]. unfold Rdiv. rewrite Rmult_assoc, Rinv_l by lra. lra. }
    split; nra.
Qed.
Lemma within_pairs_sp L sp : 0 < L -> within L (shear_pairs L sp).
Proof.
  intros HL. unfold shear_pairs, within. apply Forall_forall. intros x Hx. apply in_flat_map in Hx as (y & _ & Hx).
  unfold Rltb in Hx. assert (0 < shear_offset L) by (unfold shear_offset; lra).
  destruct (Rlt_dec (shear_offset L) y), (Rlt_dec y (L - shear_offset L)); cbn in Hx; try contradiction. destruct Hx as [<-|[<-|[]]]; lra.
Qed.
Lemma within_last L l : 0 < L -> within L l -> 0 <= last l 0 <= L.
Proof. intros HL H. induction H as [|x l Hx H IH]; [cbn; lra|]. destruct l; [exact Hx|exact IH]. Qed.
Lemma within_stations L n sp : 0 < L -> within L (stations L n sp).
Proof.
  intros HL. unfold stations. cbv zeta. assert (G : within L (grid_of L n sp)).
  { unfold grid_of. destruct (shear_pairs L sp) as [|p ps] eqn:E; [apply within_uniform, HL|]. apply within_sort, Forall_app. split; [apply within_uniform, HL|].
    rewrite <- E. apply within_pairs_sp, HL. }
  constructor; [destruct G; cbn; [lra|assumption]|]. apply Forall_app. split; [exact G|]. constructor; [apply within_last; assumption|constructor].
Qed.

(** ** Sums of sampled diagrams *)
Lemma removelast_map {A B} (f : A -> B) l : removelast (map f l) = map f (removelast l).
Proof. induction l as [|x l IH]; [reflexivity|]. cbn [map removelast]. destruct l; [reflexivity|]. cbn [map] in *. rewrite IH. reflexivity. Qed.
Lemma zero_ends_map (f : R -> R) xs : zero_ends (map f xs) = match xs with [] => [] | [_] => [0] | _ :: t => 0 :: map f (removelast t) ++ [0] end.
Proof.
  destruct xs as [|x [|y t]]; [reflexivity|reflexivity|]. unfold zero_ends. cbn [map set_first]. unfold set_last.
  change (removelast (0 :: f y :: map f t)) with (0 :: removelast (map f (y :: t))). rewrite removelast_map. reflexivity.
Qed.
Lemma map2_map {A} (f g : A -> R) l : map2 Rplus (map f l) (map g l) = map (fun x => f x + g x) l.
Proof. unfold map2. induction l as [|x l IH]; [reflexivity|]. cbn. rewrite IH. reflexivity. Qed.
Lemma map2_app a b c d : length a = length b -> map2 Rplus (a ++ c) (b ++ d) = map2 Rplus a b ++ map2 Rplus c d.
Proof. revert b. induction a as [|x a IH]; intros [|y b] H; try discriminate; [reflexivity|]. unfold map2 in *. cbn. rewrite IH by (cbn in H; lia). reflexivity. Qed.
Lemma zero_ends_add (f g h : R -> R) xs : (forall x, In x xs -> h x = f x + g x) -> zero_ends (map h xs) = map2 Rplus (zero_ends (map f xs)) (zero_ends (map g xs)).
Proof.
  intros H. rewrite !zero_ends_map. destruct xs as [|x [|y t]]; [reflexivity| |].
  - unfold map2. cbn. f_equal. ring.
  - change (map2 Rplus (0 :: map f (removelast (y :: t)) ++ [0]) (0 :: map g (removelast (y :: t)) ++ [0])) with (0 + 0 :: map2 Rplus (map f (removelast (y :: t)) ++ [0]) (map g (removelast (y :: t)) ++ [0])).
    rewrite map2_app by (rewrite !map_length; reflexivity). rewrite map2_map. apply f_equal2; [ring|]. apply f_equal2; [|unfold map2; cbn; f_equal; ring].
    apply map_ext_in. intros z Hz. apply H. right. clear -Hz. revert Hz. generalize (y :: t). intros l. induction l as [|u l IH]; [intros []|]. cbn [removelast]. destruct l; [intros []|].
    intros [->|Hz]; [left; reflexivity|right; exact (IH Hz)].
Qed.

(** [ld] is the sum of [l1] and [l2] on a member of length [L]. *)
Definition sums gl (L : R) (ld l1 l2 : load) : Prop := not_ic ld /\ not_ic l1 /\ not_ic l2 /\
  (exists c c1 c2, get_cnl gl ld L = Ok c /\ get_cnl gl l1 L = Ok c1 /\ get_cnl gl l2 L = Ok c2 /\ c = cnl_add c1 c2) /\
  forall xs, within L xs -> get_mbr_results ld xs L = mres_add (get_mbr_results l1 xs L) (get_mbr_results l2 xs L).
Definition equals gl (L : R) (ld l1 : load) : Prop := not_ic ld /\ not_ic l1 /\
  (exists c, get_cnl gl ld L = Ok c /\ get_cnl gl l1 L = Ok c) /\
  forall xs, within L xs -> get_mbr_results ld xs L = get_mbr_results l1 xs L.

Definition diag_sum (L : R) (d d1 d2 : diag) : Prop := forall x, 0 <= x <= L ->
  f_V d x = f_V d1 x + f_V d2 x /\ f_M d x = f_M d1 x + f_M d2 x /\ f_R d x = f_R d1 x + f_R d2 x /\ f_D d x = f_D d1 x + f_D d2 x.
Definition diag_same (L : R) (d d1 : diag) : Prop := forall x, 0 <= x <= L ->
  f_V d x = f_V d1 x /\ f_M d x = f_M d1 x /\ f_R d x = f_R d1 x /\ f_D d x = f_D d1 x.
Lemma sample_sum L d d1 d2 xs : diag_sum L d d1 d2 -> within L xs -> sample d xs = mres_add (sample d1 xs) (sample d2 xs).
Proof.
  intros H W. unfold within in W. rewrite Forall_forall in W. unfold sample, mres_add. cbn [r_x r_M r_V r_R r_D]. rewrite !map2_map.
  rewrite (zero_ends_add (f_V d1) (f_V d2) (f_V d)) by (intros x Hx; apply (H x (W x Hx))).
  rewrite (zero_ends_add (f_M d1) (f_M d2) (f_M d)) by (intros x Hx; apply (H x (W x Hx))).
  rewrite (map_ext_in (f_R d) (fun x => f_R d1 x + f_R d2 x)) by (intros x Hx; apply (H x (W x Hx))).
  rewrite (map_ext_in (f_D d) (fun x => f_D d1 x + f_D d2 x)) by (intros x Hx; apply (H x (W x Hx))). reflexivity.
Qed.
Lemma sample_same L d d1 xs : diag_same L d d1 -> within L xs -> sample d xs = sample d1 xs.
Proof.
  intros H W. unfold within in W. rewrite Forall_forall in W. unfold sample.
  rewrite (map_ext_in (f_V d) (f_V d1)) by (intros x Hx; apply (H x (W x Hx))). rewrite (map_ext_in (f_M d) (f_M d1)) by (intros x Hx; apply (H x (W x Hx))).
  rewrite (map_ext_in (f_R d) (f_R d1)) by (intros x Hx; apply (H x (W x Hx))). rewrite (map_ext_in (f_D d) (f_D d1)) by (intros x Hx; apply (H x (W x Hx))). reflexivity.
Qed.

(** ** End forces *)
Lemma map2_len {A B C} (f : A -> B -> C) l k : length (map2 f l k) = Nat.min (length l) (length k).
Proof. unfold map2. rewrite map_length, combine_length. reflexivity. Qed.
Lemma nth_map2 i a b : length a = length b -> nth i (map2 Rplus a b) 0 = nth i a 0 + nth i b 0.
Proof. revert i b. induction a as [|x a IH]; intros [|i] [|y b] H; try discriminate; cbn; try ring. apply IH. cbn in H. lia. Qed.
Lemma simpson_list_add a b u v : length u = length v -> simpson_list a b (map2 Rplus u v) = simpson_list a b u + simpson_list a b v.
Proof.
  intros H. unfold simpson_list, simpson. rewrite <- rsum_plus. apply rsum_ext. intros i _. rewrite !nth_map2 by exact H. ring.
Qed.
Lemma mulpt_add f xx u v : mulpt f xx (map2 Rplus u v) = map2 Rplus (mulpt f xx u) (mulpt f xx v).
Proof.
  unfold mulpt, map2. revert u v. induction xx as [|x xx IH]; intros [|y u] [|z v]; cbn; try reflexivity. rewrite IH. f_equal. ring.
Qed.
Lemma mulpt_len f xx u : length (mulpt f xx u) = Nat.min (length xx) (length u).
Proof. unfold mulpt. rewrite map_length, combine_length. reflexivity. Qed.

Section S.
Variables (gl : nat -> list (R * R)) (L : R).

Lemma curv_len ld es xx : length (curvatures ld es xx L) = Nat.min (length (r_M (get_mbr_results ld xx L))) (Nat.min (length es) (length xx)).
Proof. unfold curvatures. rewrite map_length, !combine_length. reflexivity. Qed.
Lemma mbr_len ld xx : not_ic ld -> length (r_M (get_mbr_results ld xx L)) = length xx /\ length (r_V (get_mbr_results ld xx L)) = length xx.
Proof.
  assert (Z : forall f, length (zero_ends (map f xx)) = length xx).
  { intros f. rewrite zero_ends_map. destruct xx as [|x [|y t]]; [reflexivity|reflexivity|]. cbn [length]. rewrite app_length, map_length. cbn [length].
    assert (RL : forall l : list R, l <> [] -> length l = S (length (removelast l))).
    { induction l as [|u l IH]; [congruence|]. intros _. destruct l; [reflexivity|]. cbn [removelast length] in *. rewrite <- IH by discriminate. reflexivity. }
    pose proof (RL (y :: t) ltac:(discriminate)) as E. cbn [length] in E. lia. }
  destruct ld; intros H; try contradiction; cbn [get_mbr_results diag_of sample r_M r_V]; auto.
Qed.
Lemma curv_sum ld l1 l2 es xx : sums gl L ld l1 l2 -> within L xx -> curvatures ld es xx L = map2 Rplus (curvatures l1 es xx L) (curvatures l2 es xx L).
Proof.
  intros (N & N1 & N2 & _ & H) W. unfold curvatures. rewrite (H xx W). cbn [mres_add r_M].
  assert (E : forall l : load, not_ic l -> (fun t : R * (R * R) => let (m, p) := t in let (e, x) := p in m / e + match l with LIC k _ => kappa_imp k x | _ => 0 end) = (fun t => fst t / fst (snd t) + 0)).
  { intros l Hl. apply functional_extensionality. intros (m & e & x). destruct l; try contradiction; reflexivity. }
  rewrite !E by assumption. generalize (r_M (get_mbr_results l1 xx L)) (r_M (get_mbr_results l2 xx L)) (combine es xx). clear.
  unfold map2. induction l as [|x l IH]; intros [|y k] [|z j]; cbn; try reflexivity. rewrite IH. f_equal. unfold Rdiv. ring.
Qed.
Lemma gamma_sum ld l1 l2 (gs : list R) xx : sums gl L ld l1 l2 -> within L xx ->
  map (fun p => fst p / snd p) (combine (r_V (get_mbr_results ld xx L)) gs) =
  map2 Rplus (map (fun p => fst p / snd p) (combine (r_V (get_mbr_results l1 xx L)) gs)) (map (fun p => fst p / snd p) (combine (r_V (get_mbr_results l2 xx L)) gs)).
Proof.
  intros (_ & _ & _ & _ & H) W. rewrite (H xx W). cbn [mres_add r_V]. generalize (r_V (get_mbr_results l1 xx L)) (r_V (get_mbr_results l2 xx L)) gs. clear.
  unfold map2. induction l as [|x l IH]; intros [|y k] [|z j]; cbn; try reflexivity. rewrite IH. f_equal. unfold Rdiv. ring.
Qed.

Definition padd (p q : R * R) : R * R := (fst p + fst q, snd p + snd q).
Definition radd (a b : result (R * R)) : result (R * R) := do x <- a; do y <- b; Ok (padd x y).

(** Folds whose steps add a pair that depends on the load. *)
Lemma fold_sum {A} (F F1 F2 : A -> result (R * R)) l :
  (forall a, In a l -> (exists e, F a = Err e /\ F1 a = Err e /\ F2 a = Err e) \/ exists x y, F a = Ok (padd x y) /\ F1 a = Ok x /\ F2 a = Ok y) ->
  forall s t, foldM (fun th a => do d <- F a; Ok (padd th d)) l (padd s t) =
    radd (foldM (fun th a => do d <- F1 a; Ok (padd th d)) l s) (foldM (fun th a => do d <- F2 a; Ok (padd th d)) l t) /\
    ((exists e, foldM (fun th a => do d <- F1 a; Ok (padd th d)) l s = Err e /\ foldM (fun th a => do d <- F2 a; Ok (padd th d)) l t = Err e) \/
     exists x y, foldM (fun th a => do d <- F1 a; Ok (padd th d)) l s = Ok x /\ foldM (fun th a => do d <- F2 a; Ok (padd th d)) l t = Ok y).
Proof.
  induction l as [|a l IH]; intros H s t; cbn [foldM].
  - split; [reflexivity|]. right. eauto.
  - destruct (H a (or_introl eq_refl)) as [(e & E & E1 & E2)|(x & y & E & E1 & E2)]; rewrite E, E1, E2; cbn [rbind].
    + split; [reflexivity|]. left. eauto.
    + specialize (IH (fun a Ha => H a (or_intror Ha)) (padd s x) (padd t y)).
      replace (padd (padd s t) (padd x y)) with (padd (padd s x) (padd t y)) by (unfold padd; cbn [fst snd]; f_equal; ring). exact IH.
Qed.
End S.
