(** Facts about the recovered diagrams. *)
From Coquelicot Require Import Coquelicot.
From Coq Require Import Lia Sorting Permutation.
From Verif Require Import Base BaseFacts Linalg SectionModel FlexModel LoadModel LoadSpec LoadFacts DiagFacts ClampFacts FoundationModel
  ElementModel ElementSpec UtilsModel BeamModel AnalysisModel AnalysisSpec BalanceFacts AnalysisFacts AnalysisFacts2 MechFacts AnalysisFacts3 ReleaseFacts ResultsModel ResultsSpec.
Open Scope R_scope.

(** ** Equilibrium of superposed diagrams *)
Lemma left_of_app x g l k : left_of x g (l ++ k) = left_of x g l + left_of x g k.
Proof. unfold left_of. rewrite map_app, lsum_app. reflexivity. Qed.
Lemma away_app x l k : away_from x (l ++ k) -> away_from x l /\ away_from x k.
Proof. intros H. split; intros p Hp; apply H, in_or_app; auto. Qed.

Lemma cut_plus L A B va ma mb V M va' ma' mb' V' M' :
  cut_equilibrium L A va ma mb V M -> cut_equilibrium L B va' ma' mb' V' M' ->
  cut_equilibrium L (action_plus A B) (va + va') (ma + ma') (mb + mb') (fun x => V x + V' x) (fun x => M x + M' x).
Proof.
  intros [a1 a2 a3] [b1 b2 b3]. constructor; cbn [action_plus intensity forces moments].
  - intros x Hx Hw. apply away_app in Hw. destruct Hw as [w1 w2].
    destruct (a1 x Hx w1) as (I & i1 & e1), (b1 x Hx w2) as (J & j1 & e2). exists (I + J). split.
    + exact (is_RInt_plus _ _ _ _ _ _ i1 j1).
    + rewrite e1, e2, left_of_app. ring.
  - intros x Hx Hw. apply away_app in Hw. destruct Hw as [w1 w2].
    destruct (a2 x Hx w1) as (I & i1 & e1), (b2 x Hx w2) as (J & j1 & e2). exists (I + J). split.
    + eapply is_RInt_ext; [|exact (is_RInt_plus _ _ _ _ _ _ i1 j1)]. intros t _. cbn. unfold plus. cbn. ring.
    + rewrite e1, e2, !left_of_app. ring.
  - destruct a3 as (I & i1 & e1), b3 as (J & j1 & e2). exists (I + J). split.
    + eapply is_RInt_ext; [|exact (is_RInt_plus _ _ _ _ _ _ i1 j1)]. intros t _. cbn. unfold plus. cbn. ring.
    + rewrite e1, e2, !map_app, !lsum_app. ring.
Qed.
Lemma cut_none L : cut_equilibrium L no_action 0 0 0 (fun _ => 0) (fun _ => 0).
Proof.
  constructor; cbn.
  - intros x _ _. exists 0. split; [apply is_RInt_zero|unfold left_of; cbn; ring].
  - intros x _ _. exists 0. split; [apply is_RInt_mult_zero|unfold left_of; cbn; ring].
  - exists 0. split; [apply is_RInt_mult_zero|ring].
Qed.
Lemma span_cut L A ma mb d : simple_span L A ma mb d -> cut_equilibrium L A (f_V d 0) ma mb (f_V d) (f_M d).
Proof. intros []. constructor; assumption. Qed.

(** Diagrams of one load ([LIC] has none). *)
Definition V_of (L : R) (ld : load) : R -> R := match diag_of ld L with Some d => f_V d | None => fun _ => 0 end.
Definition M_of (L : R) (ld : load) : R -> R := match diag_of ld L with Some d => f_M d | None => fun _ => 0 end.
Definition V_all L lds (x : R) : R := lsum (map (fun ld => V_of L ld x) lds).
Definition M_all L lds (x : R) : R := lsum (map (fun ld => M_of L ld x) lds).

Lemma load_cut L ld : 0 < L -> within_member L ld ->
  cut_equilibrium L (action_of L ld) (V_of L ld 0) (fst (end_moments ld)) (snd (end_moments ld)) (V_of L ld) (M_of L ld).
Proof.
  intros HL Hw. unfold V_of, M_of. destruct (diag_of ld L) as [d|] eqn:E.
  - apply span_cut. apply diag_span; assumption.
  - destruct ld; try discriminate. cbn. apply cut_none.
Qed.
Lemma cut_ext L A va ma mb V M va' ma' mb' V' M' : cut_equilibrium L A va ma mb V M -> va = va' -> ma = ma' -> mb = mb' ->
  (forall x, V x = V' x) -> (forall x, M x = M' x) -> cut_equilibrium L A va' ma' mb' V' M'.
Proof.
  intros [a1 a2 a3] <- <- <- EV EM. constructor.
  - intros x Hx Hw. rewrite <- EV. exact (a1 x Hx Hw).
  - intros x Hx Hw. rewrite <- EM. exact (a2 x Hx Hw).
  - exact a3.
Qed.

Definition no_end_moments (ld : load) : Prop := end_moments ld = (0, 0).
Lemma loads_cut L lds : 0 < L -> Forall (within_member L) lds -> Forall no_end_moments lds ->
  cut_equilibrium L (actions L lds) (V_all L lds 0) 0 0 (V_all L lds) (M_all L lds).
Proof.
  intros HL Hw Hn. induction lds as [|ld lds IH]; [exact (cut_none L)|].
  inversion_clear Hw as [|? ? W1 W2]. inversion_clear Hn as [|? ? N1 N2].
  cbn [actions fold_right]. eapply cut_ext; [apply (cut_plus _ _ _ _ _ _ _ _ _ _ _ _ _ (load_cut L ld HL W1) (IH W2 N2))|..].
  - reflexivity.
  - rewrite N1. cbn. ring.
  - rewrite N1. cbn. ring.
  - reflexivity.
  - reflexivity.
Qed.

Lemma mapM_In {A B} (f : A -> result B) l bs : mapM f l = Ok bs -> forall b, In b bs -> exists a, In a l /\ f a = Ok b.
Proof.
  revert bs. induction l as [|a l IH]; intros bs E b Hb; cbn in E; [injection E as <-; destruct Hb|].
  destruct (f a) as [c|] eqn:Ef; [|discriminate]. cbn in E. destruct (mapM f l) as [cs|]; [|discriminate]. cbn in E. injection E as <-.
  destruct Hb as [<-|Hb]; [exists a; cbn; auto|]. destruct (IH cs eq_refl b Hb) as (x & Hx & Ex). exists x. cbn. auto.
Qed.

Lemma parsed_no_ends b ls i : parsed_loads b = Ok ls -> Forall no_end_moments (loads_of ls i).
Proof.
  unfold parsed_loads, parse_LM. destruct (negb _); [discriminate|].
  destruct (mapM parse_row (b_LM b)) as [rs|] eqn:E; [|discriminate]. cbn [rbind]. intros E2.
  assert (P : Forall (fun p : Z * load => no_end_moments (snd p)) (concat rs)).
  { apply Forall_forall. intros p Hp. apply in_concat in Hp. destruct Hp as (l & Hl & Hp).
    destruct (mapM_In _ _ _ E l Hl) as (r & _ & Er). unfold parse_row in Er.
    destruct r as [s t args| |]; try discriminate.
    repeat match type of Er with
      | (if ?c then _ else _) = _ => destruct c
      | (do _ <- ?c; _) = _ => let F := fresh in destruct c eqn:F; cbn [rbind] in Er; [|discriminate]
      end; injection Er as <-; try (destruct Hp as [<-|[]]; reflexivity); destruct Hp. }
  assert (Q : Forall (fun p : Z * load => no_end_moments (snd p)) ls).
  { apply Forall_forall. intros p Hp. destruct (mapM_In _ _ _ E2 p Hp) as (q & Hq & Eq).
    rewrite Forall_forall in P. specialize (P q Hq). destruct q as [s ld]. cbn in P. unfold attach_EI in Eq.
    destruct ld; try (injection Eq as <-; exact P).
    destruct (py_index _ s); [|discriminate]. cbn [rbind] in Eq. destruct (get _ _); [|discriminate]. injection Eq as <-. reflexivity. }
  unfold loads_of. apply Forall_forall. intros ld Hld. apply in_map_iff in Hld. destruct Hld as (p & <- & Hp).
  apply filter_In in Hp. rewrite Forall_forall in Q. apply Q, Hp.
Qed.

(** ** Sampling *)
Lemma map2_len {A B C} (f : A -> B -> C) l k n : length l = n -> length k = n -> length (map2 f l k) = n.
Proof. intros H1 H2. unfold map2. rewrite map_length, combine_length. lia. Qed.
Lemma map2_nth (f : R -> R -> R) l k n i : length l = n -> length k = n -> (i < n)%nat -> nth i (map2 f l k) 0 = f (nth i l 0) (nth i k 0).
Proof.
  intros H1 H2 Hi. unfold map2.
  rewrite (nth_indep _ 0 (f (fst (0, 0)) (snd (0, 0)))) by (rewrite map_length, combine_length; lia).
  rewrite (map_nth (fun p => f (fst p) (snd p)) (combine l k) (0, 0)). rewrite combine_nth by lia. reflexivity.
Qed.
Lemma nth_zero_list n i (xs : list R) : nth i (map (fun _ => 0) xs) n = if Nat.ltb i (length xs) then 0 else n.
Proof. revert i. induction xs as [|x xs IH]; intros [|i]; cbn; try reflexivity. apply IH. Qed.

(** What one load contributes. *)
Record table (L : R) (xs : list R) (V M : R -> R) (r : mres) : Prop := {
  ta_x : r_x r = xs;
  ta_len : length (r_V r) = length xs /\ length (r_M r) = length xs /\ length (r_R r) = length xs /\ length (r_D r) = length xs;
  ta_at : forall i, (0 < i < length xs - 1)%nat -> nth i (r_V r) 0 = V (nth i xs 0) /\ nth i (r_M r) 0 = M (nth i xs 0);
  ta_ends : nth 0 (r_V r) 0 = 0 /\ nth 0 (r_M r) 0 = 0 /\ nth (length xs - 1) (r_V r) 0 = 0 /\ nth (length xs - 1) (r_M r) 0 = 0 }.

Lemma cumtrapz_from_len acc xp yp xs ys : length ys = length xs -> length (cumtrapz_from acc xp yp xs ys) = length xs.
Proof.
  revert acc xp yp ys. induction xs as [|x xs IH]; intros acc xp yp [|y ys] H; cbn in *; try discriminate; try reflexivity.
  f_equal. apply IH. lia.
Qed.
Lemma cumtrapz_len ys xs : length ys = length xs -> length (cumtrapz ys xs) = length xs.
Proof.
  destruct xs as [|x xs], ys as [|y ys]; intros H; cbn in *; try discriminate; try reflexivity. f_equal. apply cumtrapz_from_len. lia.
Qed.
Lemma zero_ends_zeros (xs : list R) i : nth i (zero_ends (map (fun _ => 0) xs)) 0 = 0.
Proof.
  destruct (Nat.lt_ge_cases i (length xs)) as [H|H].
  - rewrite nth_zero_ends by (rewrite map_length; exact H). destruct (Nat.eqb _ _); [reflexivity|].
    destruct (Nat.eqb _ _); [reflexivity|]. rewrite nth_zero_list. destruct (Nat.ltb _ _); reflexivity.
  - apply nth_overflow. rewrite zero_ends_length, map_length. exact H.
Qed.

Lemma load_table L xs ld : table L xs (V_of L ld) (M_of L ld) (get_mbr_results ld xs L).
Proof.
  unfold V_of, M_of. destruct (diag_of ld L) as [d|] eqn:E.
  - destruct (mbr_results_tabulates ld L d xs E) as (a1 & a2 & a3 & a4 & a5 & a6 & a7 & a8 & a9 & a10 & a11).
    constructor; auto.
  - destruct ld as [| | | | | |k EI]; try discriminate. cbn. unfold ic_mres. constructor; cbn [r_x r_V r_M r_R r_D].
    + reflexivity.
    + rewrite !zero_ends_length, !map_length. repeat split.
      * apply cumtrapz_len. rewrite map_length. reflexivity.
      * rewrite combine_length, !cumtrapz_len; try rewrite cumtrapz_len; rewrite ?map_length; lia.
    + intros i Hi. rewrite zero_ends_zeros. auto.
    + rewrite !zero_ends_zeros. auto.
Qed.

Lemma table_add L xs V M V' M' a b : table L xs V M a -> table L xs V' M' b ->
  table L xs (fun x => V x + V' x) (fun x => M x + M' x) (mres_add a b).
Proof.
  intros [x1 (l1 & l2 & l3 & l4) p1 (e1 & e2 & e3 & e4)] [x2 (k1 & k2 & k3 & k4) p2 (f1 & f2 & f3 & f4)].
  assert (Z : forall l k i, length l = length xs -> length k = length xs -> nth i l 0 = 0 -> nth i k 0 = 0 -> nth i (map2 Rplus l k) 0 = 0).
  { intros l k i Hl Hk E1 E2. destruct (Nat.lt_ge_cases i (length xs)) as [H|H].
    - rewrite (map2_nth _ _ _ (length xs)) by assumption. rewrite E1, E2. ring.
    - apply nth_overflow. rewrite (map2_len Rplus _ _ (length xs)); assumption. }
  constructor; cbn [mres_add r_x r_V r_M r_R r_D].
  - exact x1.
  - repeat split; apply map2_len; assumption.
  - intros i Hi. destruct (p1 i Hi) as [v1 m1], (p2 i Hi) as [v2 m2].
    rewrite !(map2_nth _ _ _ (length xs)) by (assumption || lia). rewrite v1, m1, v2, m2. auto.
  - repeat split; apply Z; assumption.
Qed.
Lemma table_ext L xs V M V' M' r : table L xs V M r -> (forall x, V x = V' x) -> (forall x, M x = M' x) -> table L xs V' M' r.
Proof. intros [a b c d] EV EM. constructor; auto. intros i Hi. rewrite <- EV, <- EM. auto. Qed.

Lemma loads_table L xs lds : forall V M r, table L xs V M r ->
  table L xs (fun x => V x + V_all L lds x) (fun x => M x + M_all L lds x)
    (fold_left (fun r ld => mres_add r (get_mbr_results ld xs L)) lds r).
Proof.
  induction lds as [|ld lds IH]; intros V M r H; cbn [fold_left].
  - eapply table_ext; [exact H| |]; intros x; unfold V_all, M_all; cbn; ring.
  - eapply table_ext; [apply IH, (table_add _ _ _ _ _ _ _ _ H (load_table L xs ld))| |]; intros x; cbv beta.
    + change (V_all L (ld :: lds) x) with (V_of L ld x + V_all L lds x). ring.
    + change (M_all L (ld :: lds) x) with (M_of L ld x + M_all L lds x). ring.
Qed.

Lemma inner_len {A} (l : list A) : length (inner l) = (length l - 2)%nat.
Proof.
  unfold inner. destruct l as [|a l]; [reflexivity|]. cbn [tl length]. destruct l as [|b l]; [reflexivity|].
  rewrite removelast_length. cbn. lia.
Qed.

(** ** Station grid *)
Lemma insert_perm x l : Permutation (insert_R x l) (x :: l).
Proof.
  induction l as [|y l IH]; cbn; [reflexivity|]. destruct (Rle_dec x y); [reflexivity|].
  rewrite IH. apply perm_swap.
Qed.
Lemma sort_perm l : Permutation (sort_R l) l.
Proof. induction l as [|x l IH]; cbn; [reflexivity|]. rewrite insert_perm. constructor. exact IH. Qed.
Lemma insert_sorted x l : increasing l -> increasing (insert_R x l).
Proof.
  unfold increasing. induction 1 as [|y l S IH F]; cbn; [repeat constructor|].
  destruct (Rle_dec x y) as [H|H].
  - constructor; [constructor; assumption|]. constructor; [exact H|]. eapply Forall_impl; [|exact F]. cbn. intros; lra.
  - constructor; [exact IH|]. apply (Permutation_Forall (Permutation_sym (insert_perm x l))). constructor; [lra|exact F].
Qed.
Lemma sort_sorted l : increasing (sort_R l).
Proof. induction l as [|x l IH]; cbn; [constructor|]. apply insert_sorted, IH. Qed.

Lemma uniform_len L n : length (uniform L n) = (n + 1)%nat.
Proof. unfold uniform. rewrite map_length, seq_length. reflexivity. Qed.
Lemma map_seq_sorted (f : nat -> R) : (forall i j, (i <= j)%nat -> f i <= f j) -> forall n s, increasing (map f (seq s n)).
Proof.
  intros H. induction n as [|n IH]; intros s; cbn; [constructor|]. constructor; [apply IH|].
  apply Forall_forall. intros y Hy. apply in_map_iff in Hy. destruct Hy as (j & <- & Hj). apply in_seq in Hj. apply H. lia.
Qed.
Lemma uniform_sorted L n : 0 <= L -> increasing (uniform L n).
Proof.
  intros HL. apply map_seq_sorted. intros i j Hij. apply Rmult_le_compat_l.
  - destruct n as [|n]; [cbn [INR]; unfold Rdiv; rewrite Rinv_0; lra|]. apply Rdiv_le_0_compat; [exact HL|apply lt_0_INR; lia].
  - apply le_INR. exact Hij.
Qed.
Lemma uniform_in L n x : 0 <= L -> (0 < n)%nat -> In x (uniform L n) -> 0 <= x <= L.
Proof.
  intros HL Hn Hx. apply in_map_iff in Hx. destruct Hx as (k & <- & Hk). apply in_seq in Hk.
  assert (0 < INR n) by (apply lt_0_INR; exact Hn).
  assert (0 <= INR k <= INR n) by (split; [apply pos_INR|apply le_INR; lia]).
  unfold Rdiv. assert (0 < / INR n) by (apply Rinv_0_lt_compat; assumption).
  split; [apply Rmult_le_pos; [apply Rmult_le_pos; lra|lra]|].
  replace L with (L * / INR n * INR n) at 2 by (field; lra). apply Rmult_le_compat_l; [apply Rmult_le_pos; lra|lra].
Qed.
Lemma uniform_0 L n : In 0 (uniform L n).
Proof. apply in_map_iff. exists 0%nat. split; [cbn; ring|apply in_seq; lia]. Qed.
Lemma uniform_L L n : (0 < n)%nat -> In L (uniform L n).
Proof. intros Hn. apply in_map_iff. exists n. split; [field; apply not_0_INR; lia|apply in_seq; lia]. Qed.

(** Shear points inside the member. *)
Lemma inside_eq L x : Rltb (shear_offset L) x && Rltb x (L - shear_offset L) = inside L x.
Proof. unfold inside, shear_offset, Rltb. destruct (Rlt_dec _ x), (Rlt_dec x _); reflexivity. Qed.
Lemma shear_pairs_len L sp : length (shear_pairs L sp) = (2 * inside_points L sp)%nat.
Proof.
  unfold shear_pairs, inside_points. induction sp as [|x sp IH]; [reflexivity|]. cbn [flat_map filter]. rewrite app_length, IH.
  rewrite inside_eq. destruct (inside L x); cbn [length]; lia.
Qed.
Lemma shear_pairs_in L sp y : 0 <= L -> In y (shear_pairs L sp) -> 0 <= y <= L.
Proof.
  intros HL Hy. apply in_flat_map in Hy. destruct Hy as (x & _ & Hy). rewrite inside_eq in Hy.
  unfold inside, shear_offset in Hy. destruct (Rlt_dec _ x); [|destruct Hy]. destruct (Rlt_dec x _); [|destruct Hy].
  destruct Hy as [<-|[<-|[]]]; lra.
Qed.
Lemma grid_perm L n sp : Permutation (grid_of L n sp) (uniform L n ++ shear_pairs L sp).
Proof.
  unfold grid_of. destruct (shear_pairs L sp) as [|p ps]; [rewrite app_nil_r; reflexivity|]. apply sort_perm.
Qed.
Lemma grid_sorted L n sp : 0 <= L -> increasing (grid_of L n sp).
Proof. intros HL. unfold grid_of. destruct (shear_pairs L sp); [apply uniform_sorted, HL|apply sort_sorted]. Qed.
Lemma grid_in L n sp x : 0 <= L -> (0 < n)%nat -> In x (grid_of L n sp) -> 0 <= x <= L.
Proof.
  intros HL Hn Hx. apply (Permutation_in _ (grid_perm L n sp)) in Hx. apply in_app_or in Hx.
  destruct Hx as [Hx|Hx]; [apply (uniform_in L n x HL Hn Hx)|apply (shear_pairs_in L sp x HL Hx)].
Qed.
Lemma grid_len L n sp : length (grid_of L n sp) = (n + 1 + 2 * inside_points L sp)%nat.
Proof. rewrite (Permutation_length (grid_perm L n sp)), app_length, uniform_len, shear_pairs_len. reflexivity. Qed.
Lemma sorted_hd l x d : increasing l -> In x l -> (forall y, In y l -> x <= y) -> hd d l = x.
Proof.
  intros S Hx Hm. destruct S as [|y l S F]; [destruct Hx|]. cbn. destruct Hx as [E|Hx]; [exact E|].
  rewrite Forall_forall in F. pose proof (F x Hx). pose proof (Hm y (or_introl eq_refl)). lra.
Qed.
Lemma sorted_last l x d : increasing l -> In x l -> (forall y, In y l -> y <= x) -> last l d = x.
Proof.
  intros S Hx Hm. destruct (exists_last (l := l)) as (t & z & ->); [intros ->; destruct Hx|]. rewrite last_last.
  apply in_app_or in Hx. destruct Hx as [Hx|[E|[]]]; [|exact E].
  assert (P : x <= z).
  { clear - S Hx. induction t as [|a t IH]; [destruct Hx|]. inversion_clear S as [|? ? S' F]. destruct Hx as [<-|Hx]; [|apply IH; assumption].
    rewrite Forall_forall in F. apply F, in_or_app. right. left. reflexivity. }
  assert (Q : In z (t ++ [z])) by (apply in_or_app; right; left; reflexivity). pose proof (Hm z Q). lra.
Qed.
Lemma grid_hd L n sp d : 0 <= L -> (0 < n)%nat -> hd d (grid_of L n sp) = 0.
Proof.
  intros HL Hn. apply sorted_hd; [apply grid_sorted, HL| |intros y Hy; apply (grid_in L n sp y HL Hn Hy)].
  apply (Permutation_in _ (Permutation_sym (grid_perm L n sp))), in_or_app. left. apply uniform_0.
Qed.
Lemma grid_last L n sp d : 0 <= L -> (0 < n)%nat -> last (grid_of L n sp) d = L.
Proof.
  intros HL Hn. apply sorted_last; [apply grid_sorted, HL| |intros y Hy; apply (grid_in L n sp y HL Hn Hy)].
  apply (Permutation_in _ (Permutation_sym (grid_perm L n sp))), in_or_app. left. apply uniform_L, Hn.
Qed.

Lemma stations_len L n sp : length (stations L n sp) = (n + 3 + 2 * inside_points L sp)%nat.
Proof. unfold stations. cbn [length]. rewrite app_length, grid_len. cbn. lia. Qed.
Lemma stations_eq L n sp : 0 <= L -> (0 < n)%nat -> stations L n sp = 0 :: grid_of L n sp ++ [L].
Proof. intros HL Hn. unfold stations. rewrite grid_hd, grid_last by assumption. reflexivity. Qed.
Lemma sorted_app l x : increasing l -> (forall y, In y l -> y <= x) -> increasing (l ++ [x]).
Proof.
  induction 1 as [|y l S IH F]; intros H; cbn; [repeat constructor|]. constructor; [apply IH; intros z Hz; apply H; right; exact Hz|].
  apply Forall_app. split; [exact F|]. constructor; [apply H; left; reflexivity|constructor].
Qed.
Lemma stations_sorted L n sp : 0 <= L -> (0 < n)%nat -> increasing (stations L n sp).
Proof.
  intros HL Hn. rewrite stations_eq by assumption. constructor.
  - apply sorted_app; [apply grid_sorted, HL|]. intros y Hy. apply (grid_in L n sp y HL Hn Hy).
  - apply Forall_app. split; [|constructor; [exact HL|constructor]]. apply Forall_forall. intros y Hy. apply (grid_in L n sp y HL Hn Hy).
Qed.

(** ** The tabulated member *)
Lemma mapM_len {A B} (f : A -> result B) l bs : mapM f l = Ok bs -> length bs = length l.
Proof.
  revert bs. induction l as [|a l IH]; intros bs E; cbn in E; [injection E as <-; reflexivity|].
  apply rbind_ok in E as (c & _ & E). apply rbind_ok in E as (cs & E2 & E). injection E as <-. cbn. f_equal. apply IH, E2.
Qed.
Lemma rigid_at_len e xs l : rigid_at e xs = Ok l -> length l = length xs.
Proof.
  destruct e; cbn; intros H; [injection H as <-; apply map_length|apply (mapM_len _ _ _ H)].
Qed.
Lemma set_inner_len l v : (2 <= length l)%nat -> length v = (length l - 2)%nat -> length (set_inner l v) = length l.
Proof. intros H E. destruct l as [|a l]; cbn [length] in *; [lia|]. cbn. rewrite app_length, E. cbn. lia. Qed.

Section Member.
Variable gl : nat -> list (R * R).
Lemma member_values_table m lds f d npts sp r : member_values gl m lds f d npts sp = Ok r ->
  table (mb_L m) (stations (mb_L m) npts sp)
    (fun x => (f 1%nat + f 3%nat) / mb_L m + V_all (mb_L m) lds x)
    (fun x => ((f 1%nat + f 3%nat) / mb_L m * x - f 1%nat) + M_all (mb_L m) lds x) r.
Proof.
  unfold member_values. set (xs := stations (mb_L m) npts sp). intros H.
  set (res := fold_left _ lds _) in H.
  assert (T : table (mb_L m) xs (fun x => (f 1%nat + f 3%nat) / mb_L m + V_all (mb_L m) lds x)
    (fun x => ((f 1%nat + f 3%nat) / mb_L m * x - f 1%nat) + M_all (mb_L m) lds x) res).
  { apply loads_table. exact (load_table (mb_L m) xs (LMaMb (f 1%nat) (f 3%nat))). }
  clearbody res. assert (N : (3 <= length xs)%nat) by (unfold xs; rewrite stations_len; lia).
  apply rbind_ok in H as (cs & _ & H). apply rbind_ok in H as (ei & Hei & H). apply rbind_ok in H as (g & Hg & H).
  apply rigid_at_len in Hei. destruct T as [t1 (t2 & t3 & t4 & t5) t6 t7].
  set (kap := map _ xs) in H. assert (Hk : length kap = length xs) by apply map_length. clearbody kap.
  assert (Gl : length g = (length xs - 2)%nat).
  { destruct (mb_GAv m) as [ga|].
    - apply rbind_ok in Hg as (gs & Hgs & Hg). injection Hg as <-. apply rigid_at_len in Hgs. rewrite inner_len in Hgs.
      apply map2_len; [|exact Hgs]. rewrite inner_len, t2. reflexivity.
    - injection Hg as <-. rewrite map_length, inner_len. reflexivity. }
  clear Hg. injection H as <-.
  set (prov := cumtrapz (inner (map2 Rplus _ kap)) _). assert (Pl : length prov = (length xs - 2)%nat).
  { unfold prov. rewrite cumtrapz_len; rewrite !inner_len; [reflexivity|].
    f_equal. apply map2_len; [apply map2_len; [exact t3|exact Hei]|exact Hk]. }
  clearbody prov. set (psi := if Nat.ltb 1 (mb_type m) then _ else _).
  assert (Ps : length psi = (length xs - 2)%nat).
  { unfold psi. destruct (Nat.ltb 1 (mb_type m)); [destruct (_ || _ || _)|]; rewrite map_length; exact Pl. }
  clearbody psi. constructor; cbn [r_x r_V r_M r_R r_D].
  - exact t1.
  - split; [exact t2|]. split; [exact t3|]. split.
    + rewrite set_inner_len; [exact t4|lia|]. rewrite t4. exact Ps.
    + rewrite set_inner_len; [exact t5|lia|]. rewrite t5, map_length, cumtrapz_len; rewrite inner_len; [reflexivity|].
      apply map2_len; assumption.
  - exact t6.
  - exact t7.
Qed.

(** [V 0] of the loads is the left reaction of the simply supported member. *)
Lemma load_left_reaction L ld W W1 : 0 < L -> within_member L ld -> no_end_moments ld ->
  total_load L (action_of L ld) W -> first_moment L (action_of L ld) W1 -> V_of L ld 0 * L = L * W - W1.
Proof.
  intros HL Hw Hn (I & HI & ->) (J & HJ & ->). destruct (ce_far_end _ _ _ _ _ _ _ (load_cut L ld HL Hw)) as (K & HK & E).
  rewrite Hn in E. cbn [fst snd] in E.
  assert (EK : K = L * I - J).
  { rewrite <- (is_RInt_unique _ _ _ _ HK). apply is_RInt_unique.
    eapply is_RInt_ext; [|exact (is_RInt_minus _ _ _ _ _ _ (is_RInt_scal _ _ _ L _ HI) HJ)].
    intros t _. cbv [minus plus opp scal mult]. cbn. ring. }
  subst K.
  assert (S1 : forall l : list (R * R), lsum (map (fun pa => fst pa * (L - snd pa)) l) =
     L * lsum (map (fun pa => fst pa * 1) l) - lsum (map (fun pa => fst pa * snd pa) l)).
  { unfold lsum. induction l as [|p l IH]; cbn in *; [ring|]. rewrite IH. ring. }
  assert (S2 : forall l : list (R * R), lsum (map (fun pa => fst pa * 1) l) = lsum (map fst l)).
  { unfold lsum. induction l as [|p l IH]; cbn in *; [reflexivity|]. rewrite IH. ring. }
  assert (S3 : forall l : list (R * R), lsum (map (fun pa => fst pa * 0) l) = 0).
  { unfold lsum. induction l as [|p l IH]; cbn in *; [reflexivity|]. rewrite IH. ring. }
  rewrite S1 in E. rewrite S3. rewrite (S2 (moments _)). lra.
Qed.
Lemma loads_left_reaction L lds cs : 0 < L -> Forall (within_member L) lds -> Forall no_end_moments lds ->
  mapM (fun ld => get_cnl gl ld L) lds = Ok cs ->
  exists W W1, span_resultant L lds (fun _ => 1) (fun _ => 0) W /\ span_resultant L lds (fun x => x) (fun _ => 1) W1 /\
    V_all L lds 0 * L = L * W - W1.
Proof.
  intros HL Hw Hn. revert cs. induction lds as [|ld lds IH]; intros cs Hc.
  - exists 0, 0. split; [exists []; split; [constructor|reflexivity]|]. split; [exists []; split; [constructor|reflexivity]|].
    unfold V_all. cbn. ring.
  - inversion_clear Hw as [|? ? W1 W2]. inversion_clear Hn as [|? ? N1 N2]. cbn [mapM] in Hc.
    apply rbind_ok in Hc as (c & Hc & Hc'). apply rbind_ok in Hc' as (cs' & Hcs & _).
    destruct (IH W2 N2 cs' Hcs) as (A & B & (was & FA & ->) & (wbs & FB & ->) & E).
    destruct (get_cnl_balances gl ld L c HL (proj1 W1) Hc) as [b1 b2].
    exists (c_Va c + c_Vb c + lsum was), (c_Ma c + c_Mb c + L * c_Vb c + lsum wbs).
    split; [exists ((c_Va c + c_Vb c) :: was); split; [constructor; assumption|reflexivity]|].
    split; [exists ((c_Ma c + c_Mb c + L * c_Vb c) :: wbs); split; [constructor; assumption|reflexivity]|].
    change (V_all L (ld :: lds) 0) with (V_of L ld 0 + V_all L lds 0).
    rewrite Rmult_plus_distr_r, E, (load_left_reaction L ld _ _ HL W1 N1 b1 b2). ring.
Qed.
End Member.

(** ** The members of the results object *)
Section Analysis.
Variable gl : nat -> list (R * R).
Definition span_res (b : beam) (d : vec) (ndof npts : nat) (sps : nat -> list R) (ls : list (Z * load)) (i : nat) (m : member) (f : vec) (r : mres) : Prop :=
  member_at b i = Ok m /\ (2 * i + 4 <= ndof)%nat /\ member_forces gl b d i = Ok f /\
  member_results gl m (loads_of ls i) f (fun q => d (2 * i + q)%nat) npts (sps i) = Ok r.

Lemma member_analysis_spec b d ndof npts sps v : member_analysis gl b d ndof npts sps = Ok v ->
  exists ls, parsed_loads b = Ok ls /\ length v = b_nspans b /\
    forall i, (i < b_nspans b)%nat -> exists m f r, span_res b d ndof npts sps ls i m f r /\
      nth_error v i = Some (shift_x (node_x b i) r).
Proof.
  unfold member_analysis. intros H. apply rbind_ok in H as (ls & Hls & H). exists ls. split; [exact Hls|].
  apply rbind_ok in H as (st & Hst & H). injection H as <-.
  revert st Hst. set (stp := fun (acc : list mres * R) i => _).
  assert (P : forall n st, foldM stp (seq 0 n) ([], 0) = Ok st -> length (fst st) = n /\ snd st = node_x b n /\
    forall i, (i < n)%nat -> exists m f r, span_res b d ndof npts sps ls i m f r /\ nth_error (fst st) i = Some (shift_x (node_x b i) r)).
  { induction n as [|n IH]; intros st Hst.
    - cbn in Hst. injection Hst as <-. cbn. split; [reflexivity|]. split; [reflexivity|]. intros i Hi. lia.
    - rewrite seq_S, foldM_app in Hst. apply rbind_ok in Hst as (s0 & H0 & Hst). destruct (IH s0 H0) as (L0 & X0 & P0). clear IH.
      cbn [foldM] in Hst. apply rbind_ok in Hst as (s1 & H1 & Hst). injection Hst as <-. unfold stp in H1.
      apply rbind_ok in H1 as (m & Hm & H1). destruct (Nat.ltb ndof (2 * (0 + n) + 4)) eqn:En; [discriminate|].
      apply Nat.ltb_ge in En. apply rbind_ok in H1 as (f & Hf & H1). apply rbind_ok in H1 as (r & Hr & H1). injection H1 as <-.
      cbn [fst snd]. cbn [Nat.add] in *. split; [rewrite app_length, L0; cbn; lia|]. split.
      + rewrite X0. unfold node_x. cbn [rsum]. rewrite (member_length _ _ _ Hm). reflexivity.
      + intros i Hi. destruct (Nat.eq_dec i n) as [->|Ne].
        * exists m, f, r. split; [unfold span_res; auto|]. rewrite nth_error_app2 by lia. rewrite L0, Nat.sub_diag. cbn. rewrite X0. reflexivity.
        * destruct (P0 i ltac:(lia)) as (m' & f' & r' & Hs & Hn). exists m', f', r'. split; [exact Hs|].
          rewrite nth_error_app1 by lia. exact Hn. }
  intros st Hst. destruct (P _ _ Hst) as (A & _ & B). split; assumption.
Qed.

Lemma analyze_split ill a sps npts check a' br : analyze gl ill a sps npts check = (a', Ok br) ->
  exists o, analyze_core gl ill a npts check = (a', Ok o) /\
    member_analysis gl (an_beam a') (o_d o) (an_ndof a') (an_npts a') sps = Ok (br_mem br) /\
    br_all br = mres_concat (br_mem br) /\ br_D br = o_d o /\ br_R br = o_R o /\ br_Rs br = o_Rs o.
Proof.
  unfold analyze. destruct (analyze_core gl ill a npts check) as [a1 [o|e]]; intros H; [|discriminate].
  injection H as <- H. exists o. split; [reflexivity|]. unfold beam_results in H. apply rbind_ok in H as (v & Hv & H).
  injection H as <-. cbn. auto.
Qed.
Lemma analyze_core_state ill a npts check a' r : analyze_core gl ill a npts check = (a', r) ->
  an_beam a' = an_beam a /\ an_n a' = an_n a /\ an_ndof a' = an_ndof a /\
  an_npts a' = match npts with Some p => if Nat.ltb 3 p then p else an_npts a | None => an_npts a end.
Proof.
  unfold analyze_core. set (a1 := match npts with Some p => _ | None => _ end).
  assert (E : an_beam a1 = an_beam a /\ an_n a1 = an_n a /\ an_ndof a1 = an_ndof a /\
    an_npts a1 = match npts with Some p => if Nat.ltb 3 p then p else an_npts a | None => an_npts a end).
  { unfold a1. destruct npts as [p|]; [destruct (Nat.ltb 3 p)|]; repeat apply conj; reflexivity. }
  clearbody a1. destruct (rbind _ _) as [[f k]|]; [|intros H; injection H as <- _; exact E].
  set (sk := _ || _). clearbody sk. destruct (if sk then _ else _); [|intros H; injection H as <- _; exact E].
  intros H. injection H as <- _. destruct sk; [exact E|exact E].
Qed.
End Analysis.

Lemma shift_nth c xs i : (i < length xs)%nat -> nth i (map (fun x => x + c) xs) 0 - c = nth i xs 0.
Proof.
  intros Hi. rewrite (nth_indep _ 0 (0 + c)) by (rewrite map_length; exact Hi).
  rewrite (map_nth (fun x => x + c)). ring.
Qed.
Lemma table_shift L xs V M r c : table L xs V M r -> member_curves c (shift_x c r) V M.
Proof.
  intros [t1 t2 t3 t4]. constructor; cbn [shift_x r_x r_V r_M r_R r_D]; rewrite map_length, t1.
  - exact t2.
  - intros i Hi. rewrite shift_nth by lia. exact (t3 i Hi).
  - exact t4.
Qed.

Lemma cut_drop_none L A va ma mb V M : cut_equilibrium L (action_plus no_action A) va ma mb V M -> cut_equilibrium L A va ma mb V M.
Proof.
  intros [a1 a2 a3]. constructor.
  - intros x Hx Hw. destruct (a1 x Hx Hw) as (J & HJ & E). exists J. split; [|exact E].
    eapply is_RInt_ext; [|exact HJ]. intros t _. cbn. ring.
  - intros x Hx Hw. destruct (a2 x Hx Hw) as (J & HJ & E). exists J. split; [|exact E].
    eapply is_RInt_ext; [|exact HJ]. intros t _. cbn. ring.
  - destruct a3 as (J & HJ & E). exists J. split; [|exact E].
    eapply is_RInt_ext; [|exact HJ]. intros t _. cbn. ring.
Qed.

Lemma analyze_diagrams gl ill a sps npts check a' br i r mb ls e : gauss_rule gl ->
  analyze gl ill a sps npts check = (a', Ok br) ->
  member_at (an_beam a) i = Ok mb -> sound_member mb -> parsed_loads (an_beam a) = Ok ls ->
  Forall (within_member (mb_L mb)) (loads_of ls i) ->
  nth_error (br_mem br) i = Some r -> member_forces gl (an_beam a) (br_D br) i = Ok e ->
  exists V M, member_curves (node_x (an_beam a) i) r V M /\
    cut_equilibrium (mb_L mb) (actions (mb_L mb) (loads_of ls i)) (V 0) (e 1%nat) (e 3%nat) V M /\
    (mb_type mb <> 4%nat -> V 0 = e 0%nat).
Proof.
  intros G H Em Sm Els Hw Hr He. destruct (analyze_split _ _ _ _ _ _ _ _ H) as (o & Ho & Hv & _ & ED & _).
  destruct (analyze_core_state _ _ _ _ _ _ _ Ho) as (EB & EN & EF & EP). rewrite EB in Hv. rewrite ED in He.
  destruct (member_analysis_spec _ _ _ _ _ _ _ Hv) as (ls' & Hls & Hlen & Hs). rewrite Els in Hls. injection Hls as <-.
  assert (Hi : (i < b_nspans (an_beam a))%nat) by (rewrite <- Hlen; apply nth_error_Some; rewrite Hr; discriminate).
  destruct (Hs i Hi) as (m & f & r' & (Hm & Hn & Hf & Hres) & Hr'). rewrite Hr in Hr'. injection Hr' as ->.
  rewrite Em in Hm. injection Hm as <-. rewrite He in Hf. injection Hf as <-.
  unfold member_results in Hres. rewrite (sm_kf _ Sm) in Hres. assert (HL := sm_L _ Sm).
  pose proof (member_values_table _ _ _ _ _ _ _ _ Hres) as T. unfold member_values in Hres. apply rbind_ok in Hres as (cs & Hcs & _).
  pose proof (parsed_no_ends _ _ i Els) as Hne.
  exists (fun x => (e 1%nat + e 3%nat) / mb_L mb + V_all (mb_L mb) (loads_of ls i) x),
         (fun x => ((e 1%nat + e 3%nat) / mb_L mb * x - e 1%nat) + M_all (mb_L mb) (loads_of ls i) x).
  split; [exact (table_shift _ _ _ _ _ _ T)|]. split.
  - eapply cut_ext; [apply cut_drop_none, (cut_plus _ _ _ _ _ _ _ _ _ _ _ _ _ (load_cut (mb_L mb) (LMaMb (e 1%nat) (e 3%nat)) HL (conj I I)) (loads_cut _ _ HL Hw Hne))|..].
    + reflexivity.
    + cbn. ring.
    + cbn. ring.
    + reflexivity.
    + reflexivity.
  - intros Ht. destruct (loads_left_reaction gl _ _ cs HL Hw Hne Hcs) as (W & W1 & HW & HW1 & EV).
    assert (EL := member_length _ _ _ Em). rewrite EL in *.
    destruct (state_balance gl (an_beam a) (o_d o) i e mb G Em Sm EL) as (A & B & _).
    + intros ls0 E0. rewrite Els in E0. injection E0 as <-. eapply Forall_impl; [|exact Hw]. intros ld X. exact (proj1 X).
    + apply forces_state, He.
    + specialize (A ls W Els HW).
      assert (HW' : span_resultant (span_length (an_beam a) i) (loads_of ls i) (fun x => 0 + x) (fun _ => 1) W1).
      { destruct HW1 as (ws & F & E). exists ws. split; [|exact E]. clear -F. induction F as [|ld w lds ws R _ IH]; constructor; [|exact IH].
        revert R. apply resultant_ext; intros; ring. }
      specialize (B Ht ls 0 W1 Els HW'). apply (Rmult_eq_reg_r (span_length (an_beam a) i)); [|lra].
      rewrite Rmult_plus_distr_r, EV. replace (_ / _ * _) with (e 1%nat + e 3%nat) by (field; lra).
      replace W with (e 0%nat + e 2%nat) by lra. rewrite <- B. ring.
Qed.

(** ** Grid of an analysis *)
Lemma nth_cons_app_last (x y : R) l d : nth (length l + 1) (x :: l ++ [y]) d = y.
Proof. rewrite Nat.add_1_r. cbn [nth]. rewrite app_nth2 by lia. rewrite Nat.sub_diag. reflexivity. Qed.
Lemma last_nth (l : list R) d : l <> [] -> nth (length l - 1) l d = last l d.
Proof.
  intros H. destruct (exists_last H) as (t & z & ->). rewrite last_last, app_length. cbn [length].
  replace (length t + 1 - 1)%nat with (length t) by lia. rewrite app_nth2 by lia. rewrite Nat.sub_diag. reflexivity.
Qed.
Lemma stations_grid L n sp c : 0 <= L -> (0 < n)%nat ->
  station_grid c (c + L) (n + 3 + 2 * inside_points L sp) (map (fun x => x + c) (stations L n sp)).
Proof.
  intros HL Hn. set (N := (n + 3 + 2 * inside_points L sp)%nat). assert (EL := stations_len L n sp).
  assert (GL := grid_len L n sp). assert (NE : grid_of L n sp <> []) by (intros E; rewrite E in GL; cbn in GL; lia).
  assert (NTH : forall i v, (i < N)%nat -> nth i (stations L n sp) 0 = v -> nth i (map (fun x => x + c) (stations L n sp)) 0 = v + c).
  { intros i v Hi E. rewrite (nth_indep _ 0 (0 + c)) by (rewrite map_length, EL; exact Hi). rewrite (map_nth (fun x => x + c)), E. reflexivity. }
  assert (SE := stations_eq L n sp HL Hn).
  constructor.
  - rewrite map_length. exact EL.
  - pose proof (stations_sorted L n sp HL Hn) as S. unfold increasing in *. clear - S. induction S as [|x l S IH F]; cbn; constructor; [exact IH|].
    apply Forall_map. eapply Forall_impl; [|exact F]. cbn. intros; lra.
  - rewrite (NTH _ 0); [ring|unfold N; lia|]. rewrite SE. reflexivity.
  - rewrite (NTH _ 0); [ring|unfold N; lia|]. rewrite SE. cbn [nth]. rewrite <- (grid_hd L n sp 0 HL Hn).
    destruct (grid_of L n sp); [congruence|reflexivity].
  - rewrite (NTH _ L); [ring|unfold N; lia|]. rewrite SE. replace (N - 2)%nat with (Datatypes.S (length (grid_of L n sp) - 1)) by (unfold N; lia).
    cbn [nth]. rewrite app_nth1 by lia. rewrite last_nth by exact NE. apply grid_last; assumption.
  - rewrite (NTH _ L); [ring|unfold N; lia|]. rewrite SE. replace (N - 1)%nat with (length (grid_of L n sp) + 1)%nat by (unfold N; lia).
    apply nth_cons_app_last.
Qed.

Lemma member_values_x gl m lds f d npts sp r : member_values gl m lds f d npts sp = Ok r -> r_x r = stations (mb_L m) npts sp.
Proof. intros H. exact (ta_x _ _ _ _ _ (member_values_table _ _ _ _ _ _ _ _ H)). Qed.

Lemma analyze_grid gl ill a sps npts check a' br i r mb :
  analyze gl ill a sps npts check = (a', Ok br) -> (0 < an_npts a')%nat ->
  member_at (an_beam a) i = Ok mb -> 0 <= mb_L mb -> mb_kf mb = None -> nth_error (br_mem br) i = Some r ->
  station_grid (node_x (an_beam a) i) (node_x (an_beam a) (i + 1)) (an_npts a' + 3 + 2 * inside_points (mb_L mb) (sps i)) (r_x r).
Proof.
  intros H Hp Em HL Hk Hr. destruct (analyze_split _ _ _ _ _ _ _ _ H) as (o & Ho & Hv & _).
  destruct (analyze_core_state _ _ _ _ _ _ _ Ho) as (EB & _ & _ & EP). rewrite EB in Hv.
  destruct (member_analysis_spec _ _ _ _ _ _ _ Hv) as (ls & Hls & Hlen & Hs).
  assert (Hi : (i < b_nspans (an_beam a))%nat) by (rewrite <- Hlen; apply nth_error_Some; rewrite Hr; discriminate).
  destruct (Hs i Hi) as (m & f & r' & (Hm & Hn & Hf & Hres) & Hr'). rewrite Hr in Hr'. injection Hr' as ->.
  rewrite Em in Hm. injection Hm as <-. unfold member_results in Hres. rewrite Hk in Hres.
  cbn [shift_x r_x]. rewrite (member_values_x _ _ _ _ _ _ _ _ Hres).
  replace (node_x (an_beam a) (i + 1)) with (node_x (an_beam a) i + mb_L mb).
  - apply stations_grid; assumption.
  - rewrite (member_length _ _ _ Em). unfold node_x. rewrite Nat.add_1_r. reflexivity.
Qed.

Lemma or_iff2 (A B C D : Prop) : (A <-> C) -> (B <-> D) -> (A \/ B <-> C \/ D).
Proof. tauto. Qed.
Lemma stations_places L n sp t : 0 <= L -> (0 < n)%nat -> In t (stations L n sp) <-> station_at L n sp t.
Proof.
  intros HL Hn. assert (Nz : INR n <> 0) by (apply not_0_INR; lia). rewrite stations_eq by assumption.
  assert (G : In t (grid_of L n sp) <-> station_at L n sp t).
  { assert (P := grid_perm L n sp). transitivity (In t (uniform L n ++ shear_pairs L sp)); [split; apply Permutation_in; [exact P|apply Permutation_sym; exact P]|]. rewrite in_app_iff. unfold station_at. apply or_iff2.
    - unfold uniform. rewrite in_map_iff. split; intros (k & A & B).
      + apply in_seq in B. exists k. split; [lia|]. rewrite <- A. field. exact Nz.
      + exists k. rewrite in_seq. split; [rewrite B; field; exact Nz|lia].
    - unfold shear_pairs. rewrite in_flat_map. unfold shear_offset. split.
      + intros (x & A & B). exists x. split; [exact A|]. destruct (Rltb_spec (1e-9 * L) x); [|destruct B]. destruct (Rltb_spec x (L - 1e-9 * L)); [|destruct B]. split; [lra|]. destruct B as [B|[B|[]]]; [left|right]; symmetry; exact B.
      + intros (x & A & B & C). exists x. split; [exact A|]. destruct (Rltb_spec (1e-9 * L) x); [|lra]. destruct (Rltb_spec x (L - 1e-9 * L)); [|lra]. cbn [andb In]. destruct C as [C|C]; rewrite C; auto. }
  cbn [In]. rewrite in_app_iff. cbn [In]. rewrite G. split.
  - intros [E|[H|[E|[]]]]; [|exact H|]; rewrite <- E.
    + left. exists 0%nat. split; [lia|]. cbn [INR]. field. exact Nz.
    + left. exists n. split; [lia|]. field. exact Nz.
  - tauto.
Qed.
Lemma station_places gl ill a sps npts check a' br i r mb :
  analyze gl ill a sps npts check = (a', Ok br) -> (0 < an_npts a')%nat ->
  member_at (an_beam a) i = Ok mb -> 0 <= mb_L mb -> mb_kf mb = None -> nth_error (br_mem br) i = Some r ->
  forall t, In t (r_x r) <-> exists t', t = node_x (an_beam a) i + t' /\ station_at (mb_L mb) (an_npts a') (sps i) t'.
Proof.
  intros H Hp Em HL Hk Hr t. destruct (analyze_split _ _ _ _ _ _ _ _ H) as (o & Ho & Hv & _).
  destruct (analyze_core_state _ _ _ _ _ _ _ Ho) as (EB & _ & _ & EP). rewrite EB in Hv.
  destruct (member_analysis_spec _ _ _ _ _ _ _ Hv) as (ls & Hls & Hlen & Hs).
  assert (Hi : (i < b_nspans (an_beam a))%nat) by (rewrite <- Hlen; apply nth_error_Some; rewrite Hr; discriminate).
  destruct (Hs i Hi) as (m & f & r' & (Hm & Hn & Hf & Hres) & Hr'). rewrite Hr in Hr'. injection Hr' as ->.
  rewrite Em in Hm. injection Hm as <-. unfold member_results in Hres. rewrite Hk in Hres.
  cbn [shift_x r_x]. rewrite (member_values_x _ _ _ _ _ _ _ _ Hres). rewrite in_map_iff. split.
  - intros (t' & A & B). exists t'. split; [rewrite <- A; ring|]. apply stations_places; assumption.
  - intros (t' & A & B). exists t'. split; [rewrite A; ring|]. apply stations_places; assumption.
Qed.

(** Stations do not depend on the loads. *)
Lemma results_x gl gl' m lds lds' f f' d d' npts sp r r' :
  member_results gl m lds f d npts sp = Ok r -> member_results gl' m lds' f' d' npts sp = Ok r' -> r_x r = r_x r'.
Proof.
  unfold member_results. destruct (mb_kf m) as [kf|].
  - destruct (foundation_of m kf) as [fe|]; [cbn [rbind]|discriminate]. unfold fe_recover. intros H H'.
    apply rbind_ok in H as (? & _ & H). apply rbind_ok in H as (? & _ & H). apply rbind_ok in H as (? & _ & H). injection H as <-.
    apply rbind_ok in H' as (? & _ & H'). apply rbind_ok in H' as (? & _ & H'). apply rbind_ok in H' as (? & _ & H'). injection H' as <-.
    cbn [mres_concat r_x]. rewrite !flat_map_concat_map, !map_map. reflexivity.
  - intros H H'. rewrite (member_values_x _ _ _ _ _ _ _ _ H), (member_values_x _ _ _ _ _ _ _ _ H'). reflexivity.
Qed.
Lemma concat_x v v' : map r_x v = map r_x v' -> r_x (mres_concat v) = r_x (mres_concat v').
Proof. intros E. cbn. rewrite !flat_map_concat_map, E. reflexivity. Qed.
Lemma list_ext_err {A} (l k : list A) : (forall i, nth_error l i = nth_error k i) -> l = k.
Proof.
  revert k. induction l as [|a l IH]; intros [|b k] H; try reflexivity.
  - discriminate (H 0%nat).
  - discriminate (H 0%nat).
  - pose proof (H 0%nat) as E. cbn in E. injection E as ->. f_equal. apply IH. intros i. exact (H (Datatypes.S i)).
Qed.
Lemma node_x_ext b b' n : b_lengths b = b_lengths b' -> node_x b n = node_x b' n.
Proof. intros E. unfold node_x, span_length. rewrite E. reflexivity. Qed.

Lemma shared_stations gl gl' ill ill' a1 a2 sps p1 p2 c1 c2 a1' a2' r1 r2 :
  analyze gl ill a1 sps p1 c1 = (a1', Ok r1) -> analyze gl' ill' a2 sps p2 c2 = (a2', Ok r2) ->
  an_npts a1' = an_npts a2' -> b_lengths (an_beam a1) = b_lengths (an_beam a2) -> b_nspans (an_beam a1) = b_nspans (an_beam a2) ->
  (forall i, (i < b_nspans (an_beam a1))%nat -> member_at (an_beam a1) i = member_at (an_beam a2) i) ->
  map r_x (br_mem r1) = map r_x (br_mem r2) /\ r_x (br_all r1) = r_x (br_all r2).
Proof.
  intros H1 H2 EP EL EN EM.
  destruct (analyze_split _ _ _ _ _ _ _ _ H1) as (o1 & Ho1 & Hv1 & A1 & _), (analyze_split _ _ _ _ _ _ _ _ H2) as (o2 & Ho2 & Hv2 & A2 & _).
  destruct (analyze_core_state _ _ _ _ _ _ _ Ho1) as (EB1 & _), (analyze_core_state _ _ _ _ _ _ _ Ho2) as (EB2 & _).
  rewrite EB1 in Hv1. rewrite EB2 in Hv2.
  destruct (member_analysis_spec _ _ _ _ _ _ _ Hv1) as (ls1 & _ & Hlen1 & Hs1), (member_analysis_spec _ _ _ _ _ _ _ Hv2) as (ls2 & _ & Hlen2 & Hs2).
  assert (E : map r_x (br_mem r1) = map r_x (br_mem r2)).
  { apply list_ext_err. intros i. rewrite !nth_error_map. destruct (Nat.lt_ge_cases i (b_nspans (an_beam a1))) as [Hi|Hi].
    - destruct (Hs1 i Hi) as (m1 & f1 & q1 & (Hm1 & _ & _ & R1) & N1), (Hs2 i ltac:(lia)) as (m2 & f2 & q2 & (Hm2 & _ & _ & R2) & N2).
      rewrite EM, Hm2 in Hm1 by exact Hi. injection Hm1 as <-. rewrite N1, N2. cbn. rewrite (node_x_ext _ _ i EL).
      rewrite EP in R1. rewrite (results_x _ _ _ _ _ _ _ _ _ _ _ _ _ R1 R2). reflexivity.
    - rewrite !(proj2 (nth_error_None _ _)) by lia. reflexivity. }
  split; [exact E|]. rewrite A1, A2. apply concat_x, E.
Qed.

(** Foundation members. *)
Lemma eb_values_shape L EI f d lds n r : eb_values L EI f d lds n = r ->
  r_x r = 0 :: uniform L n ++ [L] /\ length (r_V r) = (n + 3)%nat /\ length (r_M r) = (n + 3)%nat /\
  length (r_R r) = (n + 3)%nat /\ length (r_D r) = (n + 3)%nat.
Proof.
  intros <-. unfold eb_values. set (xs := 0 :: uniform L n ++ [L]).
  assert (XL : length xs = (n + 3)%nat) by (unfold xs; cbn [length]; rewrite app_length, uniform_len; cbn; lia).
  set (res := fold_left _ lds _).
  assert (T : table L xs (fun x => (f 1%nat + f 3%nat) / L + V_all L lds x)
    (fun x => ((f 1%nat + f 3%nat) / L * x - f 1%nat) + M_all L lds x) res).
  { apply loads_table. exact (load_table L xs (LMaMb (f 1%nat) (f 3%nat))). }
  clearbody res. clearbody xs. destruct T as [t1 (t2 & t3 & t4 & t5) _ _]. cbn [r_x r_V r_M r_R r_D].
  assert (P : forall l, length (inner l) = length (inner xs) -> length (cumtrapz (inner l) (inner xs)) = (n + 1)%nat).
  { intros l E. rewrite cumtrapz_len by exact E. rewrite inner_len, XL. lia. }
  split; [reflexivity|]. split; [rewrite t2; exact XL|]. split; [rewrite t3; exact XL|].
  assert (PS : length (cumtrapz (inner (map (fun m => m / EI) (r_M res))) (inner xs)) = (n + 1)%nat).
  { apply P. rewrite !inner_len, map_length, t3. reflexivity. }
  split.
  - rewrite set_inner_len; [rewrite t4; exact XL|rewrite t4, XL; lia|]. rewrite map_length, PS, t4, XL. lia.
  - rewrite set_inner_len; [rewrite t5; exact XL|rewrite t5, XL; lia|]. rewrite map_length, cumtrapz_len, inner_len, t5, XL; [lia|].
    rewrite map_length, PS, inner_len, XL. lia.
Qed.
Lemma flat_map_const_len {A B} (f : A -> list B) l n : (forall a, In a l -> length (f a) = n) -> length (flat_map f l) = (length l * n)%nat.
Proof.
  induction l as [|a l IH]; intros H; cbn; [reflexivity|]. rewrite app_length, H by (left; reflexivity). rewrite IH; [reflexivity|].
  intros b Hb. apply H. right. exact Hb.
Qed.
Lemma foundation_stations gl m kf fe lds f d npts sp r : mb_kf m = Some kf -> foundation_of m kf = Ok fe ->
  member_results gl m lds f d npts sp = Ok r ->
  let n := (fe_n fe * (Nat.max 2 (round_div npts (fe_n fe)) + 3))%nat in
  length (r_x r) = n /\ length (r_V r) = n /\ length (r_M r) = n /\ length (r_R r) = n /\ length (r_D r) = n.
Proof.
  intros Hk Hf. unfold member_results. rewrite Hk, Hf. cbn [rbind]. unfold fe_recover. intros H.
  apply rbind_ok in H as (rs & _ & H). apply rbind_ok in H as (dm & _ & H). apply rbind_ok in H as (per & _ & H). injection H as <-.
  cbn [mres_concat r_x r_V r_M r_R r_D].
  assert (Q : forall g : mres -> list R, (forall L EI f' d' l n, length (g (eb_values L EI f' d' l n)) = (n + 3)%nat) ->
     (forall c q, length (g (shift_x c q)) = length (g q)) ->
     forall F : nat -> mres, (forall e, exists c L EI f' d' l, F e = shift_x c (eb_values L EI f' d' l (Nat.max 2 (round_div npts (fe_n fe))))) ->
     length (flat_map g (map F (seq 0 (fe_n fe)))) = (fe_n fe * (Nat.max 2 (round_div npts (fe_n fe)) + 3))%nat).
  { intros g G1 G2 F HF. rewrite (flat_map_const_len g _ (Nat.max 2 (round_div npts (fe_n fe)) + 3)); [rewrite map_length, seq_length; reflexivity|].
    intros a Ha. apply in_map_iff in Ha. destruct Ha as (e & <- & _). destruct (HF e) as (c & L & EI & f' & d' & l & ->). rewrite G2. apply G1. }
  repeat apply conj; (apply Q; [intros|reflexivity || (intros; cbn; apply map_length)|intros; do 6 eexists; reflexivity]).
  - rewrite (proj1 (eb_values_shape _ _ _ _ _ _ _ eq_refl)). cbn [length]. rewrite app_length, uniform_len. cbn. lia.
  - exact (proj1 (proj2 (eb_values_shape _ _ _ _ _ _ _ eq_refl))).
  - exact (proj1 (proj2 (proj2 (eb_values_shape _ _ _ _ _ _ _ eq_refl)))).
  - exact (proj1 (proj2 (proj2 (proj2 (eb_values_shape _ _ _ _ _ _ _ eq_refl))))).
  - exact (proj2 (proj2 (proj2 (proj2 (eb_values_shape _ _ _ _ _ _ _ eq_refl))))).
Qed.
Lemma analyze_foundation_stations gl ill a sps npts check a' br i r mb kf fe :
  analyze gl ill a sps npts check = (a', Ok br) -> member_at (an_beam a) i = Ok mb -> mb_kf mb = Some kf ->
  foundation_of mb kf = Ok fe -> nth_error (br_mem br) i = Some r ->
  length (r_x r) = (fe_n fe * (Nat.max 2 (round_div (an_npts a') (fe_n fe)) + 3))%nat /\
  length (r_V r) = length (r_x r) /\ length (r_M r) = length (r_x r).
Proof.
  intros H Em Hk Hfe Hr. destruct (analyze_split _ _ _ _ _ _ _ _ H) as (o & Ho & Hv & _).
  destruct (analyze_core_state _ _ _ _ _ _ _ Ho) as (EB & _). rewrite EB in Hv.
  destruct (member_analysis_spec _ _ _ _ _ _ _ Hv) as (ls & Hls & Hlen & Hs).
  assert (Hi : (i < b_nspans (an_beam a))%nat) by (rewrite <- Hlen; apply nth_error_Some; rewrite Hr; discriminate).
  destruct (Hs i Hi) as (m & f & r' & (Hm & Hn & Hf & Hres) & Hr'). rewrite Hr in Hr'. injection Hr' as ->.
  rewrite Em in Hm. injection Hm as <-. destruct (foundation_stations _ _ _ _ _ _ _ _ _ _ Hk Hfe Hres) as (A & B & C & _).
  cbn [shift_x r_x r_V r_M]. rewrite map_length, A, B, C. auto.
Qed.

(** ** Reading *)
Definition keys_sorted (t : list (R * R)) : Prop := StronglySorted (fun p q => fst p < fst q) t.
Lemma insert_new_in p t q : In q (insert_new p t) -> q = p \/ In q t.
Proof.
  induction t as [|r t IH]; cbn; [intros [E|[]]; auto|]. unfold Rltb. destruct (Rlt_dec _ _); [intros [E|E]; auto|].
  destruct (Req_EM_T _ _); [auto|]. intros [E|E]; [auto|]. destruct (IH E); auto.
Qed.
Lemma insert_new_sorted p t : keys_sorted t -> keys_sorted (insert_new p t).
Proof.
  unfold keys_sorted. induction 1 as [|q t S IH F]; cbn; [repeat constructor|]. unfold Rltb. destruct (Rlt_dec (fst p) (fst q)) as [H|H].
  - constructor; [constructor; assumption|]. constructor; [exact H|]. eapply Forall_impl; [|exact F]. cbn. intros; lra.
  - destruct (Req_EM_T _ _) as [E|E]; [constructor; assumption|]. constructor; [exact IH|].
    apply Forall_forall. intros r Hr. apply insert_new_in in Hr. destruct Hr as [->|Hr]; [lra|]. rewrite Forall_forall in F. apply F, Hr.
Qed.
Lemma insert_new_old p t q : In q t -> In q (insert_new p t).
Proof.
  induction t as [|r t IH]; intros H; [destruct H|]. cbn. unfold Rltb. destruct (Rlt_dec _ _); [right; exact H|].
  destruct (Req_EM_T _ _); [exact H|]. destruct H as [->|H]; [left; reflexivity|right; apply IH, H].
Qed.
Lemma insert_new_fresh p t : ~ In (fst p) (map fst t) -> In p (insert_new p t).
Proof.
  induction t as [|r t IH]; intros H; cbn; [auto|]. unfold Rltb. destruct (Rlt_dec _ _); [left; reflexivity|].
  destruct (Req_EM_T _ _) as [E|E]; [exfalso; apply H; left; auto|]. right. apply IH. intros X. apply H. right. exact X.
Qed.
Lemma insert_new_key p t k : In k (map fst (insert_new p t)) <-> k = fst p \/ In k (map fst t).
Proof.
  induction t as [|r t IH]; cbn; [split; intros [E|[]]; auto|]. unfold Rltb. destruct (Rlt_dec _ _); [cbn; split; intros [E|[E|E]]; auto|].
  destruct (Req_EM_T _ _) as [E|E]; cbn.
  - split; [auto|]. intros [->|H]; [left; symmetry; exact E|exact H].
  - rewrite IH. split; [intros [H|[H|H]]; auto|intros [H|[H|H]]; auto].
Qed.

(** [unique_first] keeps the value of the first occurrence. *)
Lemma fold_new_keys l t k : In k (map fst (fold_left (fun acc p => insert_new p acc) l t)) <-> In k (map fst l) \/ In k (map fst t).
Proof.
  revert t. induction l as [|p l IH]; intros t; cbn; [split; [auto|intros [[]|H]; exact H]|]. rewrite IH, insert_new_key.
  split; [intros [H|[H|H]]; auto|intros [[H|H]|H]; auto].
Qed.
Lemma fold_new_sorted l t : keys_sorted t -> keys_sorted (fold_left (fun acc p => insert_new p acc) l t).
Proof. revert t. induction l as [|p l IH]; intros t H; cbn; [exact H|]. apply IH, insert_new_sorted, H. Qed.
Lemma fold_new_old l t q : In q t -> In q (fold_left (fun acc p => insert_new p acc) l t).
Proof. revert t. induction l as [|p l IH]; intros t H; cbn; [exact H|]. apply IH, insert_new_old, H. Qed.
Lemma fold_new_first l k p t : nth_error l k = Some p -> ~ In (fst p) (map fst (firstn k l)) -> ~ In (fst p) (map fst t) ->
  In p (fold_left (fun acc p => insert_new p acc) l t).
Proof.
  revert k t. induction l as [|q l IH]; intros [|k] t E H Ht; cbn in *; try discriminate.
  - injection E as ->. apply fold_new_old, insert_new_fresh, Ht.
  - apply (IH k); [exact E|intros X; apply H; right; exact X|]. rewrite insert_new_key. intros [X|X]; [apply H; left; symmetry; exact X|exact (Ht X)].
Qed.

Lemma combine_fst {A B} (l : list A) (k : list B) : length k = length l -> map fst (combine l k) = l.
Proof. revert k. induction l as [|a l IH]; intros [|b k] H; cbn in *; try discriminate; [reflexivity|]. f_equal. apply IH. lia. Qed.
Lemma firstn_combine {A B} n (l : list A) (k : list B) : firstn n (combine l k) = combine (firstn n l) (firstn n k).
Proof. revert l k. induction n as [|n IH]; intros [|a l] [|b k]; cbn; try reflexivity. f_equal. apply IH. Qed.
Lemma nth_error_combine (l k : list R) i : (i < length l)%nat -> length k = length l ->
  nth_error (combine l k) i = Some (nth i l 0, nth i k 0).
Proof.
  revert k i. induction l as [|a l IH]; intros [|b k] [|i] H E; cbn in *; try lia; try reflexivity. apply IH; lia.
Qed.
Lemma unique_first_sorted xs vs : keys_sorted (unique_first xs vs).
Proof. apply fold_new_sorted. constructor. Qed.
Lemma unique_first_in xs vs x k : length vs = length xs -> first_station xs x k -> In (x, nth k vs 0) (unique_first xs vs).
Proof.
  intros E (H1 & H2 & H3). apply (fold_new_first _ k); [rewrite nth_error_combine by (assumption || lia); rewrite H2; reflexivity| |intros []].
  cbn [fst]. rewrite firstn_combine, combine_fst by (rewrite !firstn_length; lia). intros X.
  apply (In_nth _ _ 0) in X. destruct X as (j & Hj & Ej). rewrite firstn_length in Hj. apply (H3 j); [lia|]. rewrite <- Ej.
  rewrite <- (firstn_skipn k xs) at 1. apply app_nth1. rewrite firstn_length. lia.
Qed.
Lemma unique_first_key xs vs p : length vs = length xs -> In p (unique_first xs vs) -> In (fst p) xs.
Proof.
  intros E H. apply (in_map fst) in H. unfold unique_first in H. apply fold_new_keys in H. destruct H as [H|[]]. rewrite combine_fst in H by exact E. exact H.
Qed.

Lemma interp_from_between x a va b vb : a <= x < b -> forall t x0 v0, x0 <= x -> keys_sorted ((x0, v0) :: t) ->
  In (a, va) ((x0, v0) :: t) -> In (b, vb) t -> (forall p, In p ((x0, v0) :: t) -> fst p <= a \/ b <= fst p) ->
  interp_from x x0 v0 t = va + (vb - va) / (b - a) * (x - a).
Proof.
  intros Hx. induction t as [|[x1 v1] t IH]; intros x0 v0 H0 S Ha Hb Hn; [destruct Hb|]. cbn.
  inversion_clear S as [|? ? S' F]. unfold Rltb. destruct (Rlt_dec x x1) as [H|H].
  - assert (E1 : (x1, v1) = (b, vb)).
    { destruct Hb as [E|Hb]; [exact E|]. inversion_clear S' as [|? ? _ F']. rewrite Forall_forall in F'. specialize (F' _ Hb). cbn in F'.
      destruct (Hn (x1, v1)) as [X|X]; [right; left; reflexivity|cbn in X; lra|cbn in X; lra]. }
    injection E1 as -> ->.
    assert (E0 : (x0, v0) = (a, va)).
    { destruct Ha as [E|[E|Ha]]; [exact E|injection E as -> ->; lra|]. inversion_clear S' as [|? ? _ F']. rewrite Forall_forall in F'. specialize (F' _ Ha). cbn in F'. lra. }
    injection E0 as -> ->. reflexivity.
  - apply IH; [lra|exact S'| | |].
    + destruct Ha as [E|Ha]; [|exact Ha]. injection E as -> ->. exfalso. inversion_clear F as [|? ? F1 _]. cbn in F1.
      destruct (Hn (x1, v1)) as [X|X]; [right; left; reflexivity|cbn in X; lra|cbn in X; lra].
    + destruct Hb as [E|Hb]; [injection E as -> ->; lra|exact Hb].
    + intros p Hp. apply Hn. right. exact Hp.
Qed.
Lemma interp_from_last x a va : a <= x -> forall t x0 v0, x0 <= x -> keys_sorted ((x0, v0) :: t) ->
  In (a, va) ((x0, v0) :: t) -> (forall p, In p ((x0, v0) :: t) -> fst p <= a) -> interp_from x x0 v0 t = va.
Proof.
  intros Hx. induction t as [|[x1 v1] t IH]; intros x0 v0 H0 S Ha Hn.
  - cbn. destruct Ha as [E|[]]. injection E as _ ->. reflexivity.
  - cbn. inversion_clear S as [|? ? S' F]. pose proof (Hn (x1, v1) (or_intror (or_introl eq_refl))) as X. cbn in X.
    unfold Rltb. destruct (Rlt_dec x x1); [lra|]. apply IH; [lra|exact S'| |intros p Hp; apply Hn; right; exact Hp].
    destruct Ha as [E|Ha]; [|exact Ha]. injection E as -> ->. inversion_clear F as [|? ? F1 _]. cbn in F1. lra.
Qed.
Lemma interp_between x a va b vb t : a <= x < b -> keys_sorted t -> In (a, va) t -> In (b, vb) t ->
  (forall p, In p t -> fst p <= a \/ b <= fst p) -> interp x t = va + (vb - va) / (b - a) * (x - a).
Proof.
  intros Hx S Ha Hb Hn. destruct t as [|[x0 v0] t]; [destruct Ha|]. cbn.
  assert (H0 : x0 <= a). { destruct Ha as [E|Ha]; [injection E as -> ->; lra|]. inversion_clear S as [|? ? _ F]. rewrite Forall_forall in F. specialize (F _ Ha). cbn in F. lra. }
  unfold Rltb. destruct (Rlt_dec x x0); [lra|]. apply (interp_from_between x a va b vb Hx); [lra|exact S|exact Ha| |exact Hn].
  destruct Hb as [E|Hb]; [injection E as -> ->; lra|exact Hb].
Qed.
Lemma interp_last x a va t : a <= x -> keys_sorted t -> In (a, va) t -> (forall p, In p t -> fst p <= a) -> interp x t = va.
Proof.
  intros Hx S Ha Hn. destruct t as [|[x0 v0] t]; [destruct Ha|]. cbn.
  pose proof (Hn (x0, v0) (or_introl eq_refl)) as X. cbn in X. unfold Rltb. destruct (Rlt_dec x x0); [lra|].
  apply (interp_from_last x a va Hx); [lra|assumption|assumption|assumption].
Qed.
Lemma interp_before x a va t : x < a -> keys_sorted t -> In (a, va) t -> (forall p, In p t -> a <= fst p) -> interp x t = va.
Proof.
  intros Hx S Ha Hn. destruct t as [|[x0 v0] t]; [destruct Ha|]. cbn.
  pose proof (Hn (x0, v0) (or_introl eq_refl)) as X. cbn in X. unfold Rltb. destruct (Rlt_dec x x0); [|lra].
  destruct Ha as [E|Ha]; [injection E as _ ->; reflexivity|]. inversion_clear S as [|? ? _ F]. rewrite Forall_forall in F. specialize (F _ Ha). cbn in F. lra.
Qed.
Lemma next_key t x : keys_sorted t -> (exists q, In q t /\ x < fst q) -> exists q, In q t /\ x < fst q /\ forall p, In p t -> fst p <= x \/ fst q <= fst p.
Proof.
  induction 1 as [|r t S IH F]; intros (q & Hq & Lq); [destruct Hq|].
  destruct (Rlt_dec x (fst r)) as [H|H].
  - exists r. split; [left; reflexivity|]. split; [exact H|]. intros p [<-|Hp]; [right; lra|]. rewrite Forall_forall in F. specialize (F p Hp). right. lra.
  - destruct Hq as [<-|Hq]; [lra|]. destruct IH as (q' & H1 & H2 & H3); [exists q; auto|]. exists q'. split; [right; exact H1|]. split; [exact H2|].
    intros p [<-|Hp]; [left; lra|auto].
Qed.
Lemma interp_at a va t : keys_sorted t -> In (a, va) t -> interp a t = va.
Proof.
  intros S Ha. destruct (existsb (fun p => if Rlt_dec a (fst p) then true else false) t) eqn:E.
  - apply existsb_exists in E. destruct E as (q & Hq & Eq). destruct (Rlt_dec a (fst q)); [|discriminate].
    destruct (next_key t a S) as ([b vb] & H1 & H2 & H3); [exists q; auto|]. cbn [fst] in *.
    rewrite (interp_between a a va b vb t ltac:(lra) S Ha H1 H3). field. lra.
  - apply (interp_last a a va t (Rle_refl a) S Ha). intros p Hp. destruct (Rle_dec (fst p) a) as [H|H]; [exact H|exfalso].
    assert (X : existsb (fun p => if Rlt_dec a (fst p) then true else false) t = true).
    { apply existsb_exists. exists p. split; [exact Hp|]. destruct (Rlt_dec a (fst p)); [reflexivity|lra]. }
    rewrite X in E. discriminate.
Qed.

Lemma read_station xs vs x k : length vs = length xs -> first_station xs x k -> read_at x xs vs = nth k vs 0.
Proof. intros E H. apply interp_at; [apply unique_first_sorted|apply unique_first_in; assumption]. Qed.
Lemma read_between xs vs x x0 k0 x1 k1 : length vs = length xs -> first_station xs x0 k0 -> first_station xs x1 k1 ->
  x0 <= x <= x1 -> x0 < x1 -> (forall y, In y xs -> y <= x0 \/ x1 <= y) ->
  read_at x xs vs = nth k0 vs 0 + (nth k1 vs 0 - nth k0 vs 0) * ((x - x0) / (x1 - x0)).
Proof.
  intros E F0 F1 Hx Hlt Hn. destruct (Rlt_dec x x1) as [H|H].
  - unfold read_at. rewrite (interp_between x x0 (nth k0 vs 0) x1 (nth k1 vs 0)); [field; lra|lra|apply unique_first_sorted|apply unique_first_in; assumption|apply unique_first_in; assumption|].
    intros p Hp. apply Hn, (unique_first_key xs vs p E Hp).
  - assert (x = x1) as -> by lra. rewrite (read_station xs vs x1 k1 E F1). field. lra.
Qed.
Lemma between_bounds v0 v1 t : 0 <= t <= 1 -> Rmin v0 v1 <= v0 + (v1 - v0) * t <= Rmax v0 v1.
Proof.
  intros Ht. unfold Rmin, Rmax. destruct (Rle_dec v0 v1); split; nra.
Qed.
Lemma read_bounds xs vs x x0 k0 x1 k1 : length vs = length xs -> first_station xs x0 k0 -> first_station xs x1 k1 ->
  x0 <= x <= x1 -> (forall y, In y xs -> y <= x0 \/ x1 <= y) ->
  Rmin (nth k0 vs 0) (nth k1 vs 0) <= read_at x xs vs <= Rmax (nth k0 vs 0) (nth k1 vs 0).
Proof.
  intros E F0 F1 Hx Hn. destruct (Rlt_dec x0 x1) as [H|H].
  - rewrite (read_between xs vs x x0 k0 x1 k1) by assumption. apply between_bounds.
    assert (0 < / (x1 - x0)) by (apply Rinv_0_lt_compat; lra). unfold Rdiv. split; [apply Rmult_le_pos; lra|].
    apply (Rmult_le_reg_r (x1 - x0)); [lra|]. rewrite Rmult_assoc, Rinv_l by lra. lra.
  - assert (x = x0) as -> by lra. rewrite (read_station xs vs x0 k0 E F0). assert (x1 = x0) by lra. subst x1.
    split; [apply Rmin_l|apply Rmax_l].
Qed.
Lemma read_outside xs vs x x0 k0 : length vs = length xs -> first_station xs x0 k0 ->
  (x <= x0 /\ (forall y, In y xs -> x0 <= y) \/ x0 <= x /\ (forall y, In y xs -> y <= x0)) -> read_at x xs vs = nth k0 vs 0.
Proof.
  intros E F [[Hx Hn]|[Hx Hn]].
  - destruct (Req_dec x x0) as [->|Ne]; [apply read_station; assumption|].
    apply (interp_before x x0); [lra|apply unique_first_sorted|apply unique_first_in; assumption|].
    intros p Hp. apply Hn, (unique_first_key xs vs p E Hp).
  - apply (interp_last x x0); [exact Hx|apply unique_first_sorted|apply unique_first_in; assumption|].
    intros p Hp. apply Hn, (unique_first_key xs vs p E Hp).
Qed.

(** Reading inside a beam whose members are concatenated. *)
Lemma first_exists xs x : In x xs -> exists k, first_station xs x k.
Proof.
  induction xs as [|y xs IH]; intros H; [destruct H|]. destruct (Req_dec y x) as [->|Ne].
  - exists 0%nat. split; [cbn; lia|]. split; [reflexivity|]. intros j Hj. lia.
  - destruct H as [H|H]; [contradiction|]. destruct (IH H) as (k & H1 & H2 & H3). exists (Datatypes.S k). split; [cbn; lia|]. split; [exact H2|].
    intros [|j] Hj; cbn; [exact Ne|apply H3; lia].
Qed.
Lemma first_station_app pre xs post x k : ~ In x pre -> first_station xs x k -> first_station (pre ++ xs ++ post) x (length pre + k).
Proof.
  intros Hp (H1 & H2 & H3). split; [rewrite !app_length; lia|]. split.
  - rewrite app_nth2 by lia. replace (length pre + k - length pre)%nat with k by lia. rewrite app_nth1 by exact H1. exact H2.
  - intros j Hj. destruct (Nat.lt_ge_cases j (length pre)) as [L|L].
    + rewrite app_nth1 by exact L. intros E. apply Hp. rewrite <- E. apply nth_In, L.
    + rewrite app_nth2 by exact L. rewrite app_nth1 by lia. apply H3. lia.
Qed.
Lemma read_member pre xs post vpre vs vpost x k : length vpre = length pre -> length vs = length xs -> length vpost = length post ->
  ~ In x pre -> first_station xs x k -> read_at x (pre ++ xs ++ post) (vpre ++ vs ++ vpost) = nth k vs 0.
Proof.
  intros E1 E2 E3 Hp F. rewrite (read_station _ _ x (length pre + k)).
  - rewrite app_nth2 by lia. replace (length pre + k - length vpre)%nat with k by lia. apply app_nth1. rewrite E2. apply F.
  - rewrite !app_length. lia.
  - apply first_station_app; assumption.
Qed.
Lemma flat_map_same {A} (f g : A -> list R) l : (forall a, In a l -> length (f a) = length (g a)) -> length (flat_map f l) = length (flat_map g l).
Proof.
  induction l as [|a l IH]; intros H; cbn; [reflexivity|]. rewrite !app_length, H, IH; [reflexivity| |left; reflexivity].
  intros b Hb. apply H. right. exact Hb.
Qed.
Lemma increasing_nth l i j : increasing l -> (i <= j < length l)%nat -> nth i l 0 <= nth j l 0.
Proof.
  intros S. revert i j. induction S as [|x l S IH F]; intros [|i] [|j] H; cbn in *; try lia; try lra.
  - rewrite Forall_forall in F. apply F, nth_In. lia.
  - apply IH. lia.
Qed.

(** Every member of the analysis has a sound grid: reading inside it. *)
Section Reading.
Variables (gl : nat -> list (R * R)) (ill : nat -> mat -> bool) (a : analysis) (sps : nat -> list R) (npts : option nat)
  (check : bool) (a' : analysis) (br : bres).
Hypothesis H : analyze gl ill a sps npts check = (a', Ok br).
Hypothesis Hp : (0 < an_npts a')%nat.
Hypothesis Hm : members (an_beam a) (b_nspans (an_beam a)) (fun mb => 0 < mb_L mb /\ mb_kf mb = None).

Lemma mem_at i r : nth_error (br_mem br) i = Some r -> exists mb, (i < b_nspans (an_beam a))%nat /\ member_at (an_beam a) i = Ok mb /\ 0 < mb_L mb /\
  (exists V M, member_curves (node_x (an_beam a) i) r V M) /\
  station_grid (node_x (an_beam a) i) (node_x (an_beam a) (i + 1)) (an_npts a' + 3 + 2 * inside_points (mb_L mb) (sps i)) (r_x r).
Proof.
  intros Hr. destruct (analyze_split _ _ _ _ _ _ _ _ H) as (o & Ho & Hv & _).
  destruct (analyze_core_state _ _ _ _ _ _ _ Ho) as (EB & _). rewrite EB in Hv.
  destruct (member_analysis_spec _ _ _ _ _ _ _ Hv) as (ls & Hls & Hlen & Hs).
  assert (Hi : (i < b_nspans (an_beam a))%nat) by (rewrite <- Hlen; apply nth_error_Some; rewrite Hr; discriminate).
  destruct (Hs i Hi) as (m & f & r' & (Hm' & Hn & Hf & Hres) & Hr'). destruct (Hm i m Hi Hm') as [P1 P2]. exists m. split; [exact Hi|]. split; [exact Hm'|]. split; [exact P1|]. split.
  - rewrite Hr in Hr'. injection Hr' as ->. unfold member_results in Hres. rewrite P2 in Hres. eexists _, _.
    exact (table_shift _ _ _ _ _ _ (member_values_table _ _ _ _ _ _ _ _ Hres)).
  - apply (analyze_grid gl ill a sps npts check a' br i r m H Hp Hm' ltac:(lra) P2 Hr).
Qed.
Lemma node_x_mono i j : (i <= j <= b_nspans (an_beam a))%nat -> node_x (an_beam a) i <= node_x (an_beam a) j.
Proof.
  intros Hij. destruct (analyze_split _ _ _ _ _ _ _ _ H) as (o & Ho & Hv & _).
  destruct (analyze_core_state _ _ _ _ _ _ _ Ho) as (EB & _). rewrite EB in Hv.
  destruct (member_analysis_spec _ _ _ _ _ _ _ Hv) as (ls & Hls & Hlen & Hs).
  assert (X : forall k, (i <= k)%nat -> (k <= b_nspans (an_beam a))%nat -> node_x (an_beam a) i <= node_x (an_beam a) k).
  { clear j Hij. induction 1 as [|j Lj IH]; intros Hj; [lra|]. destruct (Hs j Hj) as (m & f & r' & (Hm' & _) & _). destruct (Hm j m Hj Hm') as [P1 _].
    rewrite (member_length _ _ _ Hm') in P1. change (node_x (an_beam a) (Datatypes.S j)) with (node_x (an_beam a) j + span_length (an_beam a) j).
    specialize (IH ltac:(lia)). lra. }
  apply X; apply Hij.
Qed.
Lemma read_in_member i r k : nth_error (br_mem br) i = Some r -> (0 < k < length (r_x r) - 1)%nat ->
  node_x (an_beam a) i < nth k (r_x r) 0 ->
  read_at (nth k (r_x r) 0) (r_x (br_all br)) (r_M (br_all br)) = nth k (r_M r) 0 /\
  read_at (nth k (r_x r) 0) (r_x (br_all br)) (r_V (br_all br)) = nth k (r_V r) 0.
Proof.
  intros Hr Hk Hx. destruct (analyze_split _ _ _ _ _ _ _ _ H) as (_ & _ & _ & EA & _). rewrite EA. cbn [mres_concat r_x r_M r_V].
  destruct (nth_error_split _ _ Hr) as (l1 & l2 & EQ & E1). rewrite EQ, !flat_map_app. cbn [flat_map].
  assert (LEN : forall q, In q (br_mem br) -> length (r_V q) = length (r_x q) /\ length (r_M q) = length (r_x q)).
  { intros q Hq. apply In_nth_error in Hq. destruct Hq as (j & Hj). destruct (mem_at j q Hj) as (_ & _ & _ & _ & (V & M & C) & _).
    destruct (mc_len _ _ _ _ C) as (A & B & _). split; assumption. }
  assert (NI : ~ In (nth k (r_x r) 0) (flat_map r_x l1)).
  { intros X. apply in_flat_map in X. destruct X as (q & Hq & X). apply (In_nth_error l1) in Hq. destruct Hq as (j & Hj).
    assert (Lj : (j < i)%nat) by (rewrite <- E1; apply nth_error_Some; rewrite Hj; discriminate).
    assert (Hj' : nth_error (br_mem br) j = Some q) by (rewrite EQ, nth_error_app1 by lia; exact Hj).
    destruct (mem_at j q Hj') as (mb & _ & _ & _ & _ & G). destruct (mem_at i r Hr) as (_ & Hi & _).
    apply (In_nth _ _ 0) in X. destruct X as (s & Hs & Es). rewrite <- Es in Hx.
    assert (Y := increasing_nth _ s (length (r_x q) - 1) (sg_order _ _ _ _ G) ltac:(lia)).
    pose proof (sg_last _ _ _ _ G) as Z. rewrite <- (sg_count _ _ _ _ G) in Z. rewrite Z in Y.
    pose proof (node_x_mono (j + 1) i ltac:(lia)). lra. }
  destruct (mem_at i r Hr) as (mb & Hi & _ & _ & (V & M & C) & G).
  destruct (first_exists (r_x r) (nth k (r_x r) 0)) as (k0 & F); [apply nth_In; lia|].
  assert (Hk0 : (0 < k0 < length (r_x r) - 1)%nat).
  { destruct F as (F1 & F2 & F3). split.
    - destruct k0 as [|k0]; [|lia]. rewrite (sg_first _ _ _ _ G) in F2. lra.
    - destruct (Nat.lt_ge_cases k k0) as [L|L]; [exfalso; exact (F3 k L eq_refl)|lia]. }
  destruct (mc_len _ _ _ _ C) as (LV & LM & _). destruct (mc_at _ _ _ _ C k Hk) as [V1 M1], (mc_at _ _ _ _ C k0 Hk0) as [V0 M0].
  pose proof (proj1 (proj2 F)) as EX.
  assert (S1 : forall q, In q l1 -> In q (br_mem br)) by (intros q Hq; rewrite EQ; apply in_or_app; left; exact Hq).
  assert (S2 : forall q, In q l2 -> In q (br_mem br)) by (intros q Hq; rewrite EQ; apply in_or_app; right; right; exact Hq).
  split.
  - rewrite (read_member _ _ _ _ _ _ _ k0); [rewrite M0, M1, EX; reflexivity| |exact LM| |exact NI|exact F];
      apply flat_map_same; intros q Hq; apply LEN; auto.
  - rewrite (read_member _ _ _ _ _ _ _ k0); [rewrite V0, V1, EX; reflexivity| |exact LV| |exact NI|exact F];
      apply flat_map_same; intros q Hq; apply LEN; auto.
Qed.
Lemma read_left_end : (0 < b_nspans (an_beam a))%nat ->
  read_at 0 (r_x (br_all br)) (r_M (br_all br)) = 0 /\ read_at 0 (r_x (br_all br)) (r_V (br_all br)) = 0.
Proof.
  intros Hn. destruct (analyze_split _ _ _ _ _ _ _ _ H) as (o & Ho & Hv & EA & _).
  assert (LEN : forall q, In q (br_mem br) -> length (r_V q) = length (r_x q) /\ length (r_M q) = length (r_x q)).
  { intros q Hq. apply In_nth_error in Hq. destruct Hq as (j & Hj). destruct (mem_at j q Hj) as (_ & _ & _ & _ & (V & M & C) & _).
    destruct (mc_len _ _ _ _ C) as (A & B & _). split; assumption. }
  rewrite EA. destruct (analyze_core_state _ _ _ _ _ _ _ Ho) as (EB & _). rewrite EB in Hv.
  destruct (member_analysis_spec _ _ _ _ _ _ _ Hv) as (ls & Hls & Hlen & Hs).
  destruct (br_mem br) as [|r l] eqn:EQ; [cbn in Hlen; lia|].
  assert (Hr : nth_error (br_mem br) 0 = Some r) by (rewrite EQ; reflexivity).
  destruct (mem_at 0 r Hr) as (mb & _ & _ & _ & (V & M & C) & G). cbn [mres_concat r_x r_M r_V flat_map].
  destruct (mc_ends _ _ _ _ C) as (EV & EM & _). destruct (mc_len _ _ _ _ C) as (LV & LM & _).
  assert (F : first_station (r_x r) 0 0).
  { split; [rewrite (sg_count _ _ _ _ G); lia|]. split; [rewrite (sg_first _ _ _ _ G); reflexivity|]. intros j Hj. lia. }
  split.
  - rewrite <- EM at 2. apply (read_member [] (r_x r) (flat_map r_x l) [] (r_M r) (flat_map r_M l) 0 0);
      [reflexivity|exact LM|apply flat_map_same; intros q Hq; apply LEN; right; exact Hq|intros []|exact F].
  - rewrite <- EV at 2. apply (read_member [] (r_x r) (flat_map r_x l) [] (r_V r) (flat_map r_V l) 0 0);
      [reflexivity|exact LV|apply flat_map_same; intros q Hq; apply LEN; right; exact Hq|intros []|exact F].
Qed.
End Reading.

(** ** Concrete cases *)
Lemma member_values_total gl m lds f d npts sp cs : scalar_member m -> mapM (fun ld => get_cnl gl ld (mb_L m)) lds = Ok cs ->
  exists r, member_values gl m lds f d npts sp = Ok r.
Proof.
  intros ((e & Ee) & Hg) Hc. unfold member_values. rewrite Hc. cbn [rbind]. rewrite Ee. cbn [rigid_at rbind].
  destruct Hg as [->|(g & ->)]; cbn [rigid_at rbind]; eexists; reflexivity.
Qed.
Lemma member_analysis_total gl b d ndof npts sps ls : well_formed gl b (b_nspans b) -> parsed_loads b = Ok ls -> ndof = (2 * (b_nspans b + 1))%nat ->
  members b (b_nspans b) (fun mb => scalar_member mb /\ mb_kf mb = None) ->
  (forall i mb, (i < b_nspans b)%nat -> member_at b i = Ok mb -> exists cs, mapM (fun ld => get_cnl gl ld (mb_L mb)) (loads_of ls i) = Ok cs) ->
  exists v, member_analysis gl b d ndof npts sps = Ok v.
Proof.
  intros (_ & _ & ls' & Hls & W) El -> Hm Hc. rewrite El in Hls. injection Hls as <-.
  unfold member_analysis. rewrite El. cbn [rbind].
  set (stp := fun (acc : list mres * R) i => _).
  assert (P : forall l acc, (forall i, In i l -> (i < b_nspans b)%nat) -> exists st, foldM stp l acc = Ok st).
  { induction l as [|i l IH]; intros acc Hi; [eexists; reflexivity|]. cbn [foldM].
    assert (Hib := Hi i (or_introl eq_refl)). destruct (W i Hib) as (mb & k & r & Em & Ek & Er).
    destruct (Hm i mb Hib Em) as [Sc Kf]. destruct (Hc i mb Hib Em) as (cs & Ec).
    unfold stp at 1. rewrite Em. cbn [rbind]. destruct (Nat.ltb _ _) eqn:EL; [apply Nat.ltb_lt in EL; lia|].
    unfold member_forces. rewrite El. cbn [rbind]. rewrite Em. cbn [rbind]. rewrite Ek. cbn [rbind]. rewrite Er. cbn [rbind].
    unfold member_results. rewrite Kf.
    destruct (member_values_total gl mb (loads_of ls i) (fun p => mulmv 4 k (fun q => d (2 * i + q)%nat) p + r p) (fun q => d (2 * i + q)%nat) npts (sps i) cs Sc Ec) as (q & Eq).
    rewrite Eq. cbn [rbind]. apply IH. intros j Hj. apply Hi. right. exact Hj. }
  destruct (P (seq 0 (b_nspans b)) ([], 0)) as (st & E); [intros i Hi; apply in_seq in Hi; lia|]. rewrite E. eexists. reflexivity.
Qed.
Lemma analyze_total_ok gl ill a sps npts check o ls : snd (analyze_core gl ill a npts check) = Ok o ->
  an_n a = b_nspans (an_beam a) -> well_formed gl (an_beam a) (an_n a) -> parsed_loads (an_beam a) = Ok ls ->
  members (an_beam a) (an_n a) (fun mb => scalar_member mb /\ mb_kf mb = None) ->
  (forall i mb, (i < an_n a)%nat -> member_at (an_beam a) i = Ok mb -> exists cs, mapM (fun ld => get_cnl gl ld (mb_L mb)) (loads_of ls i) = Ok cs) ->
  exists a' br, analyze gl ill a sps npts check = (a', Ok br) /\ an_npts a' = match npts with Some p => if Nat.ltb 3 p then p else an_npts a | None => an_npts a end /\ br_D br = o_d o.
Proof.
  intros Ho En Wf El Hm Hc. unfold analyze. destruct (analyze_core gl ill a npts check) as [a1 r] eqn:E. cbn in Ho. subst r.
  destruct (analyze_core_state _ _ _ _ _ _ _ E) as (EB & EN & EF & EP). rewrite En in *.
  destruct (member_analysis_total gl (an_beam a) (o_d o) (an_ndof a) (an_npts a1) sps ls Wf El) as (v & Ev); [unfold an_ndof; rewrite En; reflexivity|exact Hm|exact Hc|].
  exists a1. unfold beam_results. rewrite EB, EF, Ev. cbn [rbind]. eexists. split; [reflexivity|]. split; [exact EP|reflexivity].
Qed.

(** Encastre span under a uniform load. *)
Definition ff_beam : beam :=
  {| b_lengths := [6]; b_EIs := [RConst 2]; b_GAv := [None]; b_kf := [None];
     b_types := [1%nat]; b_nspans := 1; b_length := 0 + 6; b_terminal := [0; 0 + 6];
     b_R := [-1; -1; -1; -1]; b_D := [None; None; None; None]; b_LM := [Row 1 1 [2]]; b_version := 1 |}.
Definition ff : analysis :=
  {| an_beam := ff_beam; an_n := 1; an_npts := 100; an_checked := None; an_out := None |}.
Definition ff_ctor : ctor := {| ct_L := [6]; ct_EI := EIAll (RConst 2); ct_R := Some [-1; -1; -1; -1]; ct_LM := Some [Row 1 1 [2]];
     ct_types := [EtNum [1%Z]]; ct_D := None; ct_sup := None; ct_GAv := GNone; ct_kf := KNone |}.
Lemma ff_init : analysis_init ff_ctor = Ok ff.
Proof. reflexivity. Qed.
Lemma ff_member i mb : member_at ff_beam i = Ok mb -> i = 0%nat /\ sound_member mb /\ scalar_member mb /\ mb_kf mb = None /\ mb_L mb = 6 /\ mb_type mb = 1%nat.
Proof.
  intros E. destruct i as [|i]; [|destruct i; discriminate]. cbv in E. injection E as <-. split; [reflexivity|].
  split; [constructor; cbn; try lra; try lia; try reflexivity; try discriminate; exact Rlt_0_2 || (intros; discriminate)|].
  split; [split; [eexists; reflexivity|left; reflexivity]|]. auto.
Qed.
Lemma ff_wf gl : well_formed gl ff_beam 1.
Proof.
  split; [cbn; lia|]. split; [cbn; lia|]. eexists; split; [reflexivity|]. intros m Hm.
  replace m with 0%nat by lia. do 3 eexists. repeat (split; [reflexivity|]). reflexivity.
Qed.
Lemma ff_prescribed i : prescribed ff_beam i = None.
Proof. unfold prescribed. cbn. destruct i as [|[|[|[|i]]]]; try reflexivity. destruct i; reflexivity. Qed.
Lemma ff_restraint i : (i < 4)%nat -> restraint ff_beam i = -1.
Proof. intros Hi. unfold restraint. cbn. destruct i as [|[|[|[|i]]]]; try reflexivity. lia. Qed.
Lemma ff_core gl ill : exists o, snd (analyze_core gl ill ff None false) = Ok o.
Proof.
  destruct (well_formed_system _ _ _ (ff_wf gl)) as (kb & rf & S).
  apply (core_total gl ill ff false kb rf S).
  - cbn. lia.
  - cbn. lia.
  - intros i Hi (C & _). cbn [an_beam ff] in C. rewrite ff_restraint in C by (cbn in Hi; lia). lra.
  - intros y Hy i Hi. specialize (Hy i Hi). unfold bcv in Hy. cbn [an_beam ff] in Hy. rewrite ff_prescribed, ff_restraint in Hy by (cbn in Hi; lia).
    destruct (Rlt_dec (-1) 0); [exact Hy|lra].
  - left. reflexivity.
Qed.
Lemma ff_results gl ill sps : exists a' br e, analyze gl ill ff sps None false = (a', Ok br) /\ an_npts a' = 100%nat /\
  member_forces gl ff_beam (br_D br) 0 = Ok e /\ e 1%nat = 6.
Proof.
  destruct (ff_core gl ill) as (o & Ho).
  destruct (analyze_total_ok gl ill ff sps None false o [(0%Z, LUDL 2)] Ho) as (a' & br & E & EP & ED).
  - reflexivity.
  - exact (ff_wf gl).
  - reflexivity.
  - intros i mb Hi E. destruct (ff_member i mb E) as (_ & _ & A & B & _). auto.
  - intros i mb Hi E. cbn in Hi. replace i with 0%nat by lia. cbn. eexists. reflexivity.
  - exists a', br. destruct (analyze_core gl ill ff None false) as [a1 r] eqn:EC. cbn in Ho. subst r.
    destruct (analyze_equilibrium _ _ _ _ _ _ _ EC) as (ef & _ & Q).
    assert (Z : forall j, (j < 4)%nat -> o_d o j = 0).
    { intros j Hj. specialize (Q j ltac:(cbn; lia)). cbn [an_beam ff] in Q. rewrite ff_prescribed, ff_restraint in Q by exact Hj.
      destruct (Rlt_dec (-1) 0); [exact Q|lra]. }
    eexists. split; [exact E|]. split; [exact EP|]. split; [reflexivity|]. rewrite ED.
    unfold mulmv. cbn [rsum]. cbn [Nat.mul Nat.add]. rewrite !Z by lia. cbn. field.
Qed.

(** ** Recovered deflections *)
Lemma nth_set_inner l v i : (2 <= length l)%nat -> length v = (length l - 2)%nat -> (i < length v)%nat -> nth (Datatypes.S i) (set_inner l v) 0 = nth i v 0.
Proof. intros H E Hi. destruct l as [|a l]; [cbn in H; lia|]. cbn [set_inner nth]. apply app_nth1, Hi. Qed.
Lemma cumtrapz_hd ys xs : nth 0 (cumtrapz ys xs) 0 = 0.
Proof. destruct xs, ys; reflexivity. Qed.
Lemma cumtrapz_from_step : forall xs ys acc xp yp k, length ys = length xs -> (k < length xs)%nat ->
  nth (Datatypes.S k) (acc :: cumtrapz_from acc xp yp xs ys) 0 - nth k (acc :: cumtrapz_from acc xp yp xs ys) 0
  = (nth (Datatypes.S k) (xp :: xs) 0 - nth k (xp :: xs) 0) * (nth k (yp :: ys) 0 + nth (Datatypes.S k) (yp :: ys) 0) / 2.
Proof.
  induction xs as [|x xs IH]; intros [|y ys] acc xp yp k E Hk; cbn [length] in *; try lia.
  cbn [cumtrapz_from]. destruct k as [|k]; [cbn; lra|].
  change (nth (Datatypes.S (Datatypes.S k)) (?u :: ?l) 0) with (nth (Datatypes.S k) l 0). change (nth (Datatypes.S k) (?u :: ?l) 0) with (nth k l 0).
  apply (IH ys); lia.
Qed.
Lemma cumtrapz_step ys xs k : length ys = length xs -> (Datatypes.S k < length xs)%nat ->
  nth (Datatypes.S k) (cumtrapz ys xs) 0 - nth k (cumtrapz ys xs) 0 = (nth (Datatypes.S k) xs 0 - nth k xs 0) * (nth k ys 0 + nth (Datatypes.S k) ys 0) / 2.
Proof.
  destruct xs as [|x xs], ys as [|y ys]; cbn [length]; intros E Hk; try lia. unfold cumtrapz. apply cumtrapz_from_step; lia.
Qed.
(** Adding a constant to the integrand. *)
Lemma cumtrapz_shift ys zs xs c : length ys = length xs -> length zs = length xs ->
  (forall k, (k < length xs)%nat -> nth k zs 0 = nth k ys 0 + c) ->
  forall k, (k < length xs)%nat -> nth k (cumtrapz zs xs) 0 = nth k (cumtrapz ys xs) 0 + c * (nth k xs 0 - nth 0 xs 0).
Proof.
  intros Ly Lz Hz. induction k as [|k IH]; intros Hk.
  - rewrite !cumtrapz_hd. ring.
  - pose proof (cumtrapz_step ys xs k Ly Hk) as A. pose proof (cumtrapz_step zs xs k Lz Hk) as B.
    rewrite !Hz in B by lia. specialize (IH ltac:(lia)). lra.
Qed.
Lemma nth_inner l k : (k < length l - 2)%nat -> nth k (inner l) 0 = nth (Datatypes.S k) l 0.
Proof.
  intros H. unfold inner. destruct l as [|a l]; [cbn in H; lia|]. cbn [tl nth length] in *.
  destruct (exists_last (l := l)) as (t & z & ->); [intros ->; cbn in H; lia|]. rewrite removelast_last.
  rewrite app_length in H. cbn in H. rewrite app_nth1 by lia. reflexivity.
Qed.
Lemma mapM_nth {A} (f : A -> result R) l bs k d : mapM f l = Ok bs -> (k < length l)%nat -> f (nth k l d) = Ok (nth k bs 0).
Proof.
  revert bs k. induction l as [|a l IH]; intros bs k E Hk; cbn in *; [lia|].
  apply rbind_ok in E as (c & Ec & E). apply rbind_ok in E as (cs & E2 & E). injection E as <-. destruct k as [|k]; cbn; [exact Ec|]. apply IH; [exact E2|lia].
Qed.
Lemma rigid_at_nth e xs l k : rigid_at e xs = Ok l -> (k < length xs)%nat -> rigid_value e (nth k xs 0) (nth k l 0).
Proof.
  destruct e as [c|s]; cbn; intros H Hk.
  - injection H as <-. rewrite (nth_indep _ 0 c) by (rewrite map_length; exact Hk). rewrite (map_nth (fun _ => c) xs 0 k). reflexivity.
  - exact (mapM_nth _ _ _ _ 0 H Hk).
Qed.
Lemma nth_map_R (f : R -> R) l k : (k < length l)%nat -> nth k (map f l) 0 = f (nth k l 0).
Proof. intros H. rewrite (nth_indep _ 0 (f 0)) by (rewrite map_length; exact H). apply map_nth. Qed.
Lemma imposed_fold lds x : forall s, fold_left (fun s ld => match ld with LIC k _ => s + kappa_imp k x | _ => s end) lds s = s + imposed lds x.
Proof.
  induction lds as [|ld lds IH]; intros s; [cbn; ring|]. cbn [fold_left]. rewrite IH. unfold imposed, lsum. cbn. destruct ld; ring.
Qed.

Lemma member_values_recovered gl m lds f d npts sp r : member_values gl m lds f d npts sp = Ok r -> 0 < mb_L m -> (0 < npts)%nat ->
  recovered m lds 0 (d 0%nat) (d 1%nat) (d 2%nat) r.
Proof.
  intros H HL Hn. pose proof (member_values_table _ _ _ _ _ _ _ _ H) as T. revert H.
  unfold member_values. set (xs := stations (mb_L m) npts sp) in *. intros H.
  set (res := fold_left _ lds _) in H.
  assert (T0 : table (mb_L m) xs (fun x => (f 1%nat + f 3%nat) / mb_L m + V_all (mb_L m) lds x)
    (fun x => ((f 1%nat + f 3%nat) / mb_L m * x - f 1%nat) + M_all (mb_L m) lds x) res).
  { apply loads_table. exact (load_table (mb_L m) xs (LMaMb (f 1%nat) (f 3%nat))). }
  clearbody res. assert (N : (4 <= length xs)%nat) by (unfold xs; rewrite stations_len; lia).
  assert (X0 : nth 1 xs 0 = 0). { pose proof (sg_second _ _ _ _ (stations_grid (mb_L m) npts sp 0 ltac:(lra) Hn)) as Q. rewrite nth_map_R in Q by (fold xs; lia). fold xs in Q. lra. }
  assert (X1 : nth (length xs - 2) xs 0 = mb_L m). { pose proof (sg_before_last _ _ _ _ (stations_grid (mb_L m) npts sp 0 ltac:(lra) Hn)) as Q. rewrite nth_map_R in Q by (rewrite stations_len; lia). rewrite <- (stations_len (mb_L m) npts sp) in Q. fold xs in Q. lra. }
  apply rbind_ok in H as (cs & _ & H). apply rbind_ok in H as (ei & Hei & H). apply rbind_ok in H as (g & Hg & H).
  pose proof (rigid_at_len _ _ _ Hei) as Lei. destruct T0 as [t1 (t2 & t3 & t4 & t5) t6 t7]. clear T t6 t7.
  set (kap := map _ xs) in H. assert (Hk : length kap = length xs) by apply map_length.
  assert (NK : forall k, (k < length xs)%nat -> nth k kap 0 = imposed lds (nth k xs 0)).
  { intros k Hkk. unfold kap. rewrite (nth_map_R _ xs k Hkk). rewrite imposed_fold. ring. }
  clearbody kap. set (n2 := (length xs - 2)%nat) in *.
  assert (XI : length (inner xs) = n2) by apply inner_len.
  assert (Gl : length g = n2 /\ forall k, (k < n2)%nat -> shear_strain m (nth (Datatypes.S k) xs 0) (nth (Datatypes.S k) (r_V res) 0) (nth k g 0)).
  { unfold shear_strain. destruct (mb_GAv m) as [ga|].
    - apply rbind_ok in Hg as (gs & Hgs & Hg). injection Hg as <-. pose proof (rigid_at_len _ _ _ Hgs) as Lgs. rewrite XI in Lgs.
      assert (LI : length (inner (r_V res)) = n2) by (rewrite inner_len, t2; reflexivity).
      split; [apply map2_len; assumption|]. intros k Hkk. exists (nth k gs 0). split.
      + rewrite <- nth_inner by exact Hkk. apply rigid_at_nth; [exact Hgs|rewrite XI; exact Hkk].
      + rewrite (map2_nth _ _ _ n2) by assumption. rewrite nth_inner by (rewrite t2; exact Hkk). reflexivity.
    - injection Hg as <-. split; [rewrite map_length; exact XI|]. intros k Hkk. rewrite nth_map_R by (rewrite XI; exact Hkk). reflexivity. }
  destruct Gl as [Gl GS]. assert (UG := Hg). clear Hg. injection H as <-.
  set (curv := map2 Rplus (map2 Rdiv (r_M res) ei) kap).
  assert (LC : length curv = length xs) by (apply map2_len; [apply map2_len; [exact t3|exact Lei]|exact Hk]).
  assert (NC : forall k, (k < length xs)%nat -> curvature m lds (nth k xs 0) (nth k (r_M res) 0) (nth k curv 0)).
  { intros k Hkk. exists (nth k ei 0). split; [apply rigid_at_nth; assumption|].
    unfold curv. rewrite (map2_nth _ _ _ (length xs)); [|apply map2_len; assumption|assumption|assumption].
    rewrite (map2_nth _ _ _ (length xs)) by assumption. rewrite NK by exact Hkk. reflexivity. }
  clearbody curv.
  set (prov := cumtrapz (inner curv) (inner xs)).
  assert (Pl : length prov = n2) by (unfold prov; rewrite cumtrapz_len; rewrite !inner_len, ?LC; reflexivity).
  assert (PH : nth 0 prov 0 = 0) by apply cumtrapz_hd.
  assert (PS : forall k, (Datatypes.S k < n2)%nat -> nth (Datatypes.S k) prov 0 - nth k prov 0 =
     (nth (Datatypes.S (Datatypes.S k)) xs 0 - nth (Datatypes.S k) xs 0) * (nth (Datatypes.S k) curv 0 + nth (Datatypes.S (Datatypes.S k)) curv 0) / 2).
  { intros k Hkk. unfold prov. rewrite cumtrapz_step; [|rewrite !inner_len, LC; reflexivity|rewrite XI; exact Hkk].
    rewrite !nth_inner by (rewrite ?LC; fold n2; lia). reflexivity. }
  clearbody prov.
  set (psi := if Nat.ltb 1 (mb_type m) then _ else _).
  assert (PSI : exists c, psi = map (fun p => p + c) prov /\ ((mb_type m <= 1)%nat -> c = d 1%nat) /\
    ((1 < mb_type m)%nat -> end_matched m lds xs -> c = (d 2%nat - d 0%nat - last (cumtrapz (map2 Rplus prov g) (inner xs)) 0) / mb_L m)).
  { unfold psi. destruct (Nat.ltb 1 (mb_type m)) eqn:E1.
    - apply Nat.ltb_lt in E1. destruct (is_sect (mb_EI m) || nonzero kap || _) eqn:E2.
      + eexists. split; [reflexivity|]. split; [lia|auto].
      + eexists. split; [reflexivity|]. split; [lia|]. intros _ EM. exfalso. apply orb_false_iff in E2 as [E2 E3]. apply orb_false_iff in E2 as [E2 E4].
        destruct EM as [(s & Es)|[(ga & Eg)|(x & Hx & Ex)]].
        * rewrite Es in E2. discriminate.
        * rewrite Eg in E3. discriminate.
        * apply (In_nth _ _ 0) in Hx. destruct Hx as (k & Hkk & Ek). apply Ex. rewrite <- Ek, <- NK by exact Hkk.
          destruct (Req_dec (nth k kap 0) 0) as [Z|Z]; [exact Z|exfalso].
          assert (nonzero kap = true); [|congruence]. apply existsb_exists. exists (nth k kap 0). split; [apply nth_In; lia|].
          unfold Reqb. destruct (Req_EM_T _ _); [contradiction|reflexivity].
    - apply Nat.ltb_ge in E1. eexists. split; [reflexivity|]. split; [reflexivity|lia]. }
  clearbody psi. destruct PSI as (c & -> & C1 & C2).
  set (psi := map (fun p => p + c) prov) in *. assert (Lp : length psi = n2) by (unfold psi; rewrite map_length; exact Pl).
  assert (NP : forall k, (k < n2)%nat -> nth k psi 0 = nth k prov 0 + c) by (intros k Hkk; unfold psi; apply nth_map_R; lia).
  clearbody psi.
  set (pg := map2 Rplus psi g). assert (Lpg : length pg = n2) by (apply map2_len; assumption).
  assert (NPG : forall k, (k < n2)%nat -> nth k pg 0 = nth k psi 0 + nth k g 0) by (intros k Hkk; apply (map2_nth _ _ _ n2); assumption).
  clearbody pg.
  set (D := map _ (cumtrapz pg (inner xs))).
  assert (LCD : length (cumtrapz pg (inner xs)) = n2) by (rewrite cumtrapz_len; [exact XI|rewrite XI; exact Lpg]).
  assert (LD : length D = n2) by (unfold D; rewrite map_length; exact LCD).
  assert (ND : forall k, (k < n2)%nat -> nth k D 0 = nth k (cumtrapz pg (inner xs)) 0 + d 0%nat) by (intros k Hkk; unfold D; apply nth_map_R; lia).
  clearbody D.
  assert (NR : forall k, (k < n2)%nat -> nth (Datatypes.S k) (set_inner (r_R res) psi) 0 = nth k psi 0).
  { intros k Hkk. apply nth_set_inner; rewrite ?t4; fold n2; lia. }
  assert (NDD : forall k, (k < n2)%nat -> nth (Datatypes.S k) (set_inner (r_D res) D) 0 = nth k D 0).
  { intros k Hkk. apply nth_set_inner; rewrite ?t5; fold n2; lia. }
  exists (fun k => nth k curv 0), (fun k => nth (k - 1) g 0). cbn [r_x r_V r_M r_R r_D]. rewrite t1.
  repeat apply conj.
  - intros k Hkk. split; [rewrite Rminus_0_r; apply NC; lia|]. rewrite Rminus_0_r. destruct k as [|k]; [lia|].
    replace (Datatypes.S k - 1)%nat with k by lia. apply GS. unfold n2. lia.
  - intros k Hkk. destruct k as [|k]; [lia|]. replace (Datatypes.S k + 1)%nat with (Datatypes.S (Datatypes.S k)) by lia.
    replace (Datatypes.S k - 1)%nat with k by lia. replace (Datatypes.S (Datatypes.S k) - 1)%nat with (Datatypes.S k) by lia.
    rewrite !NR, !NDD by (unfold n2; lia). rewrite !NP, !ND by (unfold n2; lia). split.
    + rewrite <- PS by (unfold n2; lia). ring.
    + replace (_ + d 0%nat - _) with (nth (Datatypes.S k) (cumtrapz pg (inner xs)) 0 - nth k (cumtrapz pg (inner xs)) 0) by ring.
      rewrite cumtrapz_step by (rewrite XI; unfold n2 in *; lia). rewrite !nth_inner, !NPG, !NP by (unfold n2; lia). reflexivity.
  - rewrite NDD, ND by (unfold n2; lia). rewrite cumtrapz_hd. ring.
  - intros Ht. rewrite NR, NP, PH, C1 by (unfold n2; lia). ring.
  - intros Ht EM0. assert (EM : end_matched m lds xs).
    { destruct EM0 as [E|[E|(x & Hx & E)]]; [left; exact E|right; left; exact E|]. right. right. exists x. split; [|exact E].
      apply in_map_iff in Hx. destruct Hx as (y & <- & Hy). rewrite Rminus_0_r. exact Hy. }
    assert (E2 : Datatypes.S (n2 - 1) = n2) by (unfold n2; lia).
    assert (X1' : nth (Datatypes.S (n2 - 1)) xs 0 = mb_L m) by (rewrite E2; exact X1).
    assert (Y : nth n2 (set_inner (r_D res) D) 0 = nth (n2 - 1) D 0) by (rewrite <- E2 at 1; apply NDD; lia).
    change (nth n2 (set_inner (r_D res) D) 0 = d 2%nat). rewrite Y, ND by lia.
    rewrite (cumtrapz_shift (map2 Rplus prov g) pg (inner xs) c).
    + rewrite !nth_inner by (unfold n2; lia). rewrite X0, X1', C2 by assumption.
      rewrite <- last_nth; [|intros E; apply (f_equal (@length R)) in E; rewrite cumtrapz_len in E; [rewrite XI in E; assert (NZ : n2 <> 0%nat) by (unfold n2; lia); exact (NZ E)|rewrite XI; apply map2_len; assumption]].
      rewrite cumtrapz_len by (rewrite XI; apply map2_len; assumption). rewrite XI. field. lra.
    + rewrite XI. apply map2_len; assumption.
    + rewrite XI. exact Lpg.
    + intros k Hkk. rewrite XI in Hkk. rewrite NPG, NP, (map2_nth _ _ _ n2) by assumption. ring.
    + rewrite XI. lia.
Qed.
Lemma recovered_shift m lds d0 d1 d2 r c : recovered m lds 0 d0 d1 d2 r -> recovered m lds c d0 d1 d2 (shift_x c r).
Proof.
  intros (curv & gam & A & B & C & D & E). exists curv, gam. cbn [shift_x r_x r_V r_M r_R r_D]. rewrite map_length.
  repeat apply conj.
  - intros k Hk. rewrite shift_nth by lia. pose proof (A k Hk) as Q. rewrite Rminus_0_r in Q. exact Q.
  - intros k Hk. rewrite !(nth_map_R (fun x => x + c)) by lia. replace (_ + c - _) with (nth (k + 1) (r_x r) 0 - nth k (r_x r) 0) by ring. exact (B k Hk).
  - exact C.
  - exact D.
  - intros Ht EM. apply E; [exact Ht|]. destruct EM as [X|[X|(x & Hx & X)]]; [left; exact X|right; left; exact X|right; right].
    exists x. split; [|exact X]. rewrite map_map in Hx. apply in_map_iff in Hx. destruct Hx as (y & <- & Hy). apply in_map_iff. exists y. split; [ring|exact Hy].
Qed.
Lemma analyze_recovered gl ill a sps npts check a' br i r mb ls :
  analyze gl ill a sps npts check = (a', Ok br) -> (0 < an_npts a')%nat ->
  member_at (an_beam a) i = Ok mb -> 0 < mb_L mb -> mb_kf mb = None -> parsed_loads (an_beam a) = Ok ls ->
  nth_error (br_mem br) i = Some r ->
  recovered mb (loads_of ls i) (node_x (an_beam a) i) (br_D br (2 * i)%nat) (br_D br (2 * i + 1)%nat) (br_D br (2 * i + 2)%nat) r.
Proof.
  intros H Hp Em HL Hk Els Hr. destruct (analyze_split _ _ _ _ _ _ _ _ H) as (o & Ho & Hv & _ & ED & _).
  destruct (analyze_core_state _ _ _ _ _ _ _ Ho) as (EB & _ & _ & EP). rewrite EB in Hv.
  destruct (member_analysis_spec _ _ _ _ _ _ _ Hv) as (ls' & Hls & Hlen & Hs). rewrite Els in Hls. injection Hls as <-.
  assert (Hi : (i < b_nspans (an_beam a))%nat) by (rewrite <- Hlen; apply nth_error_Some; rewrite Hr; discriminate).
  destruct (Hs i Hi) as (m & f & r' & (Hm & Hn & Hf & Hres) & Hr'). rewrite Hr in Hr'. injection Hr' as ->.
  rewrite Em in Hm. injection Hm as <-. unfold member_results in Hres. rewrite Hk in Hres.
  pose proof (member_values_recovered _ _ _ _ _ _ _ _ Hres HL Hp) as Q. cbv beta in Q. rewrite Nat.add_0_r in Q. rewrite ED.
  apply recovered_shift, Q.
Qed.

(** Reading the left end of the encastre span. *)
Lemma read_left_wrong : exists c a a' br e, analysis_init c = Ok a /\ analyze sample_gl (fun _ _ => false) a (fun _ => []) None false = (a', Ok br) /\
  members (an_beam a) (an_n a) sound_member /\ loads_on_members (an_beam a) (an_n a) /\
  member_forces sample_gl (an_beam a) (br_D br) 0 = Ok e /\ read_at 0 (r_x (br_all br)) (r_M (br_all br)) <> - e 1%nat.
Proof.
  destruct (ff_results sample_gl (fun _ _ => false) (fun _ => [])) as (a' & br & e & E & EP & Ee & E1).
  exists ff_ctor, ff, a', br, e. split; [reflexivity|]. split; [exact E|]. split; [|split; [|split; [exact Ee|]]].
  - intros i mb Hi Em. exact (proj1 (proj2 (ff_member i mb Em))).
  - intros ls m El Hm. replace m with 0%nat by (cbn in Hm; lia). injection El as <-. cbn. constructor; [exact I|constructor].
  - rewrite (proj1 (read_left_end _ _ _ _ _ _ _ _ E ltac:(rewrite EP; lia)
      (fun i mb Hi Em => let (_, q) := ff_member i mb Em in conj (sm_L _ (proj1 q)) (sm_kf _ (proj1 q))) ltac:(cbn; lia))). rewrite E1. lra.
Qed.
