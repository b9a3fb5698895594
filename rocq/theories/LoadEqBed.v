(** Facts for C88: loads of a member on an elastic foundation replaced by others that say the same. *)
From Coq Require Import Lia ZArith Permutation FunctionalExtensionality.
From Verif Require Import Base BaseFacts Linalg SectionModel FlexModel LoadModel LoadSpec FoundationModel ElementModel UtilsModel BeamModel AnalysisModel AnalysisFacts LinearFacts SuperFacts ResultsModel ResultsFacts CombFacts
  LoadEqSpec LoadEqFacts LoadEqFacts2 LoadEqFacts3 LoadEqFacts4 LoadEqFacts5.
Open Scope R_scope.

Section S.
Variable gl : nat -> list (R * R).

(** Loads of one sub-element of length [h] that give the same end forces and diagrams. *)
Definition alike (h : R) (s t : list load) : Prop :=
  sum_refs gl s h 1 = sum_refs gl t h 1 /\ forall EI f d n, eb_values h EI f d s n = eb_values h EI f d t n.
(** Loads of a member that are alike on every sub-element. *)
Definition bed_alike (f : felem) (l k : list load) : Prop := forall e, (e < fe_n f)%nat ->
  match sub_loads f l e, sub_loads f k e with
  | Ok s, Ok t => alike (fe_h f) s t
  | Err x, Err y => x = y
  | _, _ => False
  end.
Lemma bed_alike_sym f l k : bed_alike f l k -> bed_alike f k l.
Proof. intros H e He. specialize (H e He). destruct (sub_loads f l e), (sub_loads f k e); auto. destruct H as [A B]. split; auto. Qed.

Section One.
Variables (f : felem) (l k : list load).
Hypothesis H : bed_alike f l k.
Lemma bed_refs : fe_refs gl f l = fe_refs gl f k.
Proof.
  unfold fe_refs. assert (E : forall es, (forall e, In e es -> (e < fe_n f)%nat) -> mapM (fun e => do sl <- sub_loads f l e; sum_refs gl sl (fe_h f) 1) es = mapM (fun e => do sl <- sub_loads f k e; sum_refs gl sl (fe_h f) 1) es).
  { induction es as [|e es IH]; intros HE; [reflexivity|]. cbn [mapM]. rewrite IH by (intros; apply HE; right; assumption).
    specialize (H e (HE e (or_introl eq_refl))). destruct (sub_loads f l e) as [s|], (sub_loads f k e) as [t|]; try contradiction; cbn [rbind].
    - rewrite (proj1 H). reflexivity.
    - subst. reflexivity. }
  apply E. intros e He. apply in_seq in He. lia.
Qed.
Lemma bed_rfull : fe_rfull gl f l = fe_rfull gl f k.
Proof. unfold fe_rfull. rewrite bed_refs. reflexivity. Qed.
Lemma bed_recover dr n : fe_recover gl f dr l n = fe_recover gl f dr k n.
Proof.
  unfold fe_recover, fe_dmesh. cbv zeta. rewrite bed_refs, bed_rfull. destruct (fe_refs gl f k) as [rs|]; cbn [rbind]; [|reflexivity].
  match goal with |- (do dm <- ?D; _) = _ => destruct D as [dm|]; cbn [rbind]; [|reflexivity] end.
  assert (E : forall es, (forall e, In e es -> (e < fe_n f)%nat) -> match mapM (fun e => sub_loads f l e) es, mapM (fun e => sub_loads f k e) es with
     | Ok p, Ok q => forall j, (j < length es)%nat -> alike (fe_h f) (nth j p []) (nth j q []) | Err x, Err y => x = y | _, _ => False end).
  { induction es as [|e es IH]; intros HE; [intros j Hj; cbn in Hj; lia|]. cbn [mapM]. specialize (IH (fun x Hx => HE x (or_intror Hx))).
    specialize (H e (HE e (or_introl eq_refl))). destruct (sub_loads f l e) as [s|], (sub_loads f k e) as [t|]; try contradiction; cbn [rbind]; [|exact H].
    destruct (mapM _ es), (mapM _ es); try contradiction; cbn [rbind]; [|exact IH]. intros [|j] Hj; [exact H|apply IH; cbn in Hj; lia]. }
  specialize (E (seq 0 (fe_n f)) ltac:(intros e He; apply in_seq in He; lia)). destruct (mapM _ _) as [p|], (mapM _ _) as [q|]; try contradiction; cbn [rbind]; [|subst; reflexivity].
  apply f_equal, f_equal, map_ext_in. intros e He. apply f_equal. apply in_seq in He. apply (E e). rewrite seq_length. lia.
Qed.
End One.

Section Member.
Variables (m : member) (kf : R).
Hypothesis HK : mb_kf m = Some kf.
Lemma on_bed l k : (forall f, foundation_of m kf = Ok f -> bed_alike f l k) -> same_on gl m l k /\ same_on gl m k l.
Proof.
  intros H. assert (A : span_ref gl m l = span_ref gl m k).
  { unfold span_ref. rewrite HK. destruct (foundation_of m kf) as [f|] eqn:E; cbn [rbind]; [|reflexivity]. unfold fe_ref. rewrite (bed_rfull f l k (H f eq_refl)). reflexivity. }
  assert (B : forall f d npts sp, member_results gl m l f d npts sp = member_results gl m k f d npts sp).
  { intros. unfold member_results. rewrite HK. destruct (foundation_of m kf) as [fe|] eqn:E; cbn [rbind]; [|reflexivity]. apply bed_recover. apply H. reflexivity. }
  split; split; intros *; rewrite ?A, ?B; auto.
Qed.
End Member.

(** ** Single loads *)
Definition sub_sum (f : felem) (ld l1 l2 : load) : Prop := forall e, (e < fe_n f)%nat ->
  (exists x, sub_load f ld e = Err x /\ sub_load f l1 e = Err x) \/
  (sub_load f ld e = Ok [] /\ sub_load f l1 e = Ok [] /\ sub_load f l2 e = Ok []) \/
  (exists x x1 x2, sub_load f ld e = Ok [x] /\ sub_load f l1 e = Ok [x1] /\ sub_load f l2 e = Ok [x2] /\ sums gl (fe_h f) x x1 x2).

Lemma cnl_add_assoc a b c : cnl_add a (cnl_add b c) = cnl_add (cnl_add a b) c.
Proof. unfold cnl_add. cbn. f_equal; ring. Qed.
Lemma within_ends h n : 0 < h -> within h (0 :: uniform h n ++ [h]).
Proof. intros Hh. constructor; [lra|]. apply Forall_app. split; [apply within_uniform, Hh|]. repeat constructor; lra. Qed.
Lemma release_fixed c L : release c L 1 = c.
Proof. destruct c. unfold release. cbn. f_equal; ring. Qed.
Lemma alike_sum h x x1 x2 z : 0 < h -> sums gl h x x1 x2 -> alike h (x :: z) (x1 :: x2 :: z).
Proof.
  intros Hh (_ & _ & _ & (c & c1 & c2 & C & C1 & C2 & EC) & HD). split.
  - unfold sum_refs, load_get_ref. cbn [foldM]. rewrite C, C1, C2. cbn [rbind]. rewrite !release_fixed, EC, cnl_add_assoc. reflexivity.
  - intros EI f d n. unfold eb_values. cbv zeta. cbn [fold_left]. rewrite (HD _ (within_ends h n Hh)), mres_add_assoc. reflexivity.
Qed.
Lemma bed_sum f ld l1 l2 z : 0 < fe_h f -> sub_sum f ld l1 l2 -> bed_alike f (ld :: z) (l1 :: l2 :: z).
Proof.
  intros Hh H e He. unfold sub_loads. cbn [mapM]. destruct (H e He) as [(x & E & E1)|[(E & E1 & E2)|(x & x1 & x2 & E & E1 & E2 & HS)]]; rewrite E, E1.
  - reflexivity.
  - rewrite E2. cbn [rbind]. destruct (mapM _ z) as [p|]; cbn [rbind]; [|reflexivity]. cbn [concat app]. split; reflexivity.
  - rewrite E2. cbn [rbind]. destruct (mapM _ z) as [p|]; cbn [rbind]; [|reflexivity]. cbn [concat app]. apply alike_sum; assumption.
Qed.
Lemma bed_one f ld l1 z : (forall e, (e < fe_n f)%nat -> sub_load f ld e = sub_load f l1 e) -> bed_alike f (ld :: z) (l1 :: z).
Proof.
  intros H e He. unfold sub_loads. cbn [mapM]. rewrite (H e He). destruct (sub_load f l1 e); cbn [rbind]; [|reflexivity]. destruct (mapM _ z); cbn [rbind]; [|reflexivity]. split; reflexivity.
Qed.

Section Loads.
Variable f : felem.
Hypothesis (HL : 0 < fe_L f) (HN : (0 < fe_n f <= 400)%nat).
Lemma INR_n : 0 < INR (fe_n f) <= 400.
Proof. split; [apply lt_0_INR; lia|]. replace 400 with (INR 400) by (cbn; lra). apply le_INR. lia. Qed.
Lemma h_pos : 0 < fe_h f.
Proof. unfold fe_h. assert (N := INR_n). apply Rdiv_lt_0_compat; lra. Qed.
Lemma n_h : INR (fe_n f) * fe_h f = fe_L f.
Proof. unfold fe_h. assert (N := INR_n). field. lra. Qed.
Lemma bed_udl u v : sub_sum f (LUDL (u + v)) (LUDL u) (LUDL v).
Proof. intros e He. right. right. do 3 eexists. repeat (split; [reflexivity|]). apply sum_udl. Qed.
Lemma bed_point P Q a : sub_sum f (LPL (P + Q) a) (LPL P a) (LPL Q a).
Proof.
  intros e He. cbn [sub_load]. cbv zeta. destruct (py_index _ _) as [i|x]; cbn [rbind].
  - destruct (Nat.eqb i e); right; [right|left; auto]. do 3 eexists. repeat (split; [reflexivity|]). apply sum_point.
  - left. exists x. auto.
Qed.
Lemma bed_part u v a c : sub_sum f (LPUDL (u + v) a c) (LPUDL u a c) (LPUDL v a c).
Proof.
  intros e He. right. cbn [sub_load]. cbv zeta. set (lo := Rmax a (INR e * fe_h f)). set (hi := Rmin (a + c) ((INR e + 1) * fe_h f)).
  destruct (Rltb_spec (1e-12 * fe_L f) (hi - lo)) as [G|G]; [|left; auto]. right.
  destruct (isclose _ _ lo _ && isclose _ _ hi _).
  - do 3 eexists. repeat (split; [reflexivity|]). apply sum_udl.
  - do 3 eexists. repeat (split; [reflexivity|]). apply sum_part.
    assert (hi <= (INR e + 1) * fe_h f) by apply Rmin_r. assert (0 < 1e-12 * fe_L f) by lra. lra.
Qed.
Lemma isclose_self x : isclose 1e-5 1e-8 x x = true.
Proof. unfold isclose. rewrite Rminus_diag_eq, Rabs_R0 by reflexivity. destruct (Rleb_spec 0 (1e-8 + 1e-5 * Rabs x)); [reflexivity|]. exfalso. assert (0 <= Rabs x) by apply Rabs_pos. lra. Qed.
Lemma bed_whole w e : (e < fe_n f)%nat -> sub_load f (LUDL w) e = sub_load f (LPUDL w 0 (fe_L f)) e.
Proof.
  intros He. cbn [sub_load]. cbv zeta. assert (Hh := h_pos). assert (N := INR_n). assert (E := n_h). assert (P := pos_INR e).
  assert (I : INR e + 1 <= INR (fe_n f)) by (rewrite <- S_INR; apply le_INR; lia).
  rewrite Rmax_right by nra. rewrite Rmin_right by nra. rewrite !isclose_self. cbn [andb].
  destruct (Rltb_spec (1e-12 * fe_L f) ((INR e + 1) * fe_h f - INR e * fe_h f)) as [G|G]; [reflexivity|]. exfalso. apply G. rewrite <- E. nra.
Qed.
End Loads.

Lemma mesh_between L e k : (0 < auto_subdivisions L e k <= 400)%nat.
Proof. unfold auto_subdivisions. lia. Qed.
Lemma foundation_shape m kf f : 0 < mb_L m -> foundation_of m kf = Ok f -> fe_L f = mb_L m /\ 0 < fe_L f /\ (0 < fe_n f <= 400)%nat.
Proof.
  intros HL. unfold foundation_of. destruct (mb_EI m) as [e|]; [|discriminate]. destruct (mb_GAv m); [discriminate|]. destruct (negb _); [discriminate|]. intros E. injection E as <-. cbn.
  split; [reflexivity|]. split; [exact HL|apply mesh_between].
Qed.
End S.
