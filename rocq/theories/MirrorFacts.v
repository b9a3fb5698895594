(** Mirroring a bent member. *)
From Coquelicot Require Import Coquelicot.
From Coq Require Import Lia Permutation.
From Verif Require Import Base BaseFacts SectionModel LoadModel LoadSpec LoadFacts DiagFacts ElementModel ElementSpec ResultsSpec ExactSpec ExactFacts MeshFacts MirrorSpec.
Open Scope R_scope.

Lemma RInt_flip (F : R -> R) L a b I : is_RInt F a b I -> is_RInt (fun u => F (L - u)) (L - b) (L - a) I.
Proof.
  intros H. assert (H' := is_RInt_swap _ _ _ _ H).
  assert (E1 : b = -1 * (L - b) + L) by ring. assert (E2 : a = -1 * (L - a) + L) by ring.
  rewrite E1 in H' at 1. rewrite E2 in H' at 1. apply is_RInt_comp_lin in H'. apply is_RInt_opp in H'. rewrite opp_opp in H'.
  eapply is_RInt_ext; [|exact H']. intros u _. unfold opp, scal. cbn. unfold mult. cbn. replace (-1 * u + L) with (L - u) by ring. ring.
Qed.

Lemma left_mirror L t g l c : (forall p, In p l -> snd p <> L - t) ->
  left_of t g (map (fun p => (c * fst p, L - snd p)) l) = c * (lsum (map (fun p => fst p * g (L - snd p)) l) - left_of (L - t) (fun a => g (L - a)) l).
Proof.
  intros H. unfold left_of. rewrite map_map. induction l as [|p l IH]; [cbn; ring|]. cbn [map]. rewrite !lsum_cons, IH by (intros q Hq; apply H; right; exact Hq).
  cbn [fst snd]. assert (snd p <> L - t) by (apply H; left; reflexivity). destruct (Rlt_dec (L - snd p) t), (Rlt_dec (snd p) (L - t)); try lra; ring.
Qed.
Lemma lsum_lin {T} (f g : T -> R) a b l : lsum (map (fun p => a * f p + b * g p) l) = a * lsum (map f l) + b * lsum (map g l).
Proof. induction l as [|p l IH]; [cbn; ring|]. cbn [map]. rewrite !lsum_cons, IH. ring. Qed.

Section Mirror.
Variables (L : R) (A A' : action).
Hypothesis HL : 0 < L.
Hypothesis HS : smooth L (intensity A).
Hypothesis Q : forall t, 0 < t < L -> intensity A' t = intensity A (L - t).
Hypothesis PF : Permutation (forces A') (map (fun p => (fst p, L - snd p)) (forces A)).
Hypothesis PM : Permutation (moments A') (map (fun p => (- fst p, L - snd p)) (moments A)).

Lemma PF' : Permutation (forces A') (map (fun p => (1 * fst p, L - snd p)) (forces A)).
Proof. erewrite map_ext; [exact PF|]. intros p. cbn. f_equal. ring. Qed.
Lemma PM' : Permutation (moments A') (map (fun p => (-1 * fst p, L - snd p)) (moments A)).
Proof. erewrite map_ext; [exact PM|]. intros p. cbn. f_equal. ring. Qed.

Lemma flip_int (w : R -> R) t : 0 <= t <= L -> ex_RInt (fun u => w u * intensity A u) 0 L ->
  is_RInt (fun u => w (L - u) * intensity A' u) 0 t (RInt (fun u => w u * intensity A u) 0 L - RInt (fun u => w u * intensity A u) 0 (L - t)).
Proof.
  intros Ht E. assert (E0 := RInt_correct (V := R_CompleteNormedModule) _ _ _ E).
  assert (E1 := RInt_correct (V := R_CompleteNormedModule) _ _ _ (ex_RInt_Chasles_1 (V := R_CompleteNormedModule) _ 0 (L - t) L ltac:(lra) E)).
  assert (E2 := RInt_flip _ L _ _ _ (RInt_end _ _ _ _ _ _ E1 E0)). replace (L - L) with 0 in E2 by ring. replace (L - (L - t)) with t in E2 by ring.
  eapply is_RInt_ext; [|exact E2]. intros u Hu. rewrite Rmin_left, Rmax_right in Hu by lra. cbv beta. rewrite Q by lra. reflexivity.
Qed.
Lemma flip_plain t : 0 <= t <= L -> is_RInt (intensity A') 0 t (RInt (intensity A) 0 L - RInt (intensity A) 0 (L - t)).
Proof.
  intros Ht. rewrite (plain_mult (intensity A) 0 L), (plain_mult (intensity A) 0 (L - t)). refine (RInt_ext_all _ _ _ _ _ _ (flip_int (fun _ => 1) t Ht _)).
  - intros u. apply Rmult_1_l.
  - eapply ex_RInt_ext; [|exact (proj1 HS)]. intros u _. symmetry. apply Rmult_1_l.
Qed.
Lemma arm_at (c x : R) : 0 <= x <= L -> RInt (fun u => (c - u) * intensity A u) 0 x = RInt (fun u => (x - u) * intensity A u) 0 x + (c - x) * RInt (intensity A) 0 x.
Proof.
  intros Hx. apply (is_RInt_unique (V := R_CompleteNormedModule)).
  eapply is_RInt_ext; [|exact (is_RInt_plus _ _ _ _ _ _ (smooth_arm L _ x Hx HS) (is_RInt_scal _ _ _ (c - x) _ (smooth_sum L _ x Hx HS)))].
  intros u _. unfold plus, scal. cbn. unfold mult. cbn. ring.
Qed.
Lemma flip_arm t : 0 <= t <= L -> is_RInt (fun u => (t - u) * intensity A' u) 0 t
  (RInt (fun u => (L - t - u) * intensity A u) 0 (L - t) - RInt (fun u => (L - u) * intensity A u) 0 L + t * RInt (intensity A) 0 L).
Proof.
  intros Ht. assert (EX : ex_RInt (fun u => (t - (L - u)) * intensity A u) 0 L).
  { eapply ex_RInt_ext; [|exact (smooth_lin L _ (t - L) 1 HS)]. intros u _. cbv beta. inR. ring. }
  assert (E := flip_int (fun u => t - (L - u)) t Ht EX).
  assert (N : forall x, 0 <= x <= L -> RInt (fun u => (t - (L - u)) * intensity A u) 0 x = - RInt (fun u => (L - t - u) * intensity A u) 0 x).
  { intros x Hx. apply (is_RInt_unique (V := R_CompleteNormedModule)).
    assert (X : ex_RInt (fun u => (L - t - u) * intensity A u) 0 x).
    { eapply ex_RInt_ext; [|exact (smooth_lin x _ (L - t) (-1) (smooth_sub L _ x Hx HS))]. intros u _. cbv beta. inR. ring. }
    eapply is_RInt_ext; [|exact (is_RInt_opp _ _ _ _ (RInt_correct (V := R_CompleteNormedModule) _ _ _ X))]. intros u _. unfold opp. cbn. ring. }
  rewrite !N in E by lra. rewrite (arm_at (L - t) L) in E by lra.
  eapply is_RInt_eqval; [refine (RInt_ext_all _ _ _ _ _ _ E)|].
  - intros u. cbv beta. replace (L - (L - u)) with u by ring. reflexivity.
  - inR. ring.
Qed.

Variable f : vec.
Hypothesis T : f 0%nat + f 2%nat = RInt (intensity A) 0 L + force_sum A.
Hypothesis T3 : f 3%nat = far_of L A (f 0%nat) (f 1%nat).

Lemma mirror_shear t : 0 <= t <= L -> away_from (L - t) (forces A) -> shear_of A' (f 2%nat) t = - shear_of A (f 0%nat) (L - t).
Proof.
  intros Ht Aw. unfold shear_of. rewrite (is_RInt_unique (V := R_CompleteNormedModule) _ _ _ _ (flip_plain t Ht)).
  rewrite (left_of_perm t _ _ _ PF'), left_mirror by exact Aw. rewrite ones. unfold force_sum in T. lra.
Qed.
Lemma mirror_moment t : 0 <= t <= L -> away_from (L - t) (moments A) ->
  moment_of A' (f 2%nat) (- f 3%nat) t = moment_of A (f 0%nat) (f 1%nat) (L - t).
Proof.
  intros Ht Am. unfold moment_of. rewrite (is_RInt_unique (V := R_CompleteNormedModule) _ _ _ _ (flip_arm t Ht)).
  rewrite (left_of_perm t _ _ _ PF'), (left_of_perm t _ _ _ PM'). rewrite (left_mirror L t _ (moments A) (-1)) by exact Am. rewrite ones.
  assert (W : left_of t (fun a => t - a) (map (fun p => (1 * fst p, L - snd p)) (forces A)) =
    t * force_sum A - arm_sum L A + left_of (L - t) (fun a => L - t - a) (forces A)).
  { clear. unfold left_of, force_sum, arm_sum. rewrite map_map. induction (forces A) as [|p l IH]; [cbn; ring|]. cbn [map]. rewrite !lsum_cons, IH. cbn [fst snd].
    destruct (Rlt_dec (L - snd p) t), (Rlt_dec (snd p) (L - t)); try ring; [lra|]. assert (snd p = L - t) by lra. replace t with (L - snd p) by lra. ring. }
  rewrite W. rewrite T3. unfold far_of, moment_sum. 
  assert (E : f 2%nat * t = - f 0%nat * t + t * RInt (intensity A) 0 L + t * force_sum A) by (replace (f 2%nat) with (RInt (intensity A) 0 L + force_sum A - f 0%nat) by lra; ring).
  rewrite E. ring.
Qed.
Lemma mirror_far : far_of L A' (f 2%nat) (- f 3%nat) = - f 1%nat.
Proof.
  unfold far_of. rewrite (is_RInt_unique (V := R_CompleteNormedModule) _ _ _ _ (flip_arm L ltac:(lra))).
  assert (W : arm_sum L A' = L * force_sum A - arm_sum L A).
  { unfold arm_sum at 1. rewrite (BaseFacts.lsum_perm _ _ (Permutation_map _ PF)), map_map. unfold force_sum, arm_sum.
    generalize (forces A). clear. induction l as [|p l IH]; [cbn; ring|]. cbn [map]. rewrite !lsum_cons, IH. cbn [fst snd]. ring. }
  assert (W2 : moment_sum A' = - moment_sum A).
  { unfold moment_sum at 1. rewrite (BaseFacts.lsum_perm _ _ (Permutation_map _ PM)), map_map. unfold moment_sum.
    generalize (moments A). clear. induction l as [|p l IH]; [cbn; ring|]. cbn [map]. rewrite !lsum_cons, IH. cbn [fst]. ring. }
  rewrite W, W2, T3. unfold far_of. replace (L - L) with 0 by ring. rewrite RInt_point.
  assert (E : f 2%nat * L = - f 0%nat * L + L * RInt (intensity A) 0 L + L * force_sum A) by (replace (f 2%nat) with (RInt (intensity A) 0 L + force_sum A - f 0%nat) by lra; ring).
  rewrite E. unfold zero. cbn. ring.
Qed.
Lemma mirror_total : RInt (intensity A') 0 L + force_sum A' = RInt (intensity A) 0 L + force_sum A.
Proof.
  rewrite (is_RInt_unique (V := R_CompleteNormedModule) _ _ _ _ (flip_plain L ltac:(lra))). replace (L - L) with 0 by ring. rewrite RInt_point.
  assert (W : force_sum A' = force_sum A) by (unfold force_sum; rewrite (BaseFacts.lsum_perm _ _ (Permutation_map _ PF)), map_map; reflexivity).
  rewrite W. unfold zero. cbn. ring.
Qed.
Lemma mirror_smooth : smooth L (intensity A').
Proof.
  split; [exists (RInt (intensity A) 0 L - RInt (intensity A) 0 (L - L)); apply flip_plain; lra|].
  eapply ex_RInt_ext; [|eexists; apply (flip_int (fun u => L - u) L ltac:(lra))].
  - intros u _. cbv beta. inR. ring.
  - eapply ex_RInt_ext; [|exact (smooth_lin L _ L (-1) HS)]. intros u _. cbv beta. inR. ring.
Qed.
End Mirror.

Lemma bent_mirror L ei ga k k' A A' f V M th y : 0 < L -> bent_member L ei ga k A f V M th y ->
  (forall t, 0 < t < L -> intensity A' t = intensity A (L - t)) ->
  Permutation (forces A') (map (fun p => (fst p, L - snd p)) (forces A)) -> Permutation (moments A') (map (fun p => (- fst p, L - snd p)) (moments A)) ->
  (forall t, 0 < t < L -> k' t = k (L - t)) ->
  exists V' M', bent_member L ei ga k' A' (vec4 (f 2%nat) (- f 3%nat) (f 0%nat) (- f 1%nat)) V' M' (fun t => - th (L - t)) (fun t => y (L - t)).
Proof.
  intros HL B Q PF PM K. assert (HS := bent_smooth _ _ _ _ _ _ _ _ _ _ B). destruct (bent_canon L ei ga k A f V M th y ltac:(lra) B) as (C & E3 & E2).
  exists (shear_of A' (f 2%nat)), (moment_of A' (f 2%nat) (- f 3%nat)).
  apply (canon_bent L ei ga k' A' (vec4 (f 2%nat) (- f 3%nat) (f 0%nat) (- f 1%nat))); cbn [vec4].
  - lra.
  - exact (mirror_smooth L A A' HL HS Q).
  - symmetry. exact (mirror_far L A A' HL HS Q PF PM f E2 E3).
  - rewrite (mirror_total L A A' HL HS Q PF). lra.
  - intros x Hx. assert (R1 := bm_rotation _ _ _ _ _ _ _ _ _ _ C (L - x) ltac:(lra)). assert (R2 := bm_rotation _ _ _ _ _ _ _ _ _ _ C L ltac:(lra)).
    assert (R3 := RInt_flip _ L _ _ _ (RInt_end _ _ _ _ _ _ R1 R2)). replace (L - L) with 0 in R3 by ring. replace (L - (L - x)) with x in R3 by ring.
    apply (is_RInt_eqval _ _ _ (th L - th 0 - (th (L - x) - th 0))); [|rewrite Rminus_0_r; inR; ring].
    apply (RInt_except (map (fun p => L - snd p) (moments A)) (fun u => moment_of A (f 0%nat) (f 1%nat) (L - u) / ei + k (L - u))); [lra| |exact R3].
    intros t Ht Hn. rewrite (mirror_moment L A A' HL HS Q PF PM f E2 E3); [rewrite K by lra; reflexivity|lra|].
    intros p Hp E. apply Hn. apply in_map_iff. exists p. split; [rewrite E; ring|exact Hp].
  - intros x Hx. assert (R1 := bm_deflection _ _ _ _ _ _ _ _ _ _ C (L - x) ltac:(lra)). assert (R2 := bm_deflection _ _ _ _ _ _ _ _ _ _ C L ltac:(lra)).
    assert (R3 := is_RInt_opp _ _ _ _ (RInt_flip _ L _ _ _ (RInt_end _ _ _ _ _ _ R1 R2))). replace (L - L) with 0 in R3 by ring. replace (L - (L - x)) with x in R3 by ring.
    apply (is_RInt_eqval _ _ _ (opp (y L - y 0 - (y (L - x) - y 0)))); [|rewrite Rminus_0_r; match goal with |- opp ?x = _ => change (opp x) with (- x) end; inR; ring].
    apply (RInt_except (map (fun p => L - snd p) (forces A)) (fun u => opp (th (L - u) - shear_angle ga (shear_of A (f 0%nat) (L - u))))); [lra| |exact R3].
    intros t Ht Hn. rewrite (mirror_shear L A A' HS Q PF f E2); [rewrite !angle_flex; match goal with |- opp ?x = _ => change (opp x) with (- x) end; inR; ring|lra|].
    intros p Hp E. apply Hn. apply in_map_iff. exists p. split; [rewrite E; ring|exact Hp].
Qed.
