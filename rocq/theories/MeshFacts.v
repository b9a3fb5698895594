(** Cutting a bent member in two. *)
From Coquelicot Require Import Coquelicot.
From Coq Require Import Lia Permutation.
From Verif Require Import Base BaseFacts SectionModel LoadModel LoadSpec LoadFacts DiagFacts ElementModel ElementSpec ResultsSpec BedFacts2 ExactSpec ExactFacts MeshSpec.
Open Scope R_scope.

Lemma RInt_shift_back (F : R -> R) c a b I : is_RInt F (c + a) (c + b) I -> is_RInt (fun x => F (c + x)) a b I.
Proof.
  intros H. assert (Q := RInt_shift (fun x => F (c + x)) (- c) (c + a) (c + b) I).
  replace (- c + (c + a)) with a in Q by ring. replace (- c + (c + b)) with b in Q by ring. apply Q.
  refine (RInt_ext_all _ _ _ _ _ _ H). intros x. f_equal. ring.
Qed.

Definition force_sum (A : action) : R := lsum (map fst (forces A)).
Definition moment_sum (A : action) : R := lsum (map fst (moments A)).
Definition arm_sum (x : R) (A : action) : R := lsum (map (fun pa => fst pa * (x - snd pa)) (forces A)).

(** Shear and moment from equilibrium. *)
Definition shear_of (A : action) (va : R) (x : R) : R := va - RInt (intensity A) 0 x - left_of x (fun _ => 1) (forces A).
Definition moment_of (A : action) (va ma : R) (x : R) : R :=
  - ma + va * x - RInt (fun t => (x - t) * intensity A t) 0 x - left_of x (fun a => x - a) (forces A) - left_of x (fun _ => 1) (moments A).
Definition far_of (L : R) (A : action) (va ma : R) : R :=
  - ma + va * L - RInt (fun t => (L - t) * intensity A t) 0 L - arm_sum L A - moment_sum A.

Definition smooth (L : R) (q : R -> R) : Prop := ex_RInt q 0 L /\ ex_RInt (fun t => t * q t) 0 L.
Lemma smooth_lin L q c d : smooth L q -> ex_RInt (fun t => (c + d * t) * q t) 0 L.
Proof.
  intros [H1 H2]. eapply ex_RInt_ext; [|exact (ex_RInt_plus _ _ _ _ (ex_RInt_scal q 0 L c H1) (ex_RInt_scal _ 0 L d H2))].
  intros t _. unfold plus, scal. cbn. unfold mult. cbn. ring.
Qed.
Lemma smooth_sub L q x : 0 <= x <= L -> smooth L q -> smooth x q.
Proof. intros Hx [H1 H2]. split; [exact (ex_RInt_Chasles_1 (V := R_CompleteNormedModule) _ 0 x L Hx H1)|exact (ex_RInt_Chasles_1 (V := R_CompleteNormedModule) _ 0 x L Hx H2)]. Qed.
Lemma smooth_arm L q x : 0 <= x <= L -> smooth L q -> is_RInt (fun t => (x - t) * q t) 0 x (RInt (fun t => (x - t) * q t) 0 x).
Proof.
  intros Hx H. apply (RInt_correct (V := R_CompleteNormedModule)). eapply ex_RInt_ext; [|exact (smooth_lin x q x (-1) (smooth_sub _ _ _ Hx H))].
  intros t _. cbv beta. inR. ring.
Qed.
Lemma smooth_sum L q x : 0 <= x <= L -> smooth L q -> is_RInt q 0 x (RInt q 0 x).
Proof. intros Hx H. apply (RInt_correct (V := R_CompleteNormedModule)). exact (proj1 (smooth_sub _ _ _ Hx H)). Qed.
Lemma bent_smooth L ei ga k A f V M th y : bent_member L ei ga k A f V M th y -> smooth L (intensity A).
Proof.
  intros [[_ _ (J & HJ & _)] (I & HI & _) _ _]. 
  assert (E1 : ex_RInt (intensity A) 0 L) by (exists I; refine (RInt_ext_all _ _ _ _ _ _ HI); intros t; apply Rmult_1_l).
  split; [exact E1|]. eapply ex_RInt_ext; [|exact (ex_RInt_minus _ _ _ _ (ex_RInt_scal _ 0 L L E1) (ex_intro _ J HJ))].
  intros t _. unfold minus, plus, opp, scal. cbn. unfold mult. cbn. ring.
Qed.

Lemma canon_cut L A va ma : smooth L (intensity A) -> 0 <= L -> cut_equilibrium L A va ma (far_of L A va ma) (shear_of A va) (moment_of A va ma).
Proof.
  intros S HL. constructor.
  - intros x Hx _. exists (RInt (intensity A) 0 x). split; [exact (smooth_sum _ _ _ Hx S)|reflexivity].
  - intros x Hx _. exists (RInt (fun t => (x - t) * intensity A t) 0 x). split; [exact (smooth_arm _ _ _ Hx S)|reflexivity].
  - exists (RInt (fun t => (L - t) * intensity A t) 0 L). split; [apply (smooth_arm L); [lra|exact S]|reflexivity].
Qed.
Lemma bent_canon L ei ga k A f V M th y : 0 <= L -> bent_member L ei ga k A f V M th y ->
  bent_member L ei ga k A f (shear_of A (f 0%nat)) (moment_of A (f 0%nat) (f 1%nat)) th y /\
  f 3%nat = far_of L A (f 0%nat) (f 1%nat) /\ f 0%nat + f 2%nat = RInt (intensity A) 0 L + force_sum A.
Proof.
  intros HL B. assert (S := bent_smooth _ _ _ _ _ _ _ _ _ _ B).
  assert (E3 : f 3%nat = far_of L A (f 0%nat) (f 1%nat)).
  { destruct (ce_far_end _ _ _ _ _ _ _ (bm_cuts _ _ _ _ _ _ _ _ _ _ B)) as (I & HI & E). rewrite E. unfold far_of, arm_sum, moment_sum.
    rewrite (is_RInt_unique (V := R_CompleteNormedModule) _ _ _ _ HI). reflexivity. }
  split; [|split; [exact E3|]].
  - eapply bent_curves; [exact B|]. rewrite E3. exact (canon_cut L A _ _ S HL).
  - destruct (bm_total _ _ _ _ _ _ _ _ _ _ B) as (I & HI & E). rewrite E. 
    assert (HI' : is_RInt (intensity A) 0 L I) by (refine (RInt_ext_all _ _ _ _ _ _ HI); intros t; apply Rmult_1_l).
    rewrite (is_RInt_unique (V := R_CompleteNormedModule) _ _ _ _ HI').
    assert (Z : forall l : list (R * R), lsum (map (fun ma => fst ma * 0) l) = 0).
    { induction l as [|p l IH]; [reflexivity|]. cbn [map]. rewrite lsum_cons, IH. ring. }
    rewrite Z. unfold force_sum. rewrite (map_ext (fun pa : R * R => fst pa * 1) fst) by (intros p; apply Rmult_1_r). ring.
Qed.
Lemma canon_bent L ei ga k A f th y : 0 <= L -> smooth L (intensity A) -> f 3%nat = far_of L A (f 0%nat) (f 1%nat) ->
  f 0%nat + f 2%nat = RInt (intensity A) 0 L + force_sum A ->
  (forall x, 0 <= x <= L -> is_RInt (fun t => moment_of A (f 0%nat) (f 1%nat) t / ei + k t) 0 x (th x - th 0)) ->
  (forall x, 0 <= x <= L -> is_RInt (fun t => th t - shear_angle ga (shear_of A (f 0%nat) t)) 0 x (y x - y 0)) ->
  bent_member L ei ga k A f (shear_of A (f 0%nat)) (moment_of A (f 0%nat) (f 1%nat)) th y.
Proof.
  intros HL S E3 E2 H1 H2. constructor; [rewrite E3; exact (canon_cut L A _ _ S HL)| |exact H1|exact H2].
  exists (RInt (intensity A) 0 L). split.
  - refine (RInt_ext_all _ _ _ _ _ _ (smooth_sum L _ L ltac:(lra) S)). intros t. symmetry. apply Rmult_1_l.
  - rewrite E2. unfold force_sum. rewrite (map_ext (fun pa : R * R => fst pa * 1) fst) by (intros p; apply Rmult_1_r).
    assert (Z : forall l : list (R * R), lsum (map (fun ma => fst ma * 0) l) = 0).
    { induction l as [|p l IH]; [reflexivity|]. cbn [map]. rewrite lsum_cons, IH. ring. }
    rewrite Z. ring.
Qed.

(** ** Actions cut in two *)
Section Cut.
Variables (L x : R) (A A1 A2 : action).
Hypothesis Hx : 0 < x < L.
Hypothesis HS : smooth L (intensity A).
Hypothesis Q1 : forall t, 0 < t < x -> intensity A1 t = intensity A t.
Hypothesis Q2 : forall t, 0 < t < L - x -> intensity A2 t = intensity A (x + t).
Hypothesis PF : Permutation (forces A) (forces A1 ++ map (moved x) (forces A2)).
Hypothesis PM : Permutation (moments A) (moments A1 ++ map (moved x) (moments A2)).
Hypothesis F1 : forall p, In p (forces A1) -> snd p <= x.
Hypothesis F2 : forall p, In p (forces A2) -> 0 <= snd p.
Hypothesis M1 : forall p, In p (moments A1) -> snd p <= x.
Hypothesis M2 : forall p, In p (moments A2) -> 0 <= snd p.

Lemma left_of_app u g l1 l2 : left_of u g (l1 ++ l2) = left_of u g l1 + left_of u g l2.
Proof. unfold left_of. rewrite map_app. apply lsum_app. Qed.
Lemma left_of_perm u g l1 l2 : Permutation l1 l2 -> left_of u g l1 = left_of u g l2.
Proof. intros P. unfold left_of. apply BaseFacts.lsum_perm, Permutation_map, P. Qed.
Lemma left_of_moved_none u g l : u <= x -> (forall p, In p l -> 0 <= snd p) -> left_of u g (map (moved x) l) = 0.
Proof.
  intros Hu H. unfold left_of. rewrite map_map. induction l as [|p l IH]; [reflexivity|]. cbn [map]. rewrite lsum_cons, IH by (intros q Hq; apply H; right; exact Hq).
  cbn [moved snd fst]. assert (0 <= snd p) by (apply H; left; reflexivity). destruct (Rlt_dec (x + snd p) u); [lra|ring].
Qed.
Lemma left_of_moved u g l : left_of (x + u) g (map (moved x) l) = left_of u (fun a => g (x + a)) l.
Proof.
  unfold left_of. rewrite map_map. f_equal. apply map_ext. intros p. cbn [moved fst snd]. destruct (Rlt_dec (x + snd p) (x + u)), (Rlt_dec (snd p) u); try reflexivity; lra.
Qed.
Lemma left_of_all u g l : (forall p, In p l -> snd p < u) -> left_of u g l = lsum (map (fun p => fst p * g (snd p)) l).
Proof.
  intros H. unfold left_of. induction l as [|p l IH]; [reflexivity|]. cbn [map]. rewrite !lsum_cons, IH by (intros q Hq; apply H; right; exact Hq).
  destruct (Rlt_dec (snd p) u) as [h|h]; [reflexivity|]. exfalso. apply h, H. left. reflexivity.
Qed.
Lemma left_of_ext u g h l : (forall a, g a = h a) -> left_of u g l = left_of u h l.
Proof. intros E. unfold left_of. f_equal. apply map_ext. intros p. rewrite E. reflexivity. Qed.

(** Left part. *)
Lemma cut_smooth1 : smooth x (intensity A1).
Proof.
  destruct (smooth_sub L _ x ltac:(lra) HS) as [E1 E2]. split.
  - eapply ex_RInt_ext; [|exact E1]. intros t Ht. rewrite Rmin_left, Rmax_right in Ht by lra. symmetry. apply Q1, Ht.
  - eapply ex_RInt_ext; [|exact E2]. intros t Ht. rewrite Rmin_left, Rmax_right in Ht by lra. cbn. rewrite (Q1 t Ht). reflexivity.
Qed.
Lemma cut_int1 (w : R -> R) t : 0 <= t <= x -> RInt (fun u => w u * intensity A1 u) 0 t = RInt (fun u => w u * intensity A u) 0 t.
Proof.
  intros Ht. apply RInt_ext. intros u Hu. rewrite Rmin_left, Rmax_right in Hu by lra. rewrite Q1 by lra. reflexivity.
Qed.
Lemma cut_plain1 t : 0 <= t <= x -> RInt (intensity A1) 0 t = RInt (intensity A) 0 t.
Proof. intros Ht. apply RInt_ext. intros u Hu. rewrite Rmin_left, Rmax_right in Hu by lra. rewrite Q1 by lra. reflexivity. Qed.
Lemma cut_shear1 va t : 0 <= t <= x -> shear_of A1 va t = shear_of A va t.
Proof.
  intros Ht. unfold shear_of. rewrite cut_plain1 by exact Ht. rewrite (left_of_perm t _ _ _ PF), left_of_app, left_of_moved_none by (lra || exact F2). ring.
Qed.
Lemma cut_moment1 va ma t : 0 <= t <= x -> moment_of A1 va ma t = moment_of A va ma t.
Proof.
  intros Ht. unfold moment_of. rewrite (cut_int1 (fun u => t - u)) by exact Ht. 
  rewrite (left_of_perm t _ _ _ PF), (left_of_perm t _ _ _ PM), !left_of_app, !left_of_moved_none by (lra || exact F2 || exact M2). ring.
Qed.

(** Right part. *)
Lemma right_ex (w : R -> R) : ex_RInt (fun u => w u * intensity A u) 0 L -> ex_RInt (fun u => w (x + u) * intensity A2 u) 0 (L - x).
Proof.
  intros E. assert (E' : ex_RInt (fun u => w u * intensity A u) x L) by (apply (ex_RInt_Chasles_2 (V := R_CompleteNormedModule) _ 0 x L); [lra|exact E]).
  destruct E' as (I & HI). exists I. apply (is_RInt_ext (fun u => w (x + u) * intensity A (x + u))).
  - intros t Ht. rewrite Rmin_left, Rmax_right in Ht by lra. rewrite Q2 by exact Ht. reflexivity.
  - apply (RInt_shift_back (fun u => w u * intensity A u)). replace (x + 0) with x by ring. replace (x + (L - x)) with L by ring. exact HI.
Qed.
Lemma cut_smooth2 : smooth (L - x) (intensity A2).
Proof.
  split.
  - eapply ex_RInt_ext; [|apply (right_ex (fun _ => 1))].
    + intros t _. cbv beta. inR. ring.
    + eapply ex_RInt_ext; [|exact (proj1 HS)]. intros t _. cbv beta. inR. ring.
  - eapply ex_RInt_ext; [|apply (right_ex (fun t => - x + 1 * t))].
    + intros t _. cbv beta. inR. ring.
    + exact (smooth_lin L _ (- x) 1 HS).
Qed.
Lemma right_int (w : R -> R) t : 0 <= t <= L - x -> ex_RInt (fun u => w u * intensity A u) 0 L ->
  RInt (fun u => w u * intensity A u) 0 (x + t) = RInt (fun u => w u * intensity A1 u) 0 x + RInt (fun u => w (x + u) * intensity A2 u) 0 t.
Proof.
  intros Ht E. assert (E0 : ex_RInt (fun u => w u * intensity A u) 0 (x + t)) by (apply (ex_RInt_Chasles_1 (V := R_CompleteNormedModule) _ 0 (x + t) L); [lra|exact E]).
  assert (Ea : ex_RInt (fun u => w u * intensity A u) 0 x) by (apply (ex_RInt_Chasles_1 (V := R_CompleteNormedModule) _ 0 x (x + t)); [lra|exact E0]).
  assert (Eb : ex_RInt (fun u => w u * intensity A u) x (x + t)) by (apply (ex_RInt_Chasles_2 (V := R_CompleteNormedModule) _ 0 x (x + t)); [lra|exact E0]).
  assert (C := RInt_Chasles (V := R_CompleteNormedModule) _ 0 x (x + t) Ea Eb). change plus with Rplus in C. rewrite <- C. f_equal.
  - symmetry. apply cut_int1. lra.
  - symmetry. apply (is_RInt_unique (V := R_CompleteNormedModule)). apply (is_RInt_ext (fun u => w (x + u) * intensity A (x + u))).
    + intros u Hu. rewrite Rmin_left, Rmax_right in Hu by lra. rewrite Q2 by lra. reflexivity.
    + apply (RInt_shift_back (fun u => w u * intensity A u)). replace (x + 0) with x by ring. apply (RInt_correct (V := R_CompleteNormedModule)). exact Eb.
Qed.
Lemma plain_mult (q : R -> R) a b : RInt q a b = RInt (fun u => 1 * q u) a b.
Proof. apply RInt_ext. intros u _. symmetry. apply Rmult_1_l. Qed.
Lemma right_plain t : 0 <= t <= L - x -> RInt (intensity A) 0 (x + t) = RInt (intensity A1) 0 x + RInt (intensity A2) 0 t.
Proof.
  intros Ht. rewrite (plain_mult (intensity A)), (plain_mult (intensity A1)), (plain_mult (intensity A2)). apply (right_int (fun _ => 1)); [exact Ht|]. eapply ex_RInt_ext; [|exact (proj1 HS)]. intros u _. cbv beta. inR. ring.
Qed.
Lemma arm_split t : RInt (fun u => (x + t - u) * intensity A1 u) 0 x = RInt (fun u => (x - u) * intensity A1 u) 0 x + t * RInt (intensity A1) 0 x.
Proof.
  apply (is_RInt_unique (V := R_CompleteNormedModule)).
  eapply is_RInt_ext; [|exact (is_RInt_plus _ _ _ _ _ _ (smooth_arm x _ x ltac:(lra) cut_smooth1) (is_RInt_scal _ _ _ t _ (smooth_sum x _ x ltac:(lra) cut_smooth1)))].
  intros u _. unfold plus, scal. cbn. unfold mult. cbn. ring.
Qed.
Lemma right_arm t : 0 <= t <= L - x -> RInt (fun u => (x + t - u) * intensity A u) 0 (x + t) =
  RInt (fun u => (x - u) * intensity A1 u) 0 x + t * RInt (intensity A1) 0 x + RInt (fun u => (t - u) * intensity A2 u) 0 t.
Proof.
  intros Ht. rewrite (right_int (fun u => x + t - u) t Ht).
  - rewrite arm_split. f_equal. apply RInt_ext. intros u _. cbv beta. inR. ring.
  - eapply ex_RInt_ext; [|exact (smooth_lin L _ (x + t) (-1) HS)]. intros u _. cbv beta. inR. ring.
Qed.
Lemma arms_shift u t l : lsum (map (fun p => fst p * (u + t - snd p)) l) = lsum (map (fun p : R * R => fst p * (u - snd p)) l) + t * lsum (map fst l).
Proof. induction l as [|p l IH]; [cbn; ring|]. cbn [map]. rewrite !lsum_cons, IH. ring. Qed.
Lemma ones l : lsum (map (fun p : R * R => fst p * 1) l) = lsum (map fst l).
Proof. f_equal. apply map_ext. intros p. apply Rmult_1_r. Qed.

Variables va ma : R.
Let va2 := va - RInt (intensity A1) 0 x - force_sum A1.
Let ma2 := - far_of x A1 va ma.
Lemma cut_shear2 t : 0 < t <= L - x -> shear_of A2 va2 t = shear_of A va (x + t).
Proof.
  intros Ht. unfold shear_of. rewrite right_plain by lra. rewrite (left_of_perm _ _ _ _ PF), left_of_app, left_of_moved.
  rewrite (left_of_all (x + t) _ (forces A1)) by (intros p Hp; pose proof (F1 p Hp); lra). rewrite ones. unfold va2, force_sum. ring.
Qed.
Lemma cut_moment2 t : 0 < t <= L - x -> moment_of A2 va2 ma2 t = moment_of A va ma (x + t).
Proof.
  intros Ht. unfold moment_of. rewrite right_arm by lra. rewrite (left_of_perm _ _ _ _ PF), (left_of_perm _ _ _ _ PM), !left_of_app, !left_of_moved.
  rewrite (left_of_all (x + t) _ (forces A1)) by (intros p Hp; pose proof (F1 p Hp); lra).
  rewrite (left_of_all (x + t) _ (moments A1)) by (intros p Hp; pose proof (M1 p Hp); lra). rewrite ones, arms_shift.
  rewrite (left_of_ext t (fun a => x + t - (x + a)) (fun a => t - a)) by (intros a; ring).
  unfold va2, ma2, far_of, force_sum, arm_sum, moment_sum. ring.
Qed.
Lemma cut_far2 : far_of (L - x) A2 va2 ma2 = far_of L A va ma.
Proof.
  unfold far_of at 1 2. assert (E := right_arm (L - x) ltac:(lra)). replace (x + (L - x)) with L in E by ring. rewrite E.
  assert (EF : arm_sum L A = arm_sum x A1 + (L - x) * force_sum A1 + arm_sum (L - x) A2).
  { unfold arm_sum at 1. rewrite (BaseFacts.lsum_perm _ _ (Permutation_map _ PF)), map_app, lsum_app, map_map. 
    assert (X := arms_shift x (L - x) (forces A1)). replace (x + (L - x)) with L in X by ring. rewrite X. unfold arm_sum, force_sum. f_equal. f_equal. apply map_ext. intros p. cbn [moved fst snd]. ring. }
  assert (EM : moment_sum A = moment_sum A1 + moment_sum A2).
  { unfold moment_sum. rewrite (BaseFacts.lsum_perm _ _ (Permutation_map _ PM)), map_app, lsum_app, map_map. reflexivity. }
  rewrite EF, EM. unfold va2, ma2, far_of. ring.
Qed.
Lemma cut_total2 : RInt (intensity A) 0 L + force_sum A = (RInt (intensity A1) 0 x + force_sum A1) + (RInt (intensity A2) 0 (L - x) + force_sum A2).
Proof.
  assert (E := right_plain (L - x) ltac:(lra)). replace (x + (L - x)) with L in E by ring. rewrite E.
  assert (EF : force_sum A = force_sum A1 + force_sum A2).
  { unfold force_sum. rewrite (BaseFacts.lsum_perm _ _ (Permutation_map _ PF)), map_app, lsum_app, map_map. reflexivity. }
  rewrite EF. ring.
Qed.
End Cut.

Definition vec4 (a b c d : R) : vec := fun i => match i with 0 => a | 1 => b | 2 => c | _ => d end%nat.

Lemma RInt_end (F : R -> R) a b c (I J : R) : is_RInt F a b I -> is_RInt F a c J -> is_RInt F b c (J - I).
Proof.
  intros H1 H2. apply (is_RInt_eqval F b c (plus (opp I) J)); [|unfold plus, opp; cbn; ring].
  exact (is_RInt_Chasles _ _ _ _ _ _ (is_RInt_swap _ _ _ _ H1) H2).
Qed.

(** A bent member cut at [x] is two bent members, in equilibrium with each other. *)
Lemma bent_cut L x ei ga k k1 k2 A A1 A2 f V M th y : 0 < x < L -> bent_member L ei ga k A f V M th y ->
  (forall t, 0 < t < x -> intensity A1 t = intensity A t) -> (forall t, 0 < t < L - x -> intensity A2 t = intensity A (x + t)) ->
  Permutation (forces A) (forces A1 ++ map (moved x) (forces A2)) -> Permutation (moments A) (moments A1 ++ map (moved x) (moments A2)) ->
  (forall p, In p (forces A1) -> snd p <= x) -> (forall p, In p (forces A2) -> 0 <= snd p) ->
  (forall p, In p (moments A1) -> snd p <= x) -> (forall p, In p (moments A2) -> 0 <= snd p) ->
  (forall t, 0 < t < x -> k1 t = k t) -> (forall t, 0 < t < L - x -> k2 t = k (x + t)) ->
  exists s m V1 M1 V2 M2,
    bent_member x ei ga k1 A1 (vec4 (f 0%nat) (f 1%nat) s m) V1 M1 th y /\
    bent_member (L - x) ei ga k2 A2 (vec4 (- s) (- m) (f 2%nat) (f 3%nat)) V2 M2 (fun t => th (x + t)) (fun t => y (x + t)).
Proof.
  intros Hx B Q1 Q2 PF PM F1 F2 N1 N2 K1 K2. assert (HS := bent_smooth _ _ _ _ _ _ _ _ _ _ B).
  destruct (bent_canon L ei ga k A f V M th y ltac:(lra) B) as (C & E3 & E2).
  set (va := f 0%nat) in *. set (ma := f 1%nat) in *.
  set (s := RInt (intensity A1) 0 x + force_sum A1 - va). set (m := far_of x A1 va ma).
  assert (ES : - s = va - RInt (intensity A1) 0 x - force_sum A1) by (unfold s; ring).
  exists s, m, (shear_of A1 va), (moment_of A1 va ma), (shear_of A2 (- s)), (moment_of A2 (- s) (- m)). split.
  - apply (canon_bent x ei ga k1 A1 (vec4 va ma s m)); cbn [vec4].
    + lra.
    + exact (cut_smooth1 L x A A1 Hx HS Q1).
    + reflexivity.
    + unfold s. ring.
    + intros u Hu. apply (is_RInt_ext (fun t => moment_of A va ma t / ei + k t)); [|apply (bm_rotation _ _ _ _ _ _ _ _ _ _ C); lra].
      intros t Ht. rewrite Rmin_left, Rmax_right in Ht by lra. rewrite (cut_moment1 x A A1 A2 Q1 PF PM F2 N2) by lra. rewrite K1 by lra. reflexivity.
    + intros u Hu. apply (is_RInt_ext (fun t => th t - shear_angle ga (shear_of A va t))); [|apply (bm_deflection _ _ _ _ _ _ _ _ _ _ C); lra].
      intros t Ht. rewrite Rmin_left, Rmax_right in Ht by lra. rewrite (cut_shear1 x A A1 A2 Q1 PF F2) by lra. reflexivity.
  - apply (canon_bent (L - x) ei ga k2 A2 (vec4 (- s) (- m) (f 2%nat) (f 3%nat))); cbn [vec4].
    + lra.
    + exact (cut_smooth2 L x A A2 Hx HS Q2).
    + rewrite ES. unfold m. rewrite (cut_far2 L x A A1 A2 Hx HS Q1 Q2 PF PM). exact E3.
    + rewrite ES. assert (T := cut_total2 L x A A1 A2 Hx HS Q1 Q2 PF). lra.
    + intros u Hu. assert (R1 := bm_rotation _ _ _ _ _ _ _ _ _ _ C x ltac:(lra)). assert (R2 := bm_rotation _ _ _ _ _ _ _ _ _ _ C (x + u) ltac:(lra)).
      assert (R3 := RInt_end _ _ _ _ _ _ R1 R2). replace x with (x + 0) in R3 at 1 by ring. apply RInt_shift_back in R3.
      replace (th (x + u) - th (x + 0)) with (th (x + u) - th 0 - (th x - th 0)) by (rewrite Rplus_0_r; ring).
      eapply is_RInt_ext; [|exact R3]. intros t Ht. rewrite Rmin_left, Rmax_right in Ht by lra. cbv beta.
      rewrite ES. unfold m. rewrite (cut_moment2 L x A A1 A2 Hx HS Q1 Q2 PF PM F1 N1) by lra. rewrite K2 by lra. reflexivity.
    + intros u Hu. assert (R1 := bm_deflection _ _ _ _ _ _ _ _ _ _ C x ltac:(lra)). assert (R2 := bm_deflection _ _ _ _ _ _ _ _ _ _ C (x + u) ltac:(lra)).
      assert (R3 := RInt_end _ _ _ _ _ _ R1 R2). replace x with (x + 0) in R3 at 1 by ring. apply RInt_shift_back in R3.
      replace (y (x + u) - y (x + 0)) with (y (x + u) - y 0 - (y x - y 0)) by (rewrite Rplus_0_r; ring).
      eapply is_RInt_ext; [|exact R3]. intros t Ht. rewrite Rmin_left, Rmax_right in Ht by lra. cbv beta.
      rewrite ES. rewrite (cut_shear2 L x A A1 A2 Hx HS Q1 Q2 PF F1) by lra. reflexivity.
Qed.
