(** Stiffness and end forces of a member in other units. *)
From Verif Require Import Base BaseFacts Linalg SectionModel FlexModel LoadModel FoundationModel ElementModel UtilsModel BeamModel AnalysisModel AnalysisSpec ResultsModel UnitChangeSpec UnitChangeFacts.
Open Scope R_scope.

(** Two outcomes: the same exception, or related values. *)
Definition sim {A B} (P : A -> B -> Prop) (r : result A) (r' : result B) : Prop :=
  match r, r' with Ok a, Ok b => P a b | Err e, Err e' => e = e' | _, _ => False end.
Lemma sim_bind {A B C D} (P : A -> B -> Prop) (Q : C -> D -> Prop) r r' f g :
  sim P r r' -> (forall a b, P a b -> sim Q (f a) (g b)) -> sim Q (rbind r f) (rbind r' g).
Proof. destruct r, r'; cbn; intros E H; try contradiction; [apply H, E|exact E]. Qed.
Lemma sim_mono {A B} (P Q : A -> B -> Prop) r r' : (forall a b, P a b -> Q a b) -> sim P r r' -> sim Q r r'.
Proof. destruct r, r'; cbn; auto. Qed.
Lemma sim_eq {A} (r r' : result A) : sim eq r r' -> r = r'.
Proof. destruct r, r'; cbn; intros E; try contradiction; subst; reflexivity. Qed.
Lemma sim_rmap {A B} (f : A -> B) r r' : r' = rmap f r -> sim (fun a b => b = f a) r r'.
Proof. intros ->. destruct r; reflexivity. Qed.
Lemma sim_foldM {A A' S S'} (P : S -> S' -> Prop) (f : S -> A -> result S) (f' : S' -> A' -> result S') (h : A -> A') l :
  (forall a s s', In a l -> P s s' -> sim P (f s a) (f' s' (h a))) -> forall s s', P s s' -> sim P (foldM f l s) (foldM f' (map h l) s').
Proof.
  induction l as [|a t IH]; intros H s s' E; cbn [foldM map]; [exact E|].
  apply (sim_bind P P); [apply H; [left; reflexivity|exact E]|]. intros s1 s1' E1. apply IH; [|exact E1]. intros; apply H; [right|]; assumption.
Qed.

Definition member_units_of (u : units) (m : member) : member :=
  {| mb_L := len u (mb_L m); mb_EI := ei_units u (mb_EI m); mb_GAv := option_map (ga_units u) (mb_GAv m);
     mb_kf := option_map (fun k => u_for u / u_len u ^ 2 * k) (mb_kf m); mb_type := mb_type m |}.
Definition plain_member (m : member) : Prop :=
  0 < mb_L m /\ mb_kf m = None /\ whole (mb_L m) (mb_EI m) /\ whole_shear (mb_L m) (mb_GAv m).

Section U.
Variable u : units.
Hypothesis Hu : proper u.
Variable gl : nat -> list (R * R).
Let Hl : 0 < u_len u := proj1 Hu.
Let Hf : 0 < u_for u := proj2 Hu.
Ltac un := unfold per, frc, mom, rig, len.

(** Weight of a degree of freedom: 1 for a translation, the length factor for a rotation. *)
Definition tw (i : nat) : R := if Nat.even i then 1 else u_len u.
Definition stf (i j : nat) (x : R) : R := u_for u / u_len u * tw i * tw j * x.
Definition stiff_units (k k' : mat) : Prop := forall i j, (i < 4)%nat -> (j < 4)%nat -> k' i j = stf i j (k i j).
Definition ref_units (v v' : vec) : Prop := forall i, (i < 4)%nat -> v' i = act u i (v i).

Lemma act_tw i x : act u i x = u_for u * tw i * x.
Proof. unfold act, tw. destruct (Nat.even i); un; ring. Qed.
Lemma tw_pos i : 0 < tw i.
Proof. unfold tw. destruct (Nat.even i); lra. Qed.

Ltac four i := destruct i as [|[|[|[|i]]]]; [| | | |lia].

Lemma condense_units k k' t : stiff_units k k' -> sim stiff_units (condense k t) (condense k' t).
Proof.
  intros HK. destruct t as [|[|[|[|[|t]]]]]; try reflexivity.
  - exact HK.
  - cbn [condense]. unfold condense1. assert (H33 := HK 3%nat 3%nat ltac:(lia) ltac:(lia)).
    assert (N : k' 3%nat 3%nat = 0 <-> k 3%nat 3%nat = 0).
    { rewrite H33. unfold stf, tw. cbn [Nat.even]. split; [|intros ->; ring].
      intros E. apply Rmult_integral in E as [E|E]; [|exact E]. exfalso. revert E. apply Rgt_not_eq. unfold Rdiv. repeat apply Rmult_gt_0_compat; try apply Rinv_0_lt_compat; lra. }
    destruct (Req_EM_T (k 3%nat 3%nat) 0) as [e|e], (Req_EM_T (k' 3%nat 3%nat) 0) as [e'|e']; try tauto; [reflexivity|].
    cbn. intros i j Hi Hj. destruct (Nat.eqb i 3 || Nat.eqb j 3)%bool; [unfold stf; ring|].
    rewrite !HK by lia. unfold stf. assert (A := tw_pos 3). field. repeat split; lra.
  - cbn [condense]. unfold condense1. assert (H11 := HK 1%nat 1%nat ltac:(lia) ltac:(lia)).
    assert (N : k' 1%nat 1%nat = 0 <-> k 1%nat 1%nat = 0).
    { rewrite H11. unfold stf, tw. cbn [Nat.even]. split; [|intros ->; ring].
      intros E. apply Rmult_integral in E as [E|E]; [|exact E]. exfalso. revert E. apply Rgt_not_eq. unfold Rdiv. repeat apply Rmult_gt_0_compat; try apply Rinv_0_lt_compat; lra. }
    destruct (Req_EM_T (k 1%nat 1%nat) 0) as [e|e], (Req_EM_T (k' 1%nat 1%nat) 0) as [e'|e']; try tauto; [reflexivity|].
    cbn. intros i j Hi Hj. destruct (Nat.eqb i 1 || Nat.eqb j 1)%bool; [unfold stf; ring|].
    rewrite !HK by lia. unfold stf. assert (A := tw_pos 1). field. repeat split; lra.
  - cbn [condense]. unfold condense13, inv22. cbn [m00 m01 m10 m11]. 
    set (D := k 1%nat 1%nat * k 3%nat 3%nat - k 1%nat 3%nat * k 3%nat 1%nat).
    set (D' := k' 1%nat 1%nat * k' 3%nat 3%nat - k' 1%nat 3%nat * k' 3%nat 1%nat).
    assert (ED : D' = (u_for u * u_len u) ^ 2 * D).
    { unfold D', D. rewrite !HK by lia. unfold stf, tw. cbn [Nat.even]. field. lra. }
    assert (P : 0 < (u_for u * u_len u) ^ 2) by (apply pow_lt; nra).
    assert (N : D' = 0 <-> D = 0). { rewrite ED. split; [|intros ->; ring]. intros E. apply Rmult_integral in E as [E|E]; lra. }
    destruct (Req_EM_T D 0) as [e|e], (Req_EM_T D' 0) as [e'|e']; try tauto; [reflexivity|].
    cbn [rbind sim m00 m01 m10 m11]. intros i j Hi Hj.
    destruct (Nat.eqb i 1 || Nat.eqb i 3 || Nat.eqb j 1 || Nat.eqb j 3)%bool; [unfold stf; ring|].
    rewrite ED, !HK by lia. unfold stf, tw. cbn [Nat.even]. field. repeat split; try lra. 
Qed.

Lemma kff_timo_units e g L : 0 < e -> 0 < g -> 0 < L -> stiff_units (k_FF_timo e g L) (k_FF_timo (u_for u * u_len u ^ 2 * e) (u_for u * g) (len u L)).
Proof.
  intros He Hg HL i j Hi Hj. assert (Q : g * L ^ 2 + 12 * e <> 0) by nra.
  unfold k_FF_timo. 
  assert (P : 12 * (u_for u * u_len u ^ 2 * e) / (u_for u * g * (len u L) ^ 2) = 12 * e / (g * L ^ 2)) by (un; field; repeat split; lra).
  rewrite P. assert (N : 0 < 12 * e / (g * L ^ 2)). { unfold Rdiv. apply Rmult_lt_0_compat; [lra|]. apply Rinv_0_lt_compat, Rmult_lt_0_compat; [lra|apply pow_lt; lra]. }
  set (ph := 12 * e / (g * L ^ 2)) in *. clearbody ph. cbv zeta.
  four i; four j; cbn [mat4 vec4]; unfold stf, tw; cbn [Nat.even]; un; field; repeat split; lra.
Qed.


Lemma release_units c L t : 0 < L -> release (cnl_units u c) (len u L) t = cnl_units u (release c L t).
Proof. intros HL. unfold release, cnl_units. destruct t as [|[|[|[|[|t]]]]]; cbn [c_Va c_Vb c_Ma c_Mb]; f_equal; un; field; repeat split; lra. Qed.

Lemma release_from_units c Ma Mb L k k' t : 0 < L -> sim stiff_units k k' ->
  sim ref_units (release_from c Ma Mb L k t) (release_from (cnl_units u c) (mom u Ma) (mom u Mb) (len u L) k' t).
Proof.
  intros HL HK. unfold release_from. cbn [cnl_units c_Va c_Ma c_Vb c_Mb].
  set (ref := vec4 (c_Va c - (c_Ma c + c_Mb c) / L + (Ma + Mb) / L) Ma (c_Vb c + (c_Ma c + c_Mb c) / L - (Ma + Mb) / L) Mb).
  set (ref' := vec4 (frc u (c_Va c) - (mom u (c_Ma c) + mom u (c_Mb c)) / len u L + (mom u Ma + mom u Mb) / len u L) (mom u Ma) (frc u (c_Vb c) + (mom u (c_Ma c) + mom u (c_Mb c)) / len u L - (mom u Ma + mom u Mb) / len u L) (mom u Mb)).
  assert (HR : ref_units ref ref').
  { intros i Hi. unfold ref, ref'. four i; cbn [vec4 act Nat.even]; un; field; repeat split; lra. }
  destruct t as [|[|[|[|[|t]]]]]; try exact HR.
  - apply (sim_bind stiff_units ref_units); [exact HK|]. intros k1 k1' E.
    assert (H33 := E 3%nat 3%nat ltac:(lia) ltac:(lia)). rewrite H33.
    assert (P : 0 < u_for u / u_len u * tw 3 * tw 3) by (unfold Rdiv; assert (A := tw_pos 3); repeat apply Rmult_lt_0_compat; try apply Rinv_0_lt_compat; lra).
    unfold stf at 1. destruct (Req_EM_T (k1 3%nat 3%nat) 0) as [e|e], (Req_EM_T (u_for u / u_len u * tw 3 * tw 3 * k1 3%nat 3%nat) 0) as [e'|e'].
    + reflexivity.
    + exfalso. apply e'. rewrite e. ring.
    + exfalso. apply Rmult_integral in e' as [e'|e']; lra.
    + cbn [sim]. intros i Hi. rewrite (HR i Hi), (HR 3%nat) by lia. rewrite !E by lia. rewrite !act_tw. unfold stf. assert (A := tw_pos 3). field. repeat split; lra.
  - apply (sim_bind stiff_units ref_units); [exact HK|]. intros k1 k1' E.
    assert (H33 := E 1%nat 1%nat ltac:(lia) ltac:(lia)). rewrite H33.
    assert (P : 0 < u_for u / u_len u * tw 1 * tw 1) by (unfold Rdiv; assert (A := tw_pos 1); repeat apply Rmult_lt_0_compat; try apply Rinv_0_lt_compat; lra).
    unfold stf at 1. destruct (Req_EM_T (k1 1%nat 1%nat) 0) as [e|e], (Req_EM_T (u_for u / u_len u * tw 1 * tw 1 * k1 1%nat 1%nat) 0) as [e'|e'].
    + reflexivity.
    + exfalso. apply e'. rewrite e. ring.
    + exfalso. apply Rmult_integral in e' as [e'|e']; lra.
    + cbn [sim]. intros i Hi. rewrite (HR i Hi), (HR 1%nat) by lia. rewrite !E by lia. rewrite !act_tw. unfold stf. assert (A := tw_pos 1). field. repeat split; lra.
  - intros i Hi. four i; cbn [vec4 act Nat.even]; try (un; ring).
    + rewrite (HR 0%nat) by lia. cbn [act Nat.even]. un. field. lra.
    + rewrite (HR 2%nat) by lia. cbn [act Nat.even]. un. field. lra.
Qed.

Lemma expand_units K K' L : 0 < L -> m00 K' = mom u (m00 K) -> m01 K' = mom u (m01 K) -> m10 K' = mom u (m10 K) -> m11 K' = mom u (m11 K) ->
  stiff_units (expand K L) (expand K' (len u L)).
Proof.
  intros HL E0 E1 E2 E3 i j Hi Hj. unfold expand. rewrite E0, E1, E2, E3.
  four i; four j; cbn [Tchord vec4]; unfold stf, tw; cbn [Nat.even]; un; field; repeat split; lra.
Qed.

Lemma rc_pos : 0 < u_for u * u_len u ^ 2.
Proof. apply Rmult_lt_0_compat; [exact Hf|apply pow_lt, Hl]. Qed.
Lemma shear_units g L : 0 < L -> whole L g -> shear_flexibility gl (ga_units u g) (len u L) = rmap (fun s => s / (u_for u * u_len u)) (shear_flexibility gl g L).
Proof.
  intros HL W. destruct g as [g|s]; cbn [ga_units rigid_units shear_flexibility rbind rmap].
  - unfold shear_flexibility. cbn [rbind rmap]. f_equal. cbn in W. un. field. repeat split; lra.
  - destruct (nodes_units u gl L (u_for u) s W) as (nd & N & N'). unfold shear_flexibility. rewrite N, N'. cbn [rbind].
    assert (W' := whole_units u Hu L (u_for u) (RSect s) Hf W). assert (V' := fun x => value_units u Hu L (u_for u) (RSect s) x W). cbn [rigid_units] in W', V'.
    rewrite (qsum_ext _ (fun x => Ok (1 / value (RSect (sect_units u (u_for u) s)) x))) by (intros x; rewrite (sect_value _ _ _ W'); reflexivity).
    rewrite (qsum_ext (fun x => do g <- sect_eval s x; _) (fun x => Ok (1 / value (RSect s) x))) by (intros x; rewrite (sect_value _ _ _ W); reflexivity).
    rewrite (qsum_units u (fun x => 1 / value (RSect s) x) _ (/ u_for u)) by (intros x; rewrite V'; unfold Rdiv; rewrite inv_scale; ring).
    rewrite !qsum_ok. cbn [rmap rbind]. f_equal. un. field. repeat split; lra.
Qed.
Lemma timo_flex_units e g L : 0 < L -> whole L e -> whole L g -> timo_flexibility gl (ei_units u e) (ga_units u g) (len u L) = rmap (flx u) (timo_flexibility gl e g L).
Proof.
  intros HL We Wg. unfold timo_flexibility.
  assert (EF : match ei_units u e with RSect s => flexibility gl s (len u L) | RConst e0 => Ok {| m00 := len u L / (3 * e0); m01 := - len u L / (6 * e0); m10 := - len u L / (6 * e0); m11 := len u L / (3 * e0) |} end =
    rmap (flx u) match e with RSect s => flexibility gl s L | RConst e0 => Ok {| m00 := L / (3 * e0); m01 := - L / (6 * e0); m10 := - L / (6 * e0); m11 := L / (3 * e0) |} end).
  { destruct e as [c|s]; cbn [ei_units rigid_units].
    - cbn in We. cbn [rmap]. unfold flx. cbn [m00 m01 m10 m11]. f_equal. f_equal; un; field; repeat split; lra.
    - apply flexibility_units; assumption. }
  rewrite EF. match goal with |- context [rmap (flx u) ?X] => destruct X as [F|]; [|reflexivity] end. cbn [rmap rbind].
  rewrite shear_units by assumption. destruct (shear_flexibility gl g L); [|reflexivity]. cbn [rmap rbind]. unfold flx. cbn [m00 m01 m10 m11]. f_equal. f_equal; field; lra.
Qed.
Lemma k_timo_units e g L t : 0 < L -> whole L e -> whole L g ->
  sim stiff_units (k_timoshenko gl e g L t) (k_timoshenko gl (ei_units u e) (ga_units u g) (len u L) t).
Proof.
  intros HL We Wg. unfold k_timoshenko. rewrite timo_flex_units by assumption. destruct (timo_flexibility gl e g L) as [F|]; [|reflexivity]. cbn [rmap rbind].
  rewrite inv22_units by exact Hu. destruct (inv22 F) as [K|]; [|reflexivity]. cbn [rmap rbind]. apply condense_units, expand_units; [exact HL|reflexivity ..].
Qed.
Lemma k_np_units s L t : 0 < L -> whole L (RSect s) -> sim stiff_units (k_nonprismatic gl s L t) (k_nonprismatic gl (sect_units u (u_for u * u_len u ^ 2) s) (len u L) t).
Proof.
  intros HL W. unfold k_nonprismatic. rewrite k_theta_units by assumption. destruct (k_theta gl s L) as [K|]; [|reflexivity]. cbn [rmap rbind].
  apply condense_units, expand_units; [exact HL|reflexivity ..].
Qed.
Lemma span_k_units m : plain_member m -> sim stiff_units (span_k gl m) (span_k gl (member_units_of u m)).
Proof.
  intros (HL & HK & HE & HG). unfold span_k, member_units_of. cbn [mb_kf mb_GAv mb_EI mb_type mb_L]. rewrite HK. cbn [option_map].
  destruct (mb_GAv m) as [g|]; cbn [option_map whole_shear] in *.
  - assert (T := k_timo_units (mb_EI m) g (mb_L m) (mb_type m) HL HE HG).
    destruct (mb_EI m) as [e|s], g as [g|s']; cbn [ga_units ei_units rigid_units] in *; try exact T. apply condense_units, kff_timo_units; assumption.
  - destruct (mb_EI m) as [e|s]; cbn [ei_units rigid_units whole] in *; [|apply k_np_units; assumption].
    cbn [sim]. intros i j Hi Hj. set (L := mb_L m) in *. 
    destruct (mb_type m) as [|[|[|[|[|t]]]]]; four i; four j; cbv beta delta [k_FF k_FP k_PF k_PP] ; cbv zeta; cbn [mat4 vec4]; unfold stf, tw; cbn [Nat.even]; un; field; repeat split; lra.
Qed.

(** ** End rotations of the simple span *)
Lemma rigid_at_value L e xs : whole L e -> rigid_at e xs = Ok (map (value e) xs).
Proof.
  intros W. destruct e as [c|s]; [reflexivity|]. cbn [rigid_at]. induction xs as [|x t IH]; [reflexivity|]. cbn [mapM map]. rewrite (sect_value L s x W). cbn [rbind]. rewrite IH. reflexivity.
Qed.
Lemma fine_units a b : fine_grid (len u a) (len u b) = map (len u) (fine_grid a b).
Proof. unfold fine_grid. rewrite map_map. apply map_ext. intros i. apply grid_len. Qed.
Lemma curv_units ld v v' xx L : 0 < L -> (forall x, v' (len u x) = u_for u * u_len u ^ 2 * v x) ->
  curvatures (load_units u ld) (map v' (map (len u) xx)) (map (len u) xx) (len u L) = map (Rmult (1 / u_len u)) (curvatures ld (map v xx) xx L).
Proof.
  intros HL V. unfold curvatures. destruct (sampled_units u Hu ld xx L HL) as (_ & EM & _). rewrite EM. generalize (r_M (get_mbr_results ld xx L)) as M.
  rewrite map_map. intros M. clear EM. rewrite map_map. revert xx. induction M as [|m M IH]; intros [|x xx]; try reflexivity. cbn [map combine]. rewrite IH, V. f_equal.
  assert (EQ : mom u m / (u_for u * u_len u ^ 2 * v x) = 1 / u_len u * (m / v x)) by (unfold Rdiv; rewrite inv_scale; un; generalize (/ v x); intros w; field; lra).
  rewrite EQ. destruct ld; cbn [load_units]; try (rewrite Rplus_0_r; ring). rewrite (kappa_len u Hu). ring.
Qed.
Lemma gamma_units ld v v' xx L : 0 < L -> (forall x, v' (len u x) = u_for u * v x) ->
  map (fun p => fst p / snd p) (combine (r_V (get_mbr_results (load_units u ld) (map (len u) xx) (len u L))) (map v' (map (len u) xx))) = map (fun p => fst p / snd p) (combine (r_V (get_mbr_results ld xx L)) (map v xx)).
Proof.
  intros HL V. destruct (sampled_units u Hu ld xx L HL) as (_ & _ & EV). rewrite EV. generalize (r_V (get_mbr_results ld xx L)) as M. rewrite map_map. intros M. clear EV.
  revert xx. induction M as [|m M IH]; intros [|x xx]; try reflexivity. cbn [map combine fst snd]. rewrite IH, V. f_equal. unfold Rdiv. rewrite inv_scale. un. generalize (/ v x). intros w. field. lra.
Qed.
Lemma mulpt_units f f' k xx ys : (forall x, f' (len u x) = f x) -> mulpt f' (map (len u) xx) (map (Rmult k) ys) = map (Rmult k) (mulpt f xx ys).
Proof. intros E. unfold mulpt. rewrite map_map. revert ys. induction xx as [|x xx IH]; intros [|y ys]; try reflexivity. cbn [map combine fst snd]. rewrite IH, E. f_equal. ring. Qed.
Lemma nth_scale k l i : nth i (map (Rmult k) l) 0 = k * nth i l 0.
Proof. revert i. induction l as [|a t IH]; intros [|i]; cbn; try ring. apply IH. Qed.
Lemma simpson_units a b k ys : simpson_list (len u a) (len u b) (map (Rmult k) ys) = u_len u * k * simpson_list a b ys.
Proof.
  unfold simpson_list. replace ((len u b - len u a) / INR (2 * simpson_panels)) with (len u ((b - a) / INR (2 * simpson_panels))) by (unfold len, Rdiv; ring).
  apply simpson_scale. intros i. apply nth_scale.
Qed.
Lemma rot_units f f' a b xx ys : (forall x, f' (len u x) = f x) ->
  simpson_list (len u a) (len u b) (mulpt f' (map (len u) xx) (map (Rmult (1 / u_len u)) ys)) = simpson_list a b (mulpt f xx ys).
Proof. intros E. rewrite (mulpt_units f) by exact E. rewrite simpson_units. field. lra. Qed.
Lemma rot_units0 f f' b xx ys : (forall x, f' (len u x) = f x) ->
  simpson_list 0 (len u b) (mulpt f' (map (len u) xx) (map (Rmult (1 / u_len u)) ys)) = simpson_list 0 b (mulpt f xx ys).
Proof. intros E. rewrite <- (rot_units f f' 0 b xx ys E), len_0. reflexivity. Qed.
Lemma chord_units L x : 0 < L -> 1 - len u x / len u L = 1 - x / L /\ - len u x / len u L = - x / L.
Proof. intros HL. split; un; field; lra. Qed.
Lemma np_theta_units ld s L : 0 < L -> whole L (RSect s) -> nonprism_theta0 (load_units u ld) (sect_units u (u_for u * u_len u ^ 2) s) (len u L) = nonprism_theta0 ld s L.
Proof.
  intros HL W. assert (HL' := len_pos u Hu L HL). assert (W' := whole_units u Hu L _ (RSect s) rc_pos W). cbn [rigid_units] in W'.
  unfold nonprism_theta0. rewrite (edges_whole L _ HL) by (apply (breaks_whole L s HL W)). rewrite (edges_whole (len u L) _ HL') by (apply (breaks_whole _ _ HL' W')).
  cbn [pairs foldM fst snd]. rewrite (len_le0 u Hu). destruct (Rleb L 0); [reflexivity|].
  assert (Z : fine_grid 0 (len u L) = map (len u) (fine_grid 0 L)) by (rewrite <- fine_units, len_0; reflexivity). rewrite Z.
  assert (E : forall xs, mapM (sect_eval s) xs = Ok (map (value (RSect s)) xs)) by (intros xs; apply (rigid_at_value L (RSect s) xs W)).
  assert (E' : forall xs, mapM (sect_eval (sect_units u (u_for u * u_len u ^ 2) s)) xs = Ok (map (value (RSect (sect_units u (u_for u * u_len u ^ 2) s))) xs)) by (intros xs; apply (rigid_at_value (len u L) (RSect _) xs W')).
  rewrite E, E'. cbn [rbind]. rewrite (curv_units ld (value (RSect s))) by (try exact HL; intros x; apply (value_units u Hu L _ (RSect s) x W)).
  do 2 f_equal; f_equal; apply rot_units0; intros x; apply (chord_units L x HL).
Qed.
Lemma timo_edges_units (e g : rigid) L : 0 < L -> whole L e -> whole L g ->
  (let bps := (match e with RSect s => breakpoints s | _ => [] end) ++ (match g with RSect s => breakpoints s | _ => [] end) in match bps with [] => [0; L] | _ => edges bps L end) = [0; L].
Proof.
  intros HL We Wg. cbv zeta.
  assert (F : Forall (fun x => x = 0 \/ x = L) ((match e with RSect s => breakpoints s | _ => [] end) ++ (match g with RSect s => breakpoints s | _ => [] end))).
  { apply Forall_app. split; [destruct e as [|s]; [constructor|apply (breaks_whole L s HL We)]|destruct g as [|s]; [constructor|apply (breaks_whole L s HL Wg)]]. }
  destruct (_ ++ _) as [|b bs]; [reflexivity|]. apply edges_whole; assumption.
Qed.
Lemma timo_theta_units ld e g L : 0 < L -> whole L e -> whole L g -> timo_theta0 (load_units u ld) (ei_units u e) (ga_units u g) (len u L) = timo_theta0 ld e g L.
Proof.
  intros HL We Wg. assert (HL' := len_pos u Hu L HL). assert (We' := whole_units u Hu L _ e rc_pos We). assert (Wg' := whole_units u Hu L _ g Hf Wg).
  assert (B := timo_edges_units e g L HL We Wg). assert (B' := timo_edges_units _ _ _ HL' We' Wg'). unfold timo_theta0, ei_units, ga_units. cbv zeta in *. rewrite B, B'. clear B B'.
  cbn [pairs foldM fst snd]. rewrite (len_le0 u Hu). destruct (Rleb L 0); [reflexivity|].
  assert (Z : fine_grid 0 (len u L) = map (len u) (fine_grid 0 L)) by (rewrite <- fine_units, len_0; reflexivity). rewrite Z.
  rewrite (rigid_at_value L e _ We), (rigid_at_value _ _ _ We'), (rigid_at_value L g _ Wg), (rigid_at_value _ _ _ Wg'). cbn [rbind].
  rewrite (curv_units ld (value e)) by (try exact HL; intros x; apply (value_units u Hu L _ e x We)).
  rewrite (gamma_units ld (value g)) by (try exact HL; intros x; apply (value_units u Hu L _ g x Wg)).
  set (gam := map _ (combine (r_V _) _)).
  assert (ES : simpson_list 0 (len u L) (map (fun g0 => -1 / len u L * g0) gam) = simpson_list 0 L (map (fun g0 => -1 / L * g0) gam)).
  { replace (map (fun g0 => -1 / len u L * g0) gam) with (map (Rmult (1 / u_len u)) (map (fun g0 => -1 / L * g0) gam)) by (rewrite map_map; apply map_ext; intros y; un; field; lra).
    assert (SU := simpson_units 0 L (1 / u_len u) (map (fun g0 => -1 / L * g0) gam)). rewrite len_0 in SU. rewrite SU. field. lra. }
  rewrite ES.
  do 2 f_equal; f_equal; f_equal; apply rot_units0; intros x; apply (chord_units L x HL).
Qed.

Lemma ref_one_units m ld : plain_member m -> plain_ic (mb_L m) ld -> sim ref_units (ref_one gl m ld) (ref_one gl (member_units_of u m) (load_units u ld)).
Proof.
  intros (HL & HK & HE & HG) HI. unfold ref_one, member_units_of. cbn [mb_GAv mb_EI mb_type mb_L].
  destruct (mb_GAv m) as [g|]; cbn [option_map whole_shear] in *.
  - unfold ref_timoshenko. apply (sim_bind (fun a b => b = cnl_units u a) ref_units); [apply sim_rmap, cnl_of_units; assumption|].
    intros c c' ->. apply (sim_bind (fun a b => b = (mom u (fst a), mom u (snd a))) ref_units).
    + assert (T : sim (fun a b => b = (mom u (fst a), mom u (snd a)))
        (do th <- timo_theta0 ld (mb_EI m) g (mb_L m); do F <- timo_flexibility gl (mb_EI m) g (mb_L m); do K <- inv22 F; Ok (m00 K * fst th + m01 K * snd th, m10 K * fst th + m11 K * snd th))
        (do th <- timo_theta0 (load_units u ld) (ei_units u (mb_EI m)) (ga_units u g) (len u (mb_L m)); do F <- timo_flexibility gl (ei_units u (mb_EI m)) (ga_units u g) (len u (mb_L m)); do K <- inv22 F; Ok (m00 K * fst th + m01 K * snd th, m10 K * fst th + m11 K * snd th))).
      { rewrite timo_theta_units by assumption. destruct (timo_theta0 ld (mb_EI m) g (mb_L m)) as [th|]; [|reflexivity]. cbn [rbind]. rewrite timo_flex_units by assumption.
        destruct (timo_flexibility gl (mb_EI m) g (mb_L m)) as [F|]; [|reflexivity]. cbn [rmap rbind]. rewrite inv22_units by exact Hu. destruct (inv22 F) as [K|]; [|reflexivity].
        cbn [rmap rbind sim mom22 m00 m01 m10 m11 fst snd]. f_equal; un; ring. }
      destruct (mb_EI m) as [e|s], g as [g|s']; cbn [ga_units ei_units rigid_units] in *; try exact T.
      cbn [sim cnl_units c_Ma c_Mb fst snd]. set (L := mb_L m) in *. cbn in HE, HG.
      assert (P : 12 * (u_for u * u_len u ^ 2 * e) / (u_for u * g * (len u L) ^ 2) = 12 * e / (g * L ^ 2)) by (un; field; repeat split; lra).
      rewrite P. assert (N : 0 < 12 * e / (g * L ^ 2)). { unfold Rdiv. apply Rmult_lt_0_compat; [lra|]. apply Rinv_0_lt_compat, Rmult_lt_0_compat; [lra|apply pow_lt; lra]. }
      set (ph := 12 * e / (g * L ^ 2)) in *. clearbody ph. f_equal; un; field; repeat split; lra.
    + intros M M' ->. cbn [fst snd]. apply release_from_units; [exact HL|]. apply k_timo_units; assumption.
  - destruct (mb_EI m) as [e|s]; cbn [ei_units rigid_units] in *.
    + unfold load_get_ref. apply (sim_bind (fun a b => b = cnl_units u a) ref_units).
      * apply (sim_bind (fun a b => b = cnl_units u a) (fun a b => b = cnl_units u a)); [apply sim_rmap, cnl_of_units; assumption|].
        intros c c' ->. apply release_units. exact HL.
      * intros c c' ->. cbn [sim]. intros i Hi. unfold cnl_vec. four i; reflexivity.
    + unfold ref_nonprismatic. rewrite np_theta_units by assumption. destruct (nonprism_theta0 ld s (mb_L m)) as [th|]; [|reflexivity]. cbn [rbind].
      rewrite k_theta_units by assumption. destruct (k_theta gl s (mb_L m)) as [K|]; [|reflexivity]. cbn [rmap rbind].
      apply (sim_bind (fun a b => b = cnl_units u a) ref_units); [apply sim_rmap, cnl_of_units; assumption|]. intros c c' ->. cbn [mom22 m00 m01 m10 m11].
      replace (mom u (m00 K) * fst th + mom u (m01 K) * snd th) with (mom u (m00 K * fst th + m01 K * snd th)) by (un; ring).
      replace (mom u (m10 K) * fst th + mom u (m11 K) * snd th) with (mom u (m10 K * fst th + m11 K * snd th)) by (un; ring).
      apply release_from_units; [exact HL|]. apply k_np_units; assumption.
Qed.

Lemma span_ref_units m lds : plain_member m -> Forall (plain_ic (mb_L m)) lds -> sim ref_units (span_ref gl m lds) (span_ref gl (member_units_of u m) (map (load_units u) lds)).
Proof.
  intros HM HI. unfold span_ref. assert (HK := proj1 (proj2 HM)). cbn [member_units_of mb_kf]. rewrite HK. cbn [option_map].
  apply sim_foldM.
  - intros ld s s' Hin E. rewrite Forall_forall in HI. apply (sim_bind ref_units ref_units); [apply ref_one_units; auto|].
    intros v v' Ev. cbn [sim]. intros i Hi. rewrite E, Ev by exact Hi. rewrite !act_tw. ring.
  - intros i Hi. rewrite act_tw. ring.
Qed.

(** ** The members and the loads of the beam *)
Lemma get_map {A B} (f : A -> B) l i : get (map f l) i = rmap f (get l i).
Proof. unfold get. rewrite nth_error_map. destruct (nth_error l i); reflexivity. Qed.
Lemma member_at_units b i : member_at (beam_units u b) i = rmap (member_units_of u) (member_at b i).
Proof.
  unfold member_at. cbn [beam_units b_EIs b_lengths b_types b_GAv b_kf]. rewrite !get_map, !nth_error_map.
  destruct (get (b_EIs b) i); [|reflexivity]. destruct (get (b_lengths b) i); [|reflexivity]. destruct (get (b_types b) i); [|reflexivity]. cbn [rmap rbind].
  unfold member_units_of. cbn. f_equal. f_equal; [destruct (nth_error (b_GAv b) i)|destruct (nth_error (b_kf b) i)]; reflexivity.
Qed.
Lemma Forall2_at {A B} (P : A -> B -> Prop) l l' : Forall2 P l l' -> forall i a b, nth_error l i = Some a -> nth_error l' i = Some b -> P a b.
Proof. induction 1 as [|x y t t' H F IH]; intros [|i] a b E1 E2; cbn in *; try discriminate; [injection E1 as <-; injection E2 as <-; exact H|apply (IH i); assumption]. Qed.
Lemma plain_at b i m : plain b -> member_at b i = Ok m -> plain_member m.
Proof.
  intros (FL & FE & FG & FK) E. unfold member_at in E. apply rbind_ok in E as (e & E1 & E). apply rbind_ok in E as (l & E2 & E). apply rbind_ok in E as (t & E3 & E). injection E as <-.
  unfold get in E1, E2. destruct (nth_error (b_EIs b) i) eqn:N1; [|discriminate]. destruct (nth_error (b_lengths b) i) eqn:N2; [|discriminate].
  injection E1 as ->. injection E2 as ->. assert (WE := Forall2_at _ _ _ FE i _ _ N2 N1). assert (WG := fun g H => Forall2_at _ _ _ FG i l g N2 H). apply nth_error_In in N2. rewrite Forall_forall in FL, FK.
  repeat apply conj; cbn; auto.
  - destruct (nth_error (b_kf b) i) eqn:N; [apply FK; eapply nth_error_In; eassumption|reflexivity].
  - destruct (nth_error (b_GAv b) i) eqn:N; [apply WG; reflexivity|exact I].
Qed.

Definition pair_units (p : Z * load) : Z * load := (fst p, load_units u (snd p)).
Lemma parse_row_units r : parse_row (row_units u r) = rmap (map pair_units) (parse_row r).
Proof.
  destruct r as [s t args| |]; [|reflexivity|reflexivity]. cbn [row_units parse_row].
  destruct (Z.eqb_spec t 1) as [->|N1]; [destruct args; reflexivity|].
  destruct (Z.eqb_spec t 2) as [->|N2]; [destruct args as [|a [|b l]]; reflexivity|].
  destruct (Z.eqb_spec t 3) as [->|N3]; [destruct args as [|a [|b [|c l]]]; reflexivity|].
  destruct (Z.eqb_spec t 4) as [->|N4]; [destruct args as [|a [|b l]]; reflexivity|].
  destruct (Z.eqb_spec t 5) as [->|N5].
  { destruct args as [|a [|b [|c [|d l]]]]; try reflexivity. cbn. unfold pair_units. cbn. rewrite len_0. reflexivity. }
  destruct (Z.eqb_spec t 6) as [->|N6]; [reflexivity|]. reflexivity.
Qed.
Lemma mapM_units {A B A' B'} (f : A -> result B) (f' : A' -> result B') (h : A -> A') (h' : B -> B') l :
  (forall a, In a l -> f' (h a) = rmap h' (f a)) -> mapM f' (map h l) = rmap (map h') (mapM f l).
Proof.
  induction l as [|a t IH]; intros H; cbn [mapM map]; [reflexivity|]. rewrite H by (left; reflexivity). destruct (f a); [|reflexivity]. cbn [rmap rbind].
  rewrite IH by (intros; apply H; right; assumption). destruct (mapM f t); reflexivity.
Qed.
Lemma parse_units lm : parse_LM (map (row_units u) lm) = rmap (map pair_units) (parse_LM lm).
Proof.
  unfold parse_LM. replace (forallb is_list_row (map (row_units u) lm)) with (forallb is_list_row lm).
  - destruct (negb _); [reflexivity|]. rewrite (mapM_units parse_row parse_row (row_units u) (map pair_units)) by (intros; apply parse_row_units).
    destruct (mapM parse_row lm); [|reflexivity]. cbn [rmap rbind]. rewrite concat_map. reflexivity.
  - induction lm as [|r t IH]; [reflexivity|]. cbn. rewrite IH. destruct r; reflexivity.
Qed.
Lemma parsed_units b : parsed_loads (beam_units u b) = rmap (map pair_units) (parsed_loads b).
Proof.
  unfold parsed_loads. cbn [beam_units b_LM]. rewrite parse_units. destruct (parse_LM (b_LM b)) as [ls|]; [|reflexivity]. cbn [rmap rbind].
  apply mapM_units. intros [s ld] _. unfold pair_units. cbn [fst snd]. destruct ld; try reflexivity. cbn [load_units attach_EI beam_units b_EIs].
  rewrite map_length. destruct (py_index _ s); [|reflexivity]. cbn [rbind]. rewrite get_map. destruct (get _ _); reflexivity.
Qed.
Lemma loads_of_units ls i : loads_of (map pair_units ls) i = map (load_units u) (loads_of ls i).
Proof.
  unfold loads_of. induction ls as [|[s ld] t IH]; [reflexivity|]. cbn [map filter fst pair_units]. unfold pair_units at 1. cbn [fst].
  destruct (Z.eqb s (Z.of_nat i)); cbn [map snd]; rewrite IH; reflexivity.
Qed.
Lemma parsed_plain b ls i m : plain b -> parsed_loads b = Ok ls -> member_at b i = Ok m -> Forall (plain_ic (mb_L m)) (loads_of ls i).
Proof.
  intros HP E EM. assert (PM := plain_at b i m HP EM). unfold parsed_loads in E. apply rbind_ok in E as (l0 & E0 & E).
  assert (EI : nth_error (b_EIs b) i = Some (mb_EI m)).
  { unfold member_at in EM. apply rbind_ok in EM as (e & E1 & EM). apply rbind_ok in EM as (l & E2 & EM). apply rbind_ok in EM as (t & E3 & EM). injection EM as <-. cbn.
    unfold get in E1. destruct (nth_error (b_EIs b) i); [injection E1 as ->; reflexivity|discriminate]. }
  apply Forall_forall. intros ld Hin. unfold loads_of in Hin. apply in_map_iff in Hin as ([s ld'] & Eq & Hin). cbn in Eq. subst ld'. apply filter_In in Hin as [Hin S]. cbn in S. apply Z.eqb_eq in S. subst s.
  revert ls E Hin. clear E0. induction l0 as [|[s0 l] t IH]; intros ls E Hin; cbn [mapM] in E; [injection E as <-; contradiction|].
  apply rbind_ok in E as (q & Eq & E). apply rbind_ok in E as (qs & Eqs & E). injection E as <-. destruct Hin as [->|Hin]; [|apply (IH qs Eqs Hin)].
  destruct l; cbn [attach_EI] in Eq; try (injection Eq as -> <-; exact I).
  apply rbind_ok in Eq as (j & Ej & Eq). apply rbind_ok in Eq as (e & Ee & Eq). injection Eq as -> <-. cbn.
  assert (j = i). { unfold py_index in Ej. destruct (Z.leb_spec 0 (Z.of_nat i)); [|lia]. destruct (Z.ltb _ _); [|discriminate]. injection Ej as <-. apply Nat2Z.id. } subst j.
  unfold get in Ee. rewrite EI in Ee. injection Ee as <-. exact (proj1 (proj2 (proj2 PM))).
Qed.
End U.
