(** Results along the members in other units. *)
From Verif Require Import Base BaseFacts Linalg LinalgFacts SectionModel FlexModel LoadModel FoundationModel ElementModel UtilsModel BeamModel AnalysisModel ElementSpec AnalysisSpec AnalysisFacts AnalysisFacts2 ResultsModel UnitChangeSpec UnitChangeFacts UnitChangeFacts2 UnitChangeFacts3.
Open Scope R_scope.

Lemma map2_maps {A B C A' B' C'} (f : A -> B -> C) (g : A' -> B' -> C') (a : A -> A') (b : B -> B') (c : C -> C') l :
  (forall x y, g (a x) (b y) = c (f x y)) -> forall k, map2 g (map a l) (map b k) = map c (map2 f l k).
Proof.
  intros H. unfold map2. induction l as [|x t IH]; intros [|y k]; try reflexivity. cbn [map combine fst snd]. rewrite H. f_equal. apply IH.
Qed.
Lemma inner_map {A B} (f : A -> B) l : inner (map f l) = map f (inner l).
Proof. unfold inner. destruct l as [|a t]; [reflexivity|]. apply removelast_map. Qed.
Lemma inner_set l v : l <> [] -> inner (set_inner l v) = v.
Proof. intros H. destruct l; [contradiction|]. unfold set_inner, inner. cbn [tl]. apply removelast_last. Qed.
Lemma last_map (f : R -> R) l : f 0 = 0 -> last (map f l) 0 = f (last l 0).
Proof. intros E. induction l as [|a [|b t] IH]; [symmetry; exact E|reflexivity|]. cbn [map last] in *. exact IH. Qed.
Lemma hd_map (f : R -> R) l : f 0 = 0 -> hd 0 (map f l) = f (hd 0 l).
Proof. intros E. destruct l; [symmetry; exact E|reflexivity]. Qed.
Lemma map_const_map {A B C} (f : A -> B) (c : C) l : map (fun _ => c) (map f l) = map (fun _ => c) l.
Proof. rewrite map_map. reflexivity. Qed.

Section U.
Variable u : units.
Hypothesis Hu : proper u.
Variable gl : nat -> list (R * R).
Variable ill : nat -> mat -> bool.
Let Hl : 0 < u_len u := proj1 Hu.
Let Hf : 0 < u_for u := proj2 Hu.
Ltac un := unfold per, frc, mom, rig, len.

Lemma uniform_units L n : uniform (len u L) n = map (len u) (uniform L n).
Proof. unfold uniform. rewrite map_map. apply map_ext. intros k. un. unfold Rdiv. ring. Qed.
Lemma offset_units L : shear_offset (len u L) = len u (shear_offset L).
Proof. unfold shear_offset. un. ring. Qed.
Lemma shear_units L sp : shear_pairs (len u L) (map (len u) sp) = map (len u) (shear_pairs L sp).
Proof.
  unfold shear_pairs. induction sp as [|s t IH]; [reflexivity|]. cbn [map flat_map]. rewrite map_app, IH. f_equal.
  rewrite offset_units, len_minus, !(len_lt u Hu). destruct (Rltb (shear_offset L) s && Rltb s (L - shear_offset L))%bool; [|reflexivity]. cbn [map]. rewrite len_minus, len_plus. reflexivity.
Qed.
Lemma insert_units x l : insert_R (len u x) (map (len u) l) = map (len u) (insert_R x l).
Proof.
  induction l as [|y t IH]; [reflexivity|]. cbn [insert_R map]. destruct (Rle_dec x y) as [H|H], (Rle_dec (len u x) (len u y)) as [H'|H']; try reflexivity.
  - exfalso. apply H'. un. nra.
  - exfalso. apply H. unfold len in H'. nra.
  - cbn [map]. rewrite IH. reflexivity.
Qed.
Lemma sort_units l : sort_R (map (len u) l) = map (len u) (sort_R l).
Proof. induction l as [|x t IH]; [reflexivity|]. unfold sort_R in *. cbn [map fold_right]. rewrite IH. apply insert_units. Qed.
Lemma stations_units L n sp : stations (len u L) n (map (len u) sp) = map (len u) (stations L n sp).
Proof.
  assert (G : grid_of (len u L) n (map (len u) sp) = map (len u) (grid_of L n sp)).
  { unfold grid_of. rewrite shear_units, uniform_units. destruct (shear_pairs L sp) as [|a t]; [reflexivity|]. cbn [map]. change (len u a :: map (len u) t) with (map (len u) (a :: t)). rewrite <- map_app. apply sort_units. }
  unfold stations. rewrite G. cbv zeta. rewrite hd_map, last_map by apply len_0. cbn [map]. rewrite map_app. reflexivity.
Qed.

Lemma cum_from_sc k xs : forall ys acc xp yp,
  cumtrapz_from (u_len u * k * acc) (len u xp) (k * yp) (map (len u) xs) (map (Rmult k) ys) = map (Rmult (u_len u * k)) (cumtrapz_from acc xp yp xs ys).
Proof.
  induction xs as [|x t IH]; intros [|y ys] acc xp yp; try reflexivity. cbn [map cumtrapz_from].
  replace (u_len u * k * acc + (len u x - len u xp) * (k * yp + k * y) / 2) with (u_len u * k * (acc + (x - xp) * (yp + y) / 2)) by (un; field).
  rewrite IH. reflexivity.
Qed.
Lemma cum_sc k ys xs : cumtrapz (map (Rmult k) ys) (map (len u) xs) = map (Rmult (u_len u * k)) (cumtrapz ys xs).
Proof.
  unfold cumtrapz. destruct xs as [|x t], ys as [|y s]; try reflexivity. cbn [map]. rewrite <- cum_from_sc. f_equal; [ring|]. f_equal. ring.
Qed.
Lemma cum_rot ys xs : cumtrapz (map (Rmult (1 / u_len u)) ys) (map (len u) xs) = cumtrapz ys xs.
Proof. rewrite cum_sc. rewrite (map_ext _ (fun x => x)); [apply map_id|]. intros v. field. lra. Qed.
Lemma cum_len ys xs : cumtrapz ys (map (len u) xs) = map (len u) (cumtrapz ys xs).
Proof.
  assert (E := cum_sc 1 ys xs). rewrite (map_ext (Rmult 1) (fun x => x)) in E by (intros; ring). rewrite map_id in E. rewrite E. apply map_ext. intros v. un. ring.
Qed.

(** Superposition of the diagrams *)
Definition diag_rel (r r' : mres) : Prop :=
  r_x r' = map (len u) (r_x r) /\ r_M r' = map (mom u) (r_M r) /\ r_V r' = map (frc u) (r_V r) /\ length (r_R r') = length (r_R r) /\ length (r_D r') = length (r_D r).
Lemma cum_from_len xs : forall ys acc xp yp, length (cumtrapz_from acc xp yp xs ys) = Nat.min (length xs) (length ys).
Proof. induction xs as [|x t IH]; intros [|y ys] acc xp yp; try reflexivity. cbn [cumtrapz_from length]. rewrite IH. reflexivity. Qed.
Lemma cum_length ys xs : length (cumtrapz ys xs) = Nat.min (length xs) (length ys).
Proof. unfold cumtrapz. destruct xs, ys; try reflexivity. cbn [length]. rewrite cum_from_len. reflexivity. Qed.
Lemma mbr_len ld xs L : length (r_R (get_mbr_results ld xs L)) = length xs /\ length (r_D (get_mbr_results ld xs L)) = length xs.
Proof.
  destruct ld as [w|P a|w a c|w1 w2 a c|Ma Mb|m a|k e]; [cbn; rewrite ?map_length; auto ..|]. cbn [get_mbr_results ic_mres r_R r_D]. rewrite !map_length, combine_length, !cum_length, map_length. split; lia.
Qed.
Lemma sampled_rel ld xs L : 0 < L -> diag_rel (get_mbr_results ld xs L) (get_mbr_results (load_units u ld) (map (len u) xs) (len u L)).
Proof.
  intros HL. destruct (sampled_units u Hu ld xs L HL) as (A & B & C). repeat apply conj; auto;
  rewrite ?(proj1 (mbr_len _ _ _)), ?(proj2 (mbr_len _ _ _)), map_length; reflexivity.
Qed.
Lemma add_rel a a' b b' : diag_rel a a' -> diag_rel b b' -> diag_rel (mres_add a b) (mres_add a' b').
Proof.
  intros (A1 & A2 & A3 & A4 & A5) (B1 & B2 & B3 & B4 & B5). unfold mres_add, diag_rel. cbn [r_x r_M r_V r_R r_D].
  repeat apply conj; [exact A1| | | |].
  - rewrite A2, B2. apply map2_maps. intros x y. un. ring.
  - rewrite A3, B3. apply map2_maps. intros x y. un. ring.
  - unfold map2. rewrite !map_length, !combine_length, A4, B4. reflexivity.
  - unfold map2. rewrite !map_length, !combine_length, A5, B5. reflexivity.
Qed.
Lemma fold_rel lds xs L : 0 < L -> forall r r', diag_rel r r' ->
  diag_rel (fold_left (fun r ld => mres_add r (get_mbr_results ld xs L)) lds r)
           (fold_left (fun r ld => mres_add r (get_mbr_results ld (map (len u) xs) (len u L))) (map (load_units u) lds) r').
Proof.
  intros HL. induction lds as [|ld t IH]; intros r r' H; [exact H|]. cbn [fold_left map]. apply IH, add_rel; [exact H|apply sampled_rel, HL].
Qed.
Lemma fold_add (f : cnl -> R) cs : (forall c, f (cnl_units u c) = mom u (f c)) -> forall s, fold_left (fun s c => s + f c) (map (cnl_units u) cs) (mom u s) = mom u (fold_left (fun s c => s + f c) cs s).
Proof.
  intros H. induction cs as [|c t IH]; intros s; [reflexivity|]. cbn [fold_left map]. rewrite H. rewrite <- IH. f_equal. un. ring.
Qed.
Definition kap_at (lds : list load) (x : R) : R := fold_left (fun s ld => match ld with LIC k _ => s + kappa_imp k x | _ => s end) lds 0.
Lemma kap_units lds x : kap_at (map (load_units u) lds) (len u x) = 1 / u_len u * kap_at lds x.
Proof.
  unfold kap_at. assert (G : forall s, fold_left (fun s ld => match ld with LIC k _ => s + kappa_imp k (len u x) | _ => s end) (map (load_units u) lds) (1 / u_len u * s) =
    1 / u_len u * fold_left (fun s ld => match ld with LIC k _ => s + kappa_imp k x | _ => s end) lds s).
  { induction lds as [|ld t IH]; intros s; [reflexivity|]. cbn [fold_left map]. rewrite <- IH. f_equal. destruct ld; cbn [load_units]; try reflexivity. rewrite (kappa_len u Hu). ring. }
  rewrite <- G. f_equal. ring.
Qed.
Lemma nonzero_sc c l : c <> 0 -> nonzero (map (Rmult c) l) = nonzero l.
Proof.
  intros Hc. unfold nonzero. induction l as [|v t IH]; [reflexivity|]. cbn [map existsb]. rewrite IH. f_equal. f_equal. unfold Reqb.
  destruct (Req_EM_T v 0) as [e|e], (Req_EM_T (c * v) 0) as [e'|e']; try reflexivity; [exfalso; apply e'; rewrite e; ring|].
  exfalso. apply Rmult_integral in e' as [e'|e']; contradiction.
Qed.

Lemma frc_div a b : b <> 0 -> - frc u a / (u_for u * b) = - a / b.
Proof. intros H. un. field. lra. Qed.
Lemma get_ma f : mom u f = act u 1 f /\ mom u f = act u 3 f.
Proof. split; reflexivity. Qed.

Lemma values_units m lds f f' d d' n sp : plain_member m -> Forall (plain_ic (mb_L m)) lds ->
  ends_units u f f' -> (forall q, (q < 4)%nat -> d' q = dis u q (d q)) ->
  sim (member_units u) (member_values gl m lds f d n sp) (member_values gl (member_units_of u m) (map (load_units u) lds) f' d' n (map (len u) sp)).
Proof.
  intros (HL & HK & HE & HG) HI HF HD. unfold member_values. cbn [member_units_of mb_L mb_EI mb_GAv mb_type]. set (L := mb_L m) in *. cbv zeta.
  rewrite stations_units, inner_map. set (x := stations L n sp). set (xi := inner x).
  assert (Fm : f' 1%nat = mom u (f 1%nat) /\ f' 3%nat = mom u (f 3%nat)) by (split; rewrite HF by lia; reflexivity). destruct Fm as [-> ->].
  assert (D0 : d' 0%nat = len u (d 0%nat)) by (rewrite HD by lia; reflexivity).
  assert (D1 : d' 1%nat = d 1%nat) by (rewrite HD by lia; reflexivity).
  assert (D2 : d' 2%nat = len u (d 2%nat)) by (rewrite HD by lia; reflexivity).
  rewrite D0, D1, D2. clear HD D0 D1 D2 HF.
  set (res := fold_left (fun r ld => mres_add r (get_mbr_results ld x L)) lds (get_mbr_results (LMaMb (f 1%nat) (f 3%nat)) x L)).
  set (res' := fold_left (fun r ld => mres_add r (get_mbr_results ld (map (len u) x) (len u L))) (map (load_units u) lds) (get_mbr_results (LMaMb (mom u (f 1%nat)) (mom u (f 3%nat))) (map (len u) x) (len u L))).
  assert (HR : diag_rel res res') by (apply fold_rel; [exact HL|]; apply (sampled_rel (LMaMb (f 1%nat) (f 3%nat))), HL).
  assert (NE : r_R res <> [] /\ r_D res <> []).
  { assert (Q : forall lds r, length (r_R r) = length x -> length (r_D r) = length x ->
      length (r_R (fold_left (fun r ld => mres_add r (get_mbr_results ld x L)) lds r)) = length x /\ length (r_D (fold_left (fun r ld => mres_add r (get_mbr_results ld x L)) lds r)) = length x).
    { induction lds0 as [|ld t IH]; intros r Q1 Q2; [split; assumption|]. cbn [fold_left]. apply IH; cbn [mres_add r_R r_D]; unfold map2; rewrite map_length, combine_length, ?(proj1 (mbr_len _ _ _)), ?(proj2 (mbr_len _ _ _)), ?Q1, ?Q2; lia. }
    destruct (Q lds (get_mbr_results (LMaMb (f 1%nat) (f 3%nat)) x L) (proj1 (mbr_len _ _ _)) (proj2 (mbr_len _ _ _))) as [Q1 Q2].
    fold res in Q1, Q2. split; intros E; rewrite E in *; cbn in Q1, Q2; unfold x, stations in *; cbn in *; discriminate. }
  clearbody res res'. destruct HR as (Rx & RM & RV & RR & RD). destruct NE as [NR ND].
  assert (NR' : r_R res' <> []) by (intros E; rewrite E in RR; destruct (r_R res); [contradiction|discriminate]).
  assert (ND' : r_D res' <> []) by (intros E; rewrite E in RD; destruct (r_D res); [contradiction|discriminate]).
  rewrite (mapM_units (fun ld => get_cnl gl ld L) (fun ld => get_cnl gl ld (len u L)) (load_units u) (cnl_units u)).
  2:{ intros ld Hin. rewrite Forall_forall in HI. apply cnl_of_units; auto. }
  destruct (mapM (fun ld => get_cnl gl ld L) lds) as [cs|]; [|reflexivity]. cbn [rmap rbind].
  set (Ma := fold_left (fun s c => s + c_Ma c) cs 0). set (Mb := fold_left (fun s c => s + c_Mb c) cs 0).
  assert (EMa : fold_left (fun s c => s + c_Ma c) (map (cnl_units u) cs) 0 = mom u Ma) by (unfold Ma; rewrite <- fold_add by reflexivity; rewrite mom_0; reflexivity).
  assert (EMb : fold_left (fun s c => s + c_Mb c) (map (cnl_units u) cs) 0 = mom u Mb) by (unfold Mb; rewrite <- fold_add by reflexivity; rewrite mom_0; reflexivity).
  rewrite EMa, EMb. clearbody Ma Mb. clear EMa EMb.
  assert (EK : map (fun x0 => fold_left (fun s ld => match ld with LIC k _ => s + kappa_imp k x0 | _ => s end) (map (load_units u) lds) 0) (map (len u) x) = map (Rmult (1 / u_len u)) (map (kap_at lds) x)).
  { rewrite !map_map. apply map_ext. intros y. apply kap_units. }
  rewrite EK. change (map (fun x0 => fold_left (fun s ld => match ld with LIC k _ => s + kappa_imp k x0 | _ => s end) lds 0) x) with (map (kap_at lds) x).
  set (kap := map (kap_at lds) x). clearbody kap. clear EK. rewrite nonzero_sc by (apply Rgt_not_eq; unfold Rdiv; rewrite Rmult_1_l; apply Rinv_0_lt_compat, Hl).
  assert (WE' := whole_units u Hu L (u_for u * u_len u ^ 2) (mb_EI m) (rc_pos u Hu) HE).
  unfold ei_units. rewrite (rigid_at_value L _ _ HE), (rigid_at_value (len u L) _ _ WE'). cbn [rbind].
  assert (EVx : map (value (rigid_units u (u_for u * u_len u ^ 2) (mb_EI m))) (map (len u) x) = map (fun c => u_for u * u_len u ^ 2 * c) (map (value (mb_EI m)) x)).
  { rewrite !map_map. apply map_ext. intros y. apply (value_units u Hu L _ _ y HE). }
  rewrite EVx. clear EVx. set (vs := map (value (mb_EI m)) x).
  assert (EC : map2 Rplus (map2 Rdiv (r_M res') (map (fun c => u_for u * u_len u ^ 2 * c) vs)) (map (Rmult (1 / u_len u)) kap) = map (Rmult (1 / u_len u)) (map2 Rplus (map2 Rdiv (r_M res) vs) kap)).
  { rewrite RM.
    assert (Q : map2 Rdiv (map (mom u) (r_M res)) (map (fun c => u_for u * u_len u ^ 2 * c) vs) = map (Rmult (1 / u_len u)) (map2 Rdiv (r_M res) vs)).
    { apply map2_maps. intros a b. unfold mom, Rdiv. rewrite (Rinv_mult (u_for u * u_len u ^ 2) b). generalize (/ b). intros ib. field. lra. }
    rewrite Q. apply map2_maps. intros a b. ring. }
  rewrite EC, inner_map, cum_rot. set (curv := map2 Rplus (map2 Rdiv (r_M res) vs) kap). clearbody curv. clear EC vs.
  assert (EG : forall g, whole L g -> inner (r_V res') = map (frc u) (inner (r_V res)) ->
    (do gs <- rigid_at (ga_units u g) (map (len u) xi); Ok (map2 (fun v g => - v / g) (inner (r_V res')) gs)) = Ok (map2 (fun v g => - v / g) (inner (r_V res)) (map (value g) xi))).
  { intros g Wg ->. assert (Wg' := whole_units u Hu L (u_for u) g Hf Wg). unfold ga_units. rewrite (rigid_at_value (len u L) _ _ Wg'). cbn [rbind]. f_equal.
    replace (map (value (rigid_units u (u_for u) g)) (map (len u) xi)) with (map (fun c => u_for u * c) (map (value g) xi)) by (rewrite !map_map; apply map_ext; intros y; symmetry; apply (value_units u Hu L _ _ y Wg)).
    rewrite (map2_maps (fun v g => - v / g) (fun v g => - v / g) (frc u) (fun c => u_for u * c) (fun y => y)); [apply map_id|].
    intros a b. unfold frc, Rdiv. rewrite (Rinv_mult (u_for u) b). generalize (/ b). intros ib. field. lra. }
  assert (EV : inner (r_V res') = map (frc u) (inner (r_V res))) by (rewrite RV; apply inner_map).
  assert (EXI : map (fun _ : R => 0) (map (len u) xi) = map (fun _ : R => 0) xi) by apply map_const_map.
  set (prov := cumtrapz (inner curv) xi).
  assert (EB : forall gamma, map (fun p => p + (len u (d 2%nat) - len u (d 0%nat) - last (cumtrapz (map2 Rplus prov gamma) (map (len u) xi)) 0) / len u L) prov = map (fun p => p + (d 2%nat - d 0%nat - last (cumtrapz (map2 Rplus prov gamma) xi) 0) / L) prov).
  { intros gamma. rewrite cum_len, last_map by apply len_0. apply map_ext. intros p. un. field. lra. }
  assert (EN : forall e, 0 < e -> map (fun p => p + ((len u (d 2%nat) - len u (d 0%nat)) / len u L - len u L / (3 * (u_for u * u_len u ^ 2 * e)) * (- (mom u (f 1%nat) - 1 / 2 * mom u (f 3%nat)) + (mom u Ma - 1 / 2 * mom u Mb)))) prov =
    map (fun p => p + ((d 2%nat - d 0%nat) / L - L / (3 * e) * (- (f 1%nat - 1 / 2 * f 3%nat) + (Ma - 1 / 2 * Mb)))) prov).
  { intros e He. apply map_ext. intros p. un. field. lra. }
  assert (ES : forall psi gamma, map (fun y => y + len u (d 0%nat)) (cumtrapz (map2 Rplus psi gamma) (map (len u) xi)) = map (len u) (map (fun y => y + d 0%nat) (cumtrapz (map2 Rplus psi gamma) xi))).
  { intros psi gamma. rewrite cum_len, !map_map. apply map_ext. intros y. un. ring. }
  assert (EI : is_sect (rigid_units u (u_for u * u_len u ^ 2) (mb_EI m)) = is_sect (mb_EI m)) by (destruct (mb_EI m); reflexivity). rewrite EI.
  destruct (mb_GAv m) as [g|]; cbn [option_map whole_shear] in *; [rewrite (EG g HG EV), (rigid_at_value L g xi HG)|rewrite EXI]; cbn [rbind].
  - set (gamma := map2 (fun v g => - v / g) (inner (r_V res)) (map (value g) xi)). rewrite !orb_true_r. rewrite EB, ES. cbn [sim]. unfold member_units. cbn [r_x r_M r_V r_R r_D].
    rewrite !inner_set by assumption. repeat apply conj; auto.
  - set (gamma := map (fun _ : R => 0) xi). rewrite !orb_false_r. destruct (mb_EI m) as [e|s]; cbn [rigid_units is_sect orb]; rewrite EB; [rewrite (EN e HE)|]; rewrite ES; cbn [sim]; unfold member_units; cbn [r_x r_M r_V r_R r_D];
    rewrite !inner_set by assumption; repeat apply conj; auto.
Qed.
End U.
