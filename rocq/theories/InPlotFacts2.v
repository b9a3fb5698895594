From Coq Require Import ZArith.
From Verif Require Import Base BaseFacts SectionModel SectBuildModel SectBuildSpec VehicleModel EnvelopeModel BridgeModel BridgeFacts CritFacts InPlotModel InPlotSpec InPlotFacts.
Open Scope R_scope.

(** ** Depths *)
Lemma const_samples off L Ls' es' v : 0 < L -> forall x w, In (x, w) [(off + 0, v); (off + L, v)] -> rigidity_at off (L :: Ls') (RConst v :: es') x w.
Proof. intros H x w [E|[E|[]]]; injection E as <- <-; apply ra_const; lra. Qed.
Lemma samples_on Ls es : positive_beam Ls es -> forall off, exists xv, all_samples off Ls es = Ok xv /\
  (forall x v, In (x, v) xv -> rigidity_at off Ls es x v /\ 0 < v) /\ (es <> [] -> xv <> []).
Proof.
  induction 1 as [|L e Ls' es' [HL He] F IH]; intros off.
  - exists []. split; [reflexivity|]. split; [intros x v []|congruence].
  - destruct (IH (off + L)) as (t & Et & Ht & _). cbn [all_samples].
    assert (D : exists h, depth_samples off L e = Ok h /\ (forall x v, In (x, v) h -> rigidity_at off (L :: Ls') (e :: es') x v /\ 0 < v) /\ h <> []).
    { destruct e as [v|s]; cbn [depth_samples].
      - exists [(off + 0, v); (off + L, v)]. split; [reflexivity|]. split; [|discriminate]. intros x w I. split; [exact (const_samples _ _ _ _ _ HL _ _ I)|]. destruct I as [E|[E|[]]]; injection E as <- <-; exact He.
      - assert (G : forall l, (forall x, In x l -> 0 <= x <= L) -> exists h, mapM (fun x => do v <- sect_eval s x; Ok (off + x, v)) l = Ok h /\ length h = length l /\
            forall x v, In (x, v) h -> rigidity_at off (L :: Ls') (RSect s :: es') x v /\ 0 < v).
        { induction l as [|x l IHl]; intros HB; [exists []; split; [reflexivity|]; split; [reflexivity|intros x v []]|].
          destruct IHl as (h & Eh & Lh & Ph); [intros y I; apply HB; right; exact I|]. destruct (He x (HB x (or_introl eq_refl))) as (v & Ev & Pv). cbn [mapM]. rewrite Ev. cbn [rbind]. rewrite Eh. cbn [rbind].
          exists ((off + x, v) :: h). split; [reflexivity|]. split; [cbn; congruence|]. intros y w [E|I]; [|exact (Ph y w I)]. injection E as <- <-. split; [|exact Pv].
          specialize (HB x (or_introl eq_refl)). apply ra_sect; [lra|]. replace (off + x - off) with x by ring. exact Ev. }
        destruct (G (linspace 0 L 41)) as (h & Eh & Lh & Ph); [intros x I; apply (linspace_in 0 L 41); [lra|lia|exact I]|]. exists h. split; [exact Eh|]. split; [exact Ph|]. intros ->. rewrite linspace_len in Lh. discriminate. }
    destruct D as (h & -> & Ph & Nh). cbn [rbind]. rewrite Et. cbn [rbind]. exists (h ++ t). split; [reflexivity|]. split.
    + intros x v I. apply in_app_iff in I. destruct I as [I|I]; [exact (Ph x v I)|]. destruct (Ht x v I) as [A B]. split; [apply ra_next, A|exact B].
    + intros _ E. apply app_eq_nil in E. destruct E. contradiction.
Qed.
Lemma cube_root u : 0 < u -> 0 < Rpower u (1/3) /\ Rpower u (1/3) ^ 3 = u.
Proof.
  intros H. split; [apply exp_pos|]. rewrite <- Rpower_pow by apply exp_pos. rewrite Rpower_mult. replace (1/3 * INR 3) with 1 by (cbn; field). apply Rpower_1, H.
Qed.
Lemma depth_shown sh Ls es pts : 0 < sh -> positive_beam Ls es -> depth_profile sh Ls es = Ok (Some pts) ->
  exists top, (exists x, In (x, 6/10 * sh) pts /\ rigidity_at 0 Ls es x top) /\
    forall x h, In (x, h) pts -> exists v, rigidity_at 0 Ls es x v /\ 0 < v <= top /\ 0 < h /\ (h / (6/10 * sh)) ^ 3 = v / top.
Proof.
  intros Hs P E. destruct (samples_on _ _ P 0) as (xv & Ex & Hx & Nx). unfold depth_profile in E. destruct es as [|e es']; [discriminate|]. rewrite Ex in E. cbn [rbind] in E.
  specialize (Nx ltac:(discriminate)). assert (N : map snd xv <> []) by (intros Q; apply map_eq_nil in Q; contradiction). destruct (row_max_greatest _ N) as [GI GM]. set (mx := row_max (map snd xv)) in *.
  destruct (_ || _)%bool in E; [discriminate|]. injection E as <-. apply in_map_iff in GI. destruct GI as ([xm vm] & Em & Im). cbn in Em. subst vm. destruct (Hx _ _ Im) as [Rm Pm].
  exists mx. split.
  - exists xm. split; [|exact Rm]. apply in_map_iff. exists (xm, mx). split; [|exact Im]. cbn [fst snd]. f_equal. unfold Rdiv at 2. rewrite Rinv_r by lra. unfold Rpower. rewrite ln_1, Rmult_0_r, exp_0. ring.
  - intros x h I. apply in_map_iff in I. destruct I as ([x' v] & Q & I). cbn [fst snd] in Q. injection Q as <- <-. destruct (Hx _ _ I) as [Rv Pv]. exists v. split; [exact Rv|].
    assert (v <= mx) by (apply GM, in_map_iff; exists (x', v); auto). split; [lra|]. assert (U : 0 < v / mx) by (apply Rdiv_lt_0_compat; lra). destruct (cube_root _ U) as [C1 C2].
    split; [apply Rmult_lt_0_compat; lra|]. replace (6 / 10 * sh * Rpower (v / mx) (1 / 3) / (6 / 10 * sh)) with (Rpower (v / mx) (1/3)) by (field; lra). exact C2.
Qed.
Lemma fold_min_const v l : Forall (eq v) l -> fold_left Rmin l v = v.
Proof. induction 1 as [|x l E F IH]; [reflexivity|]. subst x. cbn. rewrite Rmin_left by lra. exact IH. Qed.
Lemma fold_max_const v l : Forall (eq v) l -> fold_left Rmax l v = v.
Proof. induction 1 as [|x l E F IH]; [reflexivity|]. subst x. cbn. rewrite Rmax_left by lra. exact IH. Qed.
Lemma const_profile sh v : 0 < v -> forall Ls es, length Ls = length es -> Forall (eq (RConst v)) es -> depth_profile sh Ls es = Ok None.
Proof.
  intros Hv Ls es L F. assert (S : forall Ls es off, length Ls = length es -> Forall (eq (RConst v)) es -> exists xv, all_samples off Ls es = Ok xv /\ Forall (eq v) (map snd xv)).
  { clear. induction Ls as [|L Ls IH]; intros es off Q F; destruct es as [|e es]; try discriminate; [exists []; split; [reflexivity|constructor]|]. inversion F as [|? ? E F']; subst.
    destruct (IH es (off + L)) as (xv & E & G); [cbn in Q; lia|exact F'|]. cbn. rewrite E. cbn. eexists. split; [reflexivity|]. cbn. constructor; [reflexivity|]. constructor; [reflexivity|exact G]. }
  unfold depth_profile. destruct es as [|e es]; [reflexivity|]. destruct (S Ls (e :: es) 0 L F) as (xv & -> & G). cbn [rbind]. destruct (map snd xv) as [|w l]; [cbn; destruct (Rleb_spec 0 0); [reflexivity|lra]|].
  inversion G as [|? ? E G']; subst. cbn [row_max row_min]. rewrite fold_min_const, fold_max_const by exact G'. destruct (Rleb_spec (w - w) (1e-6 * w)); [rewrite Bool.orb_true_r; reflexivity|]. lra.
Qed.

(** ** Rounded labels *)
Lemma floor_log v : v <> 0 -> let e := Int_part (ln (Rabs v) / ln 10) in powerRZ 10 e <= Rabs v.
Proof.
  intros H e. assert (P : 0 < Rabs v) by (apply Rabs_pos_lt, H). assert (L : 0 < ln 10) by (rewrite <- ln_1; apply ln_increasing; lra).
  assert (B := base_Int_part (ln (Rabs v) / ln 10)). fold e in B. assert (E : powerRZ 10 e = exp (IZR e * ln 10)).
  { rewrite powerRZ_Rpower by lra. reflexivity. }
  rewrite E. rewrite <- (exp_ln (Rabs v)) by exact P. assert (IZR e * ln 10 <= ln (Rabs v)).
  { destruct B as [B _]. apply (Rmult_le_compat_r (ln 10)) in B; [|lra]. unfold Rdiv in B. rewrite Rmult_assoc, Rinv_l, Rmult_1_r in B by lra. exact B. }
  destruct H0 as [H0|H0]; [left; apply exp_increasing, H0|rewrite H0; right; reflexivity].
Qed.
Lemma sig_near v : label_of v (round_sig v).
Proof.
  unfold label_of, round_sig. destruct (Reqb_spec v 0) as [->|N]; [rewrite Rminus_diag_eq, Rabs_R0 by reflexivity; lra|].
  set (e := Int_part (ln (Rabs v) / ln 10)). assert (F := floor_log v N). cbv zeta in F. fold e in F. unfold round_to. set (T := powerRZ 10 (- e + 3)).
  assert (PT : 0 < T) by (apply powerRZ_lt; lra). assert (RN := py_round_near (v * T)).
  assert (ET : T * powerRZ 10 e = 1000). { unfold T. rewrite <- powerRZ_add by lra. replace (- e + 3 + e)%Z with 3%Z by ring. change (powerRZ 10 3) with (10 ^ 3). ring. }
  replace (IZR (py_round (v * T)) / T - v) with (- ((v * T - IZR (py_round (v * T))) * / T)) by (field; lra). rewrite Rabs_Ropp, Rabs_mult, (Rabs_right (/ T)) by (left; apply Rinv_0_lt_compat, PT).
  apply (Rmult_le_reg_r T); [exact PT|]. rewrite Rmult_assoc, Rinv_l, Rmult_1_r by lra. assert (T * powerRZ 10 e <= T * Rabs v) by (apply Rmult_le_compat_l; lra). lra.
Qed.
Lemma label_sign v l : label_of v l -> (0 <= l <-> 0 <= v).
Proof. unfold label_of. intros H. unfold Rabs in H. destruct (Rcase_abs v), (Rcase_abs (l - v)); split; intros; lra. Qed.
Lemma label_abs v l : label_of v l -> label_of (Rabs v) (Rabs l).
Proof. unfold label_of. intros H. rewrite Rabs_Rabsolu. apply (Rle_trans _ (Rabs (l - v))); [|exact H]. apply Rabs_triang_inv2. Qed.

(** ** Reactions *)
Lemma vert_is sh m x F : 0 < sh -> Rabs F <= m -> force_arrow x F (- (17/10) * sh) (vert_arrow sh m x F) /\
  arrow_length (vert_arrow sh m x F) = sh * (22/10 + 13/10 * (if Reqb m 0 then 1 else Rabs F / m)).
Proof.
  intros Hs Hm. unfold vert_arrow. set (u := if Reqb m 0 then 1 else Rabs F / m). assert (A := Rabs_pos F).
  assert (U : 0 <= u). { unfold u. destruct (Reqb_spec m 0); [lra|]. apply Rmult_le_pos; [exact A|]. left. apply Rinv_0_lt_compat. lra. }
  assert (P : 0 < sh * (22/10 + 13/10 * u)) by (apply Rmult_lt_0_compat; lra).
  destruct (Rleb_spec 0 F) as [H|H]; (split; [split; cbn; try (intros; lra); try reflexivity; try (apply sig_near)|unfold arrow_length; cbn [va_head va_tail]]).
  - rewrite Rabs_right; lra.
  - rewrite Rabs_left; lra.
Qed.
Lemma fold_max_base l : forall a, a <= fold_left Rmax l a.
Proof. induction l as [|y l IH]; intros a; cbn; [lra|]. apply (Rle_trans _ (Rmax a y)); [apply Rmax_l|apply IH]. Qed.
Lemma fold_max_ge l : forall a x, In x l -> x <= fold_left Rmax l a.
Proof.
  induction l as [|y l IH]; intros a x []; cbn; [subst; apply (Rle_trans _ (Rmax a x)); [apply Rmax_r|apply fold_max_base]|apply IH; assumption].
Qed.
Lemma mapM_F2 {A B} (f : A -> result B) l v : mapM f l = Ok v -> Forall2 (fun a b => f a = Ok b) l v.
Proof.
  revert v. induction l as [|a l IH]; intros v E; cbn in E; [injection E as <-; constructor|]. apply rbind_ok in E. destruct E as (b & Eb & E). apply rbind_ok in E. destruct E as (t & Et & E). injection E as <-. constructor; auto.
Qed.
Lemma F2_weak {A B} (P Q : A -> B -> Prop) l m : (forall a b, In a l -> P a b -> Q a b) -> Forall2 P l m -> Forall2 Q l m.
Proof. intros H F. induction F as [|a b l m E F IH]; constructor; [apply H; [left; reflexivity|exact E]|]. apply IH. intros x y I. apply H. right. exact I. Qed.
Lemma reactions_shown node_x sh vert mom vs ms : 0 < sh -> reactions_picture node_x sh vert mom = Ok (vs, ms) ->
  Forall2 (fun p a => exists x, nth_error node_x (fst p) = Some x /\ force_arrow x (snd p) (- (17/10) * sh) a) vert vs /\
  Forall2 (fun p a => exists x, nth_error node_x (fst p) = Some x /\ turn_arrow x (snd p) a) mom ms /\
  (exists g, (forall r r', r <= r' -> g r <= g r') /\ Forall2 (fun p a => arrow_length a = g (Rabs (snd p))) vert vs).
Proof.
  intros Hs E. unfold reactions_picture in E. set (m := fold_left Rmax (map (fun p => Rabs (snd p)) vert) 0) in E.
  assert (Hm : forall p, In p vert -> Rabs (snd p) <= m) by (intros p I; apply fold_max_ge, in_map_iff; exists p; auto). assert (M0 : 0 <= m) by apply fold_max_base. clearbody m.
  apply rbind_ok in E. destruct E as (vs' & Ev & E). apply rbind_ok in E. destruct E as (ms' & Em & E). injection E as <- <-. apply mapM_F2 in Ev. apply mapM_F2 in Em. split; [|split].
  - revert Ev. apply F2_weak. intros [n F] a I Q. cbn [fst snd] in *. apply rbind_ok in Q. destruct Q as (x & Ex & Q). injection Q as <-. exists x. split; [apply get_ok, Ex|]. exact (proj1 (vert_is sh m x F Hs (Hm _ I))).
  - revert Em. apply F2_weak. intros [n F] a I Q. cbn [fst snd] in *. apply rbind_ok in Q. destruct Q as (x & Ex & Q). injection Q as <-. exists x. split; [apply get_ok, Ex|].
    unfold moment_arrow. assert (L := sig_near F). split; cbn; [reflexivity| |apply label_abs, L]. rewrite <- (label_sign _ _ L). destruct (Rleb_spec 0 (round_sig F)); split; intros; try reflexivity; try lra; discriminate.
  - exists (fun r => sh * (22/10 + 13/10 * (if Reqb m 0 then 1 else r / m))). split.
    + intros r r' H. apply Rmult_le_compat_l; [lra|]. destruct (Reqb_spec m 0); [lra|]. assert (r / m <= r' / m); [|lra]. apply Rmult_le_compat_r; [left; apply Rinv_0_lt_compat; lra|exact H].
    + revert Ev. apply F2_weak. intros [n F] a I Q. cbn [fst snd] in *. apply rbind_ok in Q. destruct Q as (x & Ex & Q). injection Q as <-. exact (proj2 (vert_is sh m x F Hs (Hm _ I))).
Qed.

(** ** Vehicles *)
Lemma vehicle_shown axs axw v : vehicle_init axs axw = Ok v -> 
  map (fun a => fst (fst a)) (vehicle_picture v) = v_coords v /\ map snd (vehicle_picture v) = axw /\
  (forall a, In a (vehicle_picture v) -> 4/10 <= snd (fst a) <= 1) /\
  (forall a b, In a (vehicle_picture v) -> In b (vehicle_picture v) -> Rabs (snd a) < Rabs (snd b) -> snd (fst a) < snd (fst b)).
Proof.
  intros E. unfold vehicle_init in E. destruct (Nat.eqb_spec (length axs + 1) (length axw)) as [L|]; [|discriminate]. injection E as <-. unfold vehicle_picture. cbn [v_axw v_coords].
  set (wmax := match axw with [] => 1 | _ => row_max (map Rabs axw) end). assert (LC : length (cumul 0 axs) = length axw).
  { rewrite <- L. clear. generalize 0. induction axs as [|s t IH]; intros x; cbn; [reflexivity|]. rewrite (IH (x + s)). reflexivity. }
  assert (W : forall w, In w axw -> Rabs w <= wmax). { intros w I. unfold wmax. destruct axw as [|w0 t] eqn:Ea; [destruct I|]. rewrite <- Ea in *. apply row_max_greatest; [rewrite Ea; discriminate|]. apply in_map, I. }
  assert (PW : forall w, In w axw -> 0 <= wmax) by (intros w I; apply (Rle_trans _ (Rabs w)); [apply Rabs_pos|apply W, I]). clearbody wmax.
  assert (U : forall w, In w axw -> 0 <= (if Reqb wmax 0 then 1 else Rabs w / wmax) <= 1).
  { intros w I. destruct (Reqb_spec wmax 0); [lra|]. specialize (PW w I). specialize (W w I). assert (A := Rabs_pos w). split; [apply Rmult_le_pos; [lra|left; apply Rinv_0_lt_compat; lra]|]. apply (Rmult_le_reg_r wmax); [lra|]. unfold Rdiv. rewrite Rmult_assoc, Rinv_l; lra. }
  split; [|split; [|split]].
  - rewrite map_map. cbn [fst]. revert LC. generalize (cumul 0 axs). clear. intros l. revert l. induction axw as [|w t IH]; intros [|x l] L; try discriminate; cbn; [reflexivity|]. f_equal. apply IH. cbn in L. lia.
  - rewrite map_map. cbn [snd]. revert LC. generalize (cumul 0 axs). clear. intros l. revert l. induction axw as [|w t IH]; intros [|x l] L; try discriminate; cbn; [reflexivity|]. f_equal. apply IH. cbn in L. lia.
  - intros a I. apply in_map_iff in I. destruct I as ([x w] & <- & I). apply in_combine_r in I. cbn. specialize (U w I). lra.
  - intros a b Ia Ib H. apply in_map_iff in Ia. destruct Ia as ([x w] & <- & Ia). apply in_map_iff in Ib. destruct Ib as ([x' w'] & <- & Ib). apply in_combine_r in Ia. apply in_combine_r in Ib. cbn in *.
    assert (A := Rabs_pos w). assert (B := W w' Ib). destruct (Reqb_spec wmax 0); [lra|]. assert (P : 0 < / wmax) by (apply Rinv_0_lt_compat; lra). assert (Rabs w / wmax < Rabs w' / wmax) by (apply Rmult_lt_compat_r; lra). lra.
Qed.
