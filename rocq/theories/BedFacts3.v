(** Facts about the results of members on an elastic foundation, and the deflected shape. *)
From Coquelicot Require Import Coquelicot.
From Coq Require Import Lia Permutation Sorting.
From Verif Require Import Base BaseFacts Linalg SectionModel FlexModel LoadModel LoadSpec LoadFacts ClampFacts FoundationModel ElementModel ElementSpec
  BeamModel AnalysisModel AnalysisSpec AnalysisFacts3 FoundSpec FoundFacts FoundFacts2 FoundFacts3 FoundFacts4 ResultsModel ResultsSpec ResultsFacts BedSpec BedFacts BedFacts2.
Open Scope R_scope.

(** ** Sub-elements are recovered like prismatic members *)
Lemma map2_const_r {A} (g : R -> R -> R) (c : R) (l : list R) (k : list A) : length k = length l -> map2 g l (map (fun _ => c) k) = map (fun v => g v c) l.
Proof.
  unfold map2. revert k. induction l as [|v l IH]; intros [|a k] H; cbn in *; try discriminate; [reflexivity|]. f_equal. apply IH. lia.
Qed.
Definition no_curvature (ld : load) : Prop := match ld with LIC _ _ => False | _ => True end.
Lemma no_imposed lds x : Forall no_curvature lds -> fold_left (fun s ld => match ld with LIC k _ => s + kappa_imp k x | _ => s end) lds 0 = 0.
Proof. induction 1 as [|ld lds H _ IH]; [reflexivity|]. cbn [fold_left]. destruct ld; try exact IH. destruct H. Qed.
Lemma nonzero_zeros {A} (l : list A) : nonzero (map (fun _ => 0) l) = false.
Proof. unfold nonzero. induction l as [|a l IH]; [reflexivity|]. cbn. destruct (Reqb_spec 0 0); [exact IH|congruence]. Qed.

Lemma eb_is_member gl h EI f d lds ns cs : 0 <= h -> (0 < ns)%nat -> Forall no_curvature lds -> mapM (fun ld => get_cnl gl ld h) lds = Ok cs ->
  member_values gl (sub_member h EI) lds f d ns [] = Ok (eb_values h EI f d lds ns).
Proof.
  intros Hh Hns Hc Hcs. unfold member_values. cbn [sub_member mb_L mb_EI mb_GAv mb_type]. rewrite Hcs. cbn [rbind rigid_at].
  assert (EX : stations h ns [] = 0 :: uniform h ns ++ [h]) by (rewrite stations_eq by assumption; reflexivity).
  rewrite EX. set (x := 0 :: uniform h ns ++ [h]). unfold eb_values. fold x.
  set (res := fold_left _ lds _).
  assert (T : table h x (fun x => (f 1%nat + f 3%nat) / h + V_all h lds x) (fun x => ((f 1%nat + f 3%nat) / h * x - f 1%nat) + M_all h lds x) res).
  { apply loads_table. exact (load_table h x (LMaMb (f 1%nat) (f 3%nat))). }
  clearbody res. destruct T as [t1 (t2 & t3 & t4 & t5) _ _].
  assert (EK : map (fun x0 => fold_left (fun s ld => match ld with LIC k _ => s + kappa_imp k x0 | _ => s end) lds 0) x = map (fun _ => 0) x)
    by (apply map_ext; intros y; apply no_imposed; exact Hc).
  rewrite EK. rewrite nonzero_zeros. cbn [is_sect orb Nat.ltb Nat.leb].
  rewrite (map2_const_r Rdiv EI (r_M res) x) by (symmetry; exact t3).
  rewrite (map2_const_r Rplus 0) by (rewrite map_length; symmetry; exact t3). rewrite map_map.
  rewrite (map_ext (fun v => v / EI + 0) (fun m => m / EI)) by (intros; ring).
  assert (Lc : length (inner (map (fun m => m / EI) (r_M res))) = length (inner x)) by (rewrite !inner_len, map_length, t3; reflexivity).
  rewrite (map2_const_r Rplus 0) by (rewrite map_length, cumtrapz_len by exact Lc; reflexivity).
  rewrite (map_ext (fun v => v + 0) (fun v => v)) by (intros; ring). rewrite map_id. rewrite t1. reflexivity.
Qed.

Lemma uniform_nth h ns k : (k <= ns)%nat -> nth k (uniform h ns) 0 = h / INR ns * INR k.
Proof.
  intros H. unfold uniform. rewrite (nth_indep _ 0 (h / INR ns * INR 0)) by (rewrite map_length, seq_length; lia).
  rewrite (map_nth (fun k => h / INR ns * INR k)). rewrite seq_nth by lia. reflexivity.
Qed.

(** The closing stations carry no deflection. *)
Definition closed (n : nat) (l : list R) : Prop := length l = n /\ nth 0 l 0 = 0 /\ nth (n - 1) l 0 = 0.
Lemma closed_add n l k : closed n l -> closed n k -> closed n (map2 Rplus l k).
Proof.
  intros (a & b & c) (a' & b' & c'). unfold map2. assert (E : length (combine l k) = n) by (rewrite combine_length; lia).
  split; [rewrite map_length; exact E|]. destruct n as [|n]; [destruct l; [|discriminate]; cbn; split; [reflexivity|reflexivity]|].
  assert (N : forall i, (i < S n)%nat -> nth i (map (fun p => fst p + snd p) (combine l k)) 0 = nth i l 0 + nth i k 0).
  { intros i Hi. rewrite (nth_indep _ 0 (fst (0, 0) + snd (0, 0))) by (rewrite map_length; lia). rewrite (map_nth (fun p : R * R => fst p + snd p)), combine_nth by lia. reflexivity. }
  split; rewrite N by lia; lra.
Qed.
Lemma closed_load h ld x : 0 < h -> within_member h ld -> no_curvature ld -> (2 <= length x)%nat -> nth 0 x 0 = 0 -> nth (length x - 1) x 0 = h ->
  closed (length x) (r_D (get_mbr_results ld x h)).
Proof.
  intros Hh Hw Hc Hl H0 H1. destruct (diag_of ld h) as [d|] eqn:E; [|destruct ld; try discriminate; contradiction].
  assert (T := mbr_results_tabulates ld h d x E). assert (S := diag_span ld h d Hh Hw E). destruct T as (_ & _ & _ & _ & Ln & _ & T & _).
  split; [exact Ln|]. split; [rewrite (proj2 (T 0%nat ltac:(lia))), H0; exact (ss_left _ _ _ _ _ S)|].
  rewrite (proj2 (T (length x - 1)%nat ltac:(lia))), H1; exact (ss_right _ _ _ _ _ S).
Qed.
Lemma closed_set n l v : (2 <= n)%nat -> closed n l -> length v = (n - 2)%nat -> closed n (set_inner l v).
Proof.
  intros Hn (a & b & c) Hv. destruct l as [|z l]; [cbn in a; lia|]. cbn [set_inner]. cbn in b. subst z.
  split; [cbn; rewrite app_length; cbn; lia|]. split; [reflexivity|]. cbn [nth]. destruct (n - 1)%nat as [|m] eqn:Em; [lia|].
  change (nth m (v ++ [last (0 :: l) 0]) 0 = 0). rewrite app_nth2 by lia. replace (m - length v)%nat with 0%nat by lia. change (last (0 :: l) 0 = 0).
  refine (eq_trans _ c). assert (G : forall (k : list R) z, last (z :: k) 0 = nth (length k) (z :: k) 0) by (induction k as [|y k IH]; intros z; [reflexivity|]; exact (IH y)). rewrite G. f_equal. cbn in a. lia.
Qed.
Lemma eb_closed h EI f d lds ns : 0 < h -> (0 < ns)%nat -> Forall (fun s => within_member h s /\ bed_kind s) lds ->
  closed (ns + 3) (r_D (eb_values h EI f d lds ns)).
Proof.
  intros Hh Hns Hw. unfold eb_values. cbv zeta. set (x := 0 :: uniform h ns ++ [h]).
  assert (Lx : length x = (ns + 3)%nat) by (unfold x; cbn [length]; rewrite app_length, uniform_len; cbn; lia).
  assert (L0 : nth 0 x 0 = 0) by reflexivity. assert (L1 : nth (length x - 1) x 0 = h).
  { rewrite Lx. unfold x. replace (ns + 3 - 1)%nat with (Datatypes.S (ns + 1)) by lia. cbn [nth]. rewrite app_nth2; rewrite uniform_len; [|lia]. replace (ns + 1 - (ns + 1))%nat with 0%nat by lia. reflexivity. }
  clearbody x.
  assert (C0 : closed (length x) (r_D (get_mbr_results (LMaMb (f 1%nat) (f 3%nat)) x h)) /\ length (r_M (get_mbr_results (LMaMb (f 1%nat) (f 3%nat)) x h)) = length x).
  { split; [apply closed_load; [exact Hh|exact (conj I I)|exact I|lia|exact L0|exact L1]|]. destruct (mbr_results_tabulates (LMaMb (f 1%nat) (f 3%nat)) h _ x eq_refl) as (_ & _ & Q & _). exact Q. }
  assert (C : forall acc, closed (length x) (r_D acc) /\ length (r_M acc) = length x ->
    closed (length x) (r_D (fold_left (fun r ld => mres_add r (get_mbr_results ld x h)) lds acc)) /\
    length (r_M (fold_left (fun r ld => mres_add r (get_mbr_results ld x h)) lds acc)) = length x).
  { induction Hw as [|ld lds [Hd Hb] _ IH]; intros acc Q; [exact Q|]. cbn [fold_left]. apply IH. destruct Q as [Q1 Q2]. cbn [mres_add r_D r_M]. split.
    - apply closed_add; [exact Q1|]. apply closed_load; [exact Hh|exact Hd|destruct ld; try contradiction; exact I|lia|exact L0|exact L1].
    - unfold map2. rewrite map_length, combine_length. destruct (diag_of ld h) as [dd|] eqn:E; [|destruct ld; try discriminate; contradiction].
      destruct (mbr_results_tabulates ld h _ x E) as (_ & _ & Q & _). rewrite Q, Q2. lia. }
  destruct (C _ C0) as [D1 D2]. cbn [r_D]. rewrite <- Lx. apply closed_set; [lia|exact D1|].
  rewrite map_length, cumtrapz_len, inner_len; [reflexivity|]. rewrite map_length, cumtrapz_len; rewrite inner_len; [reflexivity|]. rewrite inner_len, map_length, D2. reflexivity.
Qed.

Lemma sub_block gl h EI f d lds ns cs c : 0 < h -> (0 < ns)%nat -> Forall (fun s => within_member h s /\ bed_kind s) lds ->
  mapM (fun ld => get_cnl gl ld h) lds = Ok cs -> f 0%nat * h = f 1%nat + f 3%nat + V_all h lds 0 * h ->
  block c h EI ns f d lds (shift_x c (eb_values h EI f d lds ns)).
Proof.
  intros Hh Hns Hw Hcs Hf.
  assert (Nc : Forall no_curvature lds) by (eapply Forall_impl; [|exact Hw]; intros ld [_ Q]; destruct ld; try contradiction; exact I).
  assert (Ne : Forall no_end_moments lds) by (eapply Forall_impl; [|exact Hw]; intros ld [_ Q]; destruct ld; try contradiction; reflexivity).
  assert (Hw' : Forall (within_member h) lds) by (eapply Forall_impl; [|exact Hw]; intros ld [Q _]; exact Q).
  assert (Em := eb_is_member gl h EI f d lds ns cs ltac:(lra) Hns Nc Hcs).
  assert (EX : stations h ns [] = 0 :: uniform h ns ++ [h]) by (rewrite stations_eq by (lra || assumption); reflexivity).
  assert (T := member_values_table _ _ _ _ _ _ _ _ Em). cbn [sub_member mb_L] in T.
  constructor.
  - cbn [shift_x r_x]. rewrite (ta_x _ _ _ _ _ T). assert (Q := stations_grid h ns [] c ltac:(lra) Hns). unfold inside_points in Q. cbn [filter length] in Q. rewrite Nat.mul_0_r, Nat.add_0_r in Q. exact Q.
  - intros k Hk. cbn [shift_x r_x]. rewrite (ta_x _ _ _ _ _ T), EX. rewrite (nth_map_R (fun x => x + c)) by (cbn [length]; rewrite app_length, uniform_len; lia).
    rewrite Nat.add_1_r. cbn [nth]. rewrite app_nth1 by (rewrite uniform_len; lia). rewrite uniform_nth by exact Hk. field. apply not_0_INR. lia.
  - exists (fun x => (f 1%nat + f 3%nat) / h + V_all h lds x), (fun x => ((f 1%nat + f 3%nat) / h * x - f 1%nat) + M_all h lds x).
    split; [exact (table_shift _ _ _ _ _ _ T)|].
    eapply cut_ext; [apply cut_drop_none, (cut_plus _ _ _ _ _ _ _ _ _ _ _ _ _ (load_cut h (LMaMb (f 1%nat) (f 3%nat)) Hh (conj I I)) (loads_cut _ _ Hh Hw' Ne))|..].
    + change ((f 1%nat + f 3%nat) / h + V_all h lds 0 = f 0%nat). apply (Rmult_eq_reg_r h); [|lra]. rewrite Hf. field. lra.
    + cbn. ring.
    + cbn. ring.
    + reflexivity.
    + reflexivity.
  - assert (Q := member_values_recovered _ _ _ _ _ _ _ _ Em Hh Hns). apply recovered_shift. exact Q.
  - destruct (eb_closed h EI f d lds ns Hh Hns Hw) as (_ & Q0 & Q1). split; [exact Q0|]. replace (ns + 2)%nat with (ns + 3 - 1)%nat by lia. exact Q1.
Qed.

(** The end forces of a sub-element fit its loads. *)
Lemma sub_left gl h EI d lds c : 0 < h -> Forall (fun s => within_member h s /\ bed_kind s) lds -> sum_refs gl lds h 1 = Ok c ->
  (exists cs, mapM (fun ld => get_cnl gl ld h) lds = Ok cs) /\
  forall f : vec, (forall p, (p < 4)%nat -> f p = end_forces (k_ebeam EI h) d p + cnl_vec c p) ->
  f 0%nat * h = f 1%nat + f 3%nat + V_all h lds 0 * h.
Proof.
  intros Hh Hw Hc.
  assert (Ne : Forall no_end_moments lds) by (eapply Forall_impl; [|exact Hw]; intros ld [_ Q]; destruct ld; try contradiction; reflexivity).
  assert (Hw' : Forall (within_member h) lds) by (eapply Forall_impl; [|exact Hw]; intros ld [Q _]; exact Q).
  assert (Ex : exists cs, mapM (fun ld => get_cnl gl ld h) lds = Ok cs).
  { clear Hc Ne Hw'. induction Hw as [|ld lds [Hd Hb] _ IH]; [exists []; reflexivity|]. cbn [mapM]. destruct (get_cnl_ok gl ld h) as (c1 & ->); [apply Hd|destruct ld; try contradiction; exact I|].
    destruct IH as (cs & ->). cbn [rbind]. eauto. }
  split; [exact Ex|]. destruct Ex as (cs & Hcs). intros f Hf.
  destruct (loads_left_reaction gl h lds cs Hh Hw' Ne Hcs) as (W & W1 & (ws & FW & EW) & (ws1 & FW1 & EW1) & EV).
  assert (B : balances h (actions h lds) c) by (apply (sum_refs_balance gl); [exact Hc|exact Hh|eapply Forall_impl; [|exact Hw']; intros ld Q; exact (proj1 Q)]).
  assert (Res : forall g dg vs, Forall2 (fun ld w => resultant h (action_of h ld) g dg w) lds vs -> resultant h (actions h lds) g dg (lsum vs)).
  { clear. intros g dg vs F. induction F as [|ld w lds ws H _ IH].
    - exists 0. split; [apply RInt_zero; intros x; cbn; ring|cbn; ring].
    - exact (result_of_both _ _ _ _ _ _ _ H IH). }
  assert (Uq : forall A g dg u v, resultant h A g dg u -> resultant h A g dg v -> u = v).
  { intros A g dg u v (I & H & ->) (J & K & ->). assert (E : I = J) by (rewrite <- (is_RInt_unique (V := R_CompleteNormedModule) _ _ _ _ H); exact (is_RInt_unique (V := R_CompleteNormedModule) _ _ _ _ K)). rewrite E. reflexivity. }
  destruct B as [B1 B2]. assert (U1 := Uq _ _ _ _ _ B1 (Res _ _ _ FW)). assert (U2 := Uq _ _ _ _ _ B2 (Res _ _ _ FW1)).
  destruct (ebeam_balance EI h d ltac:(lra)) as [K1 K2]. rewrite EV, EW, EW1, <- U1, <- U2.
  rewrite !Hf by lia. cbn [cnl_vec vec4]. assert (K3 : end_forces (k_ebeam EI h) d 0%nat = - end_forces (k_ebeam EI h) d 2%nat) by lra.
  rewrite K3. lra.
Qed.

Lemma concat_shift c rs : shift_x c (mres_concat rs) = mres_concat (map (shift_x c) rs).
Proof.
  unfold shift_x, mres_concat. cbn. f_equal; try (induction rs as [|r rs IH]; [reflexivity|]; cbn in *; f_equal; exact IH).
  induction rs as [|r rs IH]; [reflexivity|]. cbn. rewrite map_app, IH. reflexivity.
Qed.
Lemma shift_shift c e r : shift_x c (shift_x e r) = shift_x (c + e) r.
Proof. unfold shift_x. cbn. rewrite map_map. f_equal. apply map_ext. intros x. ring. Qed.

(** The recovery of a foundation member. *)
Lemma recover_blocks gl m EI kf lds dr npts r c : winkler m EI kf -> Forall (bed_load (mb_L m)) lds ->
  fe_recover gl (the_mesh m EI kf) dr lds npts = Ok r ->
  exists rs d bs, mesh_loads gl m EI kf lds rs /\ on_mesh m EI kf rs dr d /\ shift_x c r = mres_concat bs /\ length bs = mesh_size m EI kf /\
    forall e, (e < mesh_size m EI kf)%nat -> exists bl sl, nth_error bs e = Some bl /\ sub_loads (the_mesh m EI kf) lds e = Ok sl /\
      block (c + INR e * mesh_step m EI kf) (mesh_step m EI kf) EI (sub_intervals npts (mesh_size m EI kf))
        (sub_force (k_ebeam EI (mesh_step m EI kf)) (fun e => cnl_vec (nth e rs cnl_zero)) d e) (ends d e) sl bl.
Proof.
  intros W Hb H. set (f := the_mesh m EI kf) in *. assert (Hn := mesh_n m EI kf). assert (HL := mesh_L m EI kf W).
  unfold fe_recover in H. apply rbind_ok in H as (rs & Hrs & H). apply rbind_ok in H as (d & Hd & H). apply rbind_ok in H as (per & Hper & H). inversion H as [Er]; clear H.
  assert (Hl : mesh_loads gl m EI kf lds rs) by (apply (refs_are gl m EI kf); exact Hrs).
  exists rs, d. eexists. split; [exact Hl|]. split; [exact (dmesh_state gl m EI kf lds dr d rs Hd Hl)|].
  split; [rewrite concat_shift, map_map; reflexivity|]. split; [rewrite map_length, seq_length; reflexivity|].
  intros e He. change (fe_n f) with (mesh_size m EI kf) in *. change (fe_h f) with (mesh_step m EI kf). change (fe_EI f) with EI.
  set (n := mesh_size m EI kf) in *. set (h := mesh_step m EI kf).
  assert (Hh : 0 < h) by exact (hp f Hn HL).
  destruct Hl as [Hlen Hl]. destruct (Hl e He) as (sl & Es & Ec). fold f in Es. change (mesh_step m EI kf) with h in Ec.
  assert (Ep : nth e per [] = sl).
  { assert (Q : nth_error (seq 0 n) e = Some e) by (rewrite (nth_error_nth' _ 0%nat) by (rewrite seq_length; exact He); rewrite seq_nth by exact He; reflexivity).
    assert (Z : forall (l : list nat) vs i a, mapM (fun e => sub_loads f lds e) l = Ok vs -> nth_error l i = Some a -> sub_loads f lds a = Ok (nth i vs [])).
    { clear. induction l as [|a l IH]; intros vs i b E Q; [destruct i; discriminate|]. cbn [mapM] in E. apply rbind_ok in E as (v & Ev & E). apply rbind_ok in E as (vs' & E2 & E). inversion E as [X]. destruct i as [|i]; cbn in *; [inversion Q; subst; exact Ev|]. exact (IH vs' i b E2 Q). }
    assert (Y := Z _ _ _ _ Hper Q). rewrite Es in Y. inversion Y. reflexivity. }
  eexists. exists sl. split; [|split; [exact Es|]].
  - rewrite nth_error_map, (nth_error_nth' _ 0%nat) by (rewrite seq_length; exact He). rewrite seq_nth by exact He. cbn [option_map Nat.add]. rewrite shift_shift, Ep. reflexivity.
  - destruct (subs_total f Hn HL lds e Hb) as (sl' & Es' & Fw). rewrite Es in Es'. inversion Es' as [X]; subst sl'; clear Es'.
    change (fe_h f) with h in Fw. destruct (sub_left gl h EI (ends d e) sl _ Hh Fw Ec) as ((cs & Hcs) & Lf).
    apply (sub_block gl h EI _ _ sl _ cs); [exact Hh|unfold sub_intervals; lia|exact Fw|exact Hcs|].
    apply (Lf (fun p => mulmv 4 (k_ebeam EI h) (fun q => d (2 * e + q)%nat) p + cnl_vec (nth e rs cnl_zero) p)). intros p _. reflexivity.
Qed.

Lemma analyze_member gl ill a sps npts check a' br i r mb ls :
  analyze gl ill a sps npts check = (a', Ok br) -> member_at (an_beam a) i = Ok mb -> parsed_loads (an_beam a) = Ok ls -> nth_error (br_mem br) i = Some r ->
  exists f r', member_forces gl (an_beam a) (br_D br) i = Ok f /\
    member_results gl mb (loads_of ls i) f (ends (br_D br) i) (an_npts a') (sps i) = Ok r' /\ r = shift_x (node_x (an_beam a) i) r'.
Proof.
  intros H Em Els Hr. destruct (analyze_split _ _ _ _ _ _ _ _ H) as (o & Ho & Hv & _ & ED & _).
  destruct (analyze_core_state _ _ _ _ _ _ _ Ho) as (EB & _ & _ & EP). rewrite EB in Hv.
  destruct (member_analysis_spec _ _ _ _ _ _ _ Hv) as (ls' & Hls & Hlen & Hs). rewrite Els in Hls. injection Hls as <-.
  assert (Hi : (i < b_nspans (an_beam a))%nat) by (rewrite <- Hlen; apply nth_error_Some; rewrite Hr; discriminate).
  destruct (Hs i Hi) as (m & f & r' & (Hm & Hn & Hf & Hres) & Hr'). rewrite Hr in Hr'. injection Hr' as ->.
  rewrite Em in Hm. injection Hm as <-. rewrite ED. exists f, r'. split; [exact Hf|]. split; [exact Hres|reflexivity].
Qed.

Lemma analyze_blocks gl ill a sps npts check a' br i r mb ls EI kf :
  analyze gl ill a sps npts check = (a', Ok br) -> member_at (an_beam a) i = Ok mb -> winkler mb EI kf ->
  parsed_loads (an_beam a) = Ok ls -> Forall (bed_load (mb_L mb)) (loads_of ls i) -> nth_error (br_mem br) i = Some r ->
  exists rs d bs, mesh_loads gl mb EI kf (loads_of ls i) rs /\ on_mesh mb EI kf rs (ends (br_D br) i) d /\
    r = mres_concat bs /\ length bs = mesh_size mb EI kf /\
    forall e, (e < mesh_size mb EI kf)%nat -> exists bl sl, nth_error bs e = Some bl /\ sub_loads (the_mesh mb EI kf) (loads_of ls i) e = Ok sl /\
      block (node_x (an_beam a) i + INR e * mesh_step mb EI kf) (mesh_step mb EI kf) EI (sub_intervals (an_npts a') (mesh_size mb EI kf))
        (sub_force (k_ebeam EI (mesh_step mb EI kf)) (fun e => cnl_vec (nth e rs cnl_zero)) d e) (ends d e) sl bl.
Proof.
  intros H Em W Els Hb Hr. destruct (analyze_member _ _ _ _ _ _ _ _ _ _ _ _ H Em Els Hr) as (f & r' & _ & Hres & ->).
  unfold member_results in Hres. assert (Wk := W). destruct Wk as (Ek & _). rewrite Ek, (is_mesh mb EI kf W) in Hres. cbn [rbind] in Hres.
  exact (recover_blocks gl mb EI kf _ _ _ _ _ W Hb Hres).
Qed.

(** Equilibrium of a foundation member of an analysis. *)
Lemma int_part_is x z : IZR z <= x < IZR z + 1 -> Int_part x = z.
Proof.
  intros H. destruct (base_Int_part x) as [A B]. assert (C1 : IZR (Int_part x) < IZR (z + 1)) by (rewrite plus_IZR; lra). assert (C2 : IZR z < IZR (Int_part x + 1)) by (rewrite plus_IZR; lra).
  apply lt_IZR in C1. apply lt_IZR in C2. lia.
Qed.
Definition glued (h : R) (d : vec) (y : R) : R := let e := Z.to_nat (Int_part (y / h)) in herm h (ends d e) (y - INR e * h).
Lemma glued_shape n h d : 0 < h -> mesh_shape n h d (glued h d).
Proof.
  intros Hh e He. exists (herm h (ends d e)). split; [apply herm_cubic, Hh|]. intros x Hx. unfold glued.
  assert (E : Int_part ((INR e * h + x) / h) = Z.of_nat e).
  { apply int_part_is. rewrite <- INR_IZR_INZ. assert (Q : (INR e * h + x) / h = INR e + x / h) by (field; lra). rewrite Q.
    assert (0 < x / h < 1) by (split; [apply Rdiv_lt_0_compat; lra|apply Rlt_div_l; lra]). lra. }
  rewrite E, Nat2Z.id. f_equal. ring.
Qed.
Lemma balances_ext L A e e' : (forall i, (i < 4)%nat -> e i = e' i) -> balances L A (as_cnl e) -> balances L A (as_cnl e').
Proof. intros E. unfold balances, as_cnl. cbn [c_Va c_Ma c_Vb c_Mb]. rewrite !E by lia. auto. Qed.
Lemma analyze_bed_balance gl ill a sps npts check a' br i mb ls EI kf e :
  analyze gl ill a sps npts check = (a', Ok br) -> member_at (an_beam a) i = Ok mb -> winkler mb EI kf ->
  parsed_loads (an_beam a) = Ok ls -> Forall (meshed_load (mesh_size mb EI kf) (mesh_step mb EI kf)) (loads_of ls i) ->
  member_forces gl (an_beam a) (br_D br) i = Ok e ->
  exists rs d w, mesh_loads gl mb EI kf (loads_of ls i) rs /\ on_mesh mb EI kf rs (ends (br_D br) i) d /\
    mesh_shape (mesh_size mb EI kf) (mesh_step mb EI kf) d w /\
    balances (mb_L mb) (with_subgrade kf w (actions (mb_L mb) (loads_of ls i))) (as_cnl e).
Proof.
  intros _ Em W Els Hm He. destruct (forces_state _ _ _ _ _ He) as (ls' & mb' & kb & rr & E1 & E2 & E3 & E4 & E5).
  rewrite Els in E1. injection E1 as <-. rewrite Em in E2. injection E2 as <-.
  destruct (has_loads gl mb EI kf W _ _ E4) as (rs & Hl). destruct (mesh_exists mb EI kf W rs (ends (br_D br) i)) as (d & Hd & _).
  assert (Hh : 0 < mesh_step mb EI kf) by exact (hp (the_mesh mb EI kf) (mesh_n mb EI kf) (mesh_L mb EI kf W)).
  exists rs, d, (glued (mesh_step mb EI kf) d). split; [exact Hl|]. split; [exact Hd|]. split; [apply glued_shape, Hh|].
  eapply balances_ext; [|exact (bed_balance gl mb EI kf _ rs _ d _ W Hm Hl Hd (glued_shape _ _ d Hh))].
  intros p Hp. rewrite (condensed gl mb EI kf W _ kb rr rs E3 E4 Hl _ d Hd p Hp), E5. reflexivity.
Qed.

(** ** The deflected shape *)
Lemma analyze_curve gl ill a sps npts check a' br :
  analyze gl ill a sps npts check = (a', Ok br) -> (0 < an_npts a')%nat ->
  members (an_beam a) (b_nspans (an_beam a)) (fun mb => 0 < mb_L mb /\ mb_kf mb = None) ->
  exists ps, length ps = b_nspans (an_beam a) /\ deflection_curve br = (flat_map fst ps, flat_map snd ps) /\
    forall i r, nth_error (br_mem br) i = Some r -> exists xs ds, nth_error ps i = Some (xs, ds) /\
      curve_piece (node_x (an_beam a) i) (node_x (an_beam a) (i + 1)) (br_D br (2 * i)%nat) xs ds /\
      length xs = (length (r_x r) - 2)%nat /\
      forall k, (k < length xs)%nat -> nth k xs 0 = nth (k + 1) (r_x r) 0 /\ nth k ds 0 = nth (k + 1) (r_D r) 0.
Proof.
  intros H Hp Hm. assert (Hlen : length (br_mem br) = b_nspans (an_beam a)).
  { destruct (analyze_split _ _ _ _ _ _ _ _ H) as (o & Ho & Hv & _). destruct (analyze_core_state _ _ _ _ _ _ _ Ho) as (EB & _). rewrite EB in Hv.
    destruct (member_analysis_spec _ _ _ _ _ _ _ Hv) as (ls & _ & Hlen & _). exact Hlen. }
  assert (Hls : exists ls, parsed_loads (an_beam a) = Ok ls).
  { destruct (analyze_split _ _ _ _ _ _ _ _ H) as (o & Ho & Hv & _). destruct (analyze_core_state _ _ _ _ _ _ _ Ho) as (EB & _). rewrite EB in Hv.
    destruct (member_analysis_spec _ _ _ _ _ _ _ Hv) as (ls & Q & _). eauto. }
  destruct Hls as (ls & Els).
  exists (map (fun m => (inner (r_x m), inner (r_D m))) (br_mem br)). split; [rewrite map_length; exact Hlen|]. split.
  - unfold deflection_curve. f_equal; rewrite !flat_map_concat_map, map_map; reflexivity.
  - intros i r Hr. exists (inner (r_x r)), (inner (r_D r)). rewrite nth_error_map, Hr. split; [reflexivity|].
    assert (Hi : (i < b_nspans (an_beam a))%nat) by (rewrite <- Hlen; apply nth_error_Some; rewrite Hr; discriminate).
    assert (Hmb : exists mb, member_at (an_beam a) i = Ok mb).
    { destruct (analyze_split _ _ _ _ _ _ _ _ H) as (o & Ho & Hv & _). destruct (analyze_core_state _ _ _ _ _ _ _ Ho) as (EB & _). rewrite EB in Hv.
      destruct (member_analysis_spec _ _ _ _ _ _ _ Hv) as (ls' & _ & _ & Hs). destruct (Hs i Hi) as (m & f & r' & (Q & _) & _). eauto. }
    destruct Hmb as (mb & Em). destruct (Hm i mb Hi Em) as [HL Hk].
    destruct (analyze_grid _ _ _ _ _ _ _ _ _ _ _ H Hp Em ltac:(lra) Hk Hr) as [G1 G2 G3 G4 G5 G6].
    destruct (analyze_member _ _ _ _ _ _ _ _ _ _ _ _ H Em Els Hr) as (f & r' & _ & Hres & Er). unfold member_results in Hres. rewrite Hk in Hres.
    assert (T := member_values_table _ _ _ _ _ _ _ _ Hres). assert (C := table_shift _ _ _ _ _ (node_x (an_beam a) i) T). rewrite <- Er in C. destruct (mc_len _ _ _ _ C) as (_ & _ & _ & LD).
    assert (Rc := analyze_recovered _ _ _ _ _ _ _ _ _ _ _ _ H Hp Em HL Hk Els Hr). destruct Rc as (cv & gm & _ & _ & D0 & _).
    assert (LX : length (inner (r_x r)) = (length (r_x r) - 2)%nat) by apply inner_len.
    split; [constructor|split; [exact LX|]].
    + rewrite !inner_len, LD. reflexivity.
    + unfold increasing in *. unfold inner. clear -G2. destruct G2 as [|x l S _]; [constructor|]. cbn [tl].
      induction S as [|y l S IH F]; [constructor|]. destruct l as [|z l]; [constructor|]. change (removelast (y :: z :: l)) with (y :: removelast (z :: l)). constructor; [exact IH|].
      apply Forall_forall. intros t Ht. rewrite Forall_forall in F. apply F. rewrite (app_removelast_last 0 (l := z :: l)) by discriminate. apply in_or_app. left. exact Ht.
    + rewrite nth_inner by lia. exact G4.
    + rewrite <- last_nth by (intros Q; rewrite Q in LX; cbn in LX; lia). rewrite nth_inner by lia. rewrite LX. replace (Datatypes.S (length (r_x r) - 2 - 1)) with (an_npts a' + 3 + 2 * inside_points (mb_L mb) (sps i) - 2)%nat by lia. exact G5.
    + rewrite nth_inner by lia. exact D0.
    + intros k Hkk. rewrite Nat.add_1_r, !nth_inner by lia. split; reflexivity.
Qed.
