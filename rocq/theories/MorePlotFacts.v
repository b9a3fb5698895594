(** Facts about the tendon, mode, ratio and response pictures. *)
From Coq Require Import Lia String.
From Verif Require Import Base BaseFacts SectionModel LoadModel PrestressModel PrestressSpec PrestressFacts PrestressFacts2 PrestressFacts3 PrestressFacts4
  ModalModel ModalSpec EnvelopeModel BridgeModel BridgeSpec VehicleModel CollModel LoadCasesModel LoadCasesSpec SegmentFacts MorePlotModel MorePlotSpec.
Local Notation length := List.length.
Local Open Scope list_scope.
Open Scope R_scope.

Lemma combine_nth_error {A B} (x : list A) (y : list B) k a b : nth_error x k = Some a -> nth_error y k = Some b -> nth_error (combine x y) k = Some (a, b).
Proof. revert y k. induction x as [|a0 x IH]; intros [|b0 y] [|k] E F; cbn in *; try discriminate; [congruence|exact (IH _ _ E F)]. Qed.
Lemma polyline_through x y l : polyline x y = Ok l -> through x y l.
Proof.
  unfold polyline. destruct (Nat.eqb_spec (length x) (length y)) as [E|]; [|discriminate]. intros H. injection H as <-.
  split; [exact E|]. split; [rewrite combine_length; lia|]. intros k Hk.
  apply combine_nth_error; apply nth_error_nth'; lia.
Qed.
Lemma polyline_ok x y : length x = length y -> exists l, polyline x y = Ok l.
Proof. intros E. unfold polyline. rewrite E, Nat.eqb_refl. eauto. Qed.
Lemma last_elt_ok x : x <> [] -> last_elt x = Ok (last x 0).
Proof. destruct x; [congruence|reflexivity]. Qed.

Lemma Forall2_nth {A B} (P : A -> B -> Prop) l m : Forall2 P l m -> forall i a, nth_error l i = Some a -> exists b, nth_error m i = Some b /\ P a b.
Proof. induction 1 as [|a b l m H F IH]; intros [|i] x E; cbn in *; try discriminate; [injection E as <-; eauto|exact (IH i x E)]. Qed.

(** ** Tendon *)
Lemma boundaries_last Ls : last_elt (boundaries Ls) = Ok (lsum Ls).
Proof. rewrite last_elt_ok; [unfold boundaries; rewrite bounds_last; f_equal; ring|]. unfold boundaries. destruct Ls; discriminate. Qed.
Lemma boundaries_get Ls i o : get (boundaries Ls) i = Ok o -> (i <= length Ls)%nat /\ o = start Ls i.
Proof.
  intros E. apply get_ok in E. assert (i < length (boundaries Ls))%nat as H by (apply nth_error_Some; congruence).
  unfold boundaries in H. rewrite bounds_from_len in H. split; [lia|]. apply (nth_error_nth _ _ 0) in E.
  unfold boundaries in E. rewrite bounds_from_nth in E by lia. lra.
Qed.
Lemma linspace_80 L k : (k < 80)%nat -> nth_error (linspace 0 L 80) k = Some (INR k * (L / 79)).
Proof.
  intros Hk. unfold linspace. rewrite nth_error_map. replace (nth_error (seq 0 80) k) with (Some k).
  - cbn [option_map]. f_equal. replace (80 - 1)%nat with 79%nat by lia. replace (INR 79) with 79 by (rewrite INR_IZR_INZ; reflexivity). field.
  - rewrite (nth_error_nth' _ 0%nat) by (rewrite seq_length; exact Hk). rewrite seq_nth by exact Hk. reflexivity.
Qed.
Lemma linspace_len a b n : length (linspace a b n) = n.
Proof. unfold linspace. rewrite map_length, seq_length. reflexivity. Qed.

Lemma tendon_line_drawn rs Ls i p l : tendon_line rs Ls (boundaries Ls) i p = Ok l -> tendon_drawn rs Ls (i, p) l.
Proof.
  unfold tendon_line. intros E. apply rbind_ok in E. destruct E as (L & EL & E). apply rbind_ok in E. destruct E as (t & Et & E).
  apply rbind_ok in E. destruct E as (segs & Es & E). cbv zeta in E. apply rbind_ok in E. destruct E as (es & Ee & E).
  apply rbind_ok in E. destruct E as (o & Eo & E). apply boundaries_get in Eo. destruct Eo as (_ & ->). apply get_ok in EL.
  apply polyline_through in E. destruct E as (E1 & E2 & E3). rewrite map_length, linspace_len in *.
  exists L, t. split; [exact EL|]. split; [exact (cantilever_tip _ _ _ Et)|]. split; [exact E2|].
  intros k Hk x. assert (LX := linspace_80 L k Hk). assert (LE : nth_error es k = Some (nth k es 0)) by (apply nth_error_nth'; lia).
  exists (nth k es 0). split.
  - rewrite (E3 k Hk). do 2 f_equal. erewrite nth_error_nth; [reflexivity|]. rewrite nth_error_map, LX. reflexivity.
  - intros HP Hb. apply mapM_ok in Ee. assert (G : eval_e segs x = Ok (nth k es 0)).
    { destruct (Forall2_nth _ _ _ Ee k _ LX) as (b & Hb2 & H). rewrite LE in Hb2. injection Hb2 as ->. exact H. }
    assert (0 < L) by (destruct HP; assumption).
    assert (0 <= x <= L).
    { unfold x. assert (0 <= INR k <= 79). { split; [apply pos_INR|]. replace 79 with (INR 79) by (rewrite INR_IZR_INZ; reflexivity). apply le_INR. lia. }
      split; [apply Rmult_le_pos; lra|]. apply Rle_trans with (79 * (L / 79)); [apply Rmult_le_compat_r; lra|lra]. }
    rewrite (drawn_drape _ _ _ _ _ Es HP H0 Hb) in G. congruence.
Qed.
Lemma tendon_lines_drawn rs Ls ps : forall i ls, tendon_lines rs Ls (boundaries Ls) i ps = Ok ls ->
  Forall2 (tendon_drawn rs Ls) (concat (map (fun q => match snd q with Some p => [(fst q, p)] | None => [] end) (combine (seq i (length ps)) ps))) ls.
Proof.
  induction ps as [|o t IH]; intros i ls E; cbn [tendon_lines] in E.
  - injection E as <-. constructor.
  - cbn [length seq combine map concat fst snd]. destruct o as [p|].
    + apply rbind_ok in E. destruct E as (l & El & E). apply rbind_ok in E. destruct E as (rest & Er & E). injection E as <-.
      constructor; [exact (tendon_line_drawn _ _ _ _ _ El)|]. rewrite Nat.add_1_r in Er. exact (IH _ _ Er).
    + rewrite Nat.add_1_r in E. exact (IH _ _ E).
Qed.
Lemma marks_spec rs offs : forall i ms, support_marks rs offs i = Ok ms ->
  forall x, In x ms <-> exists k, nth_error offs k = Some x /\ ~ free_node rs (i + k).
Proof.
  induction offs as [|o t IH]; intros i ms E x; cbn [support_marks] in E.
  - injection E as <-. split; [intros []|intros ([|k] & E & _); discriminate].
  - apply rbind_ok in E. destruct E as (fr & Ef & E). apply rbind_ok in E. destruct E as (rest & Er & E). injection E as <-.
    apply both_zero_ok in Ef. specialize (IH _ _ Er x). destruct fr.
    + rewrite IH. split; intros (k & A & B).
      * exists (S k). split; [exact A|]. replace (i + S k)%nat with (i + 1 + k)%nat by lia. exact B.
      * destruct k as [|k]; [exfalso; apply B; rewrite Nat.add_0_r; tauto|]. exists k. split; [exact A|]. replace (i + 1 + k)%nat with (i + S k)%nat by lia. exact B.
    + cbn [In]. rewrite IH. split.
      * intros [<-|(k & A & B)]; [exists 0%nat; split; [reflexivity|rewrite Nat.add_0_r; intros F; apply Ef in F; discriminate]|].
        exists (S k). split; [exact A|]. replace (i + S k)%nat with (i + 1 + k)%nat by lia. exact B.
      * intros ([|k] & A & B); [left; injection A as <-; reflexivity|]. right. exists k. split; [exact A|]. replace (i + 1 + k)%nat with (i + S k)%nat by lia. exact B.
Qed.
Theorem tendon_shown Ls rs f ps pic : plot_tendon Ls rs f ps = Ok pic ->
  tp_base pic = [(0, 0); (lsum Ls, 0)] /\
  (forall x, In x (tp_marks pic) <-> exists k, (k <= length Ls)%nat /\ x = start Ls k /\ ~ free_node rs k) /\
  Forall2 (tendon_drawn rs Ls) (stressed ps) (tp_lines pic) /\
  equivalent_loads Ls rs f ps = Ok (tp_loads pic).
Proof.
  unfold plot_tendon. cbv zeta. rewrite boundaries_last. cbn [rbind]. intros E. apply rbind_ok in E. destruct E as (LM & EL & E).
  apply rbind_ok in E. destruct E as (ms & Em & E). apply rbind_ok in E. destruct E as (ls & El & E). injection E as <-. cbn.
  split; [reflexivity|]. split; [|split; [exact (tendon_lines_drawn _ _ _ _ _ El)|exact EL]].
  intros x. rewrite (marks_spec _ _ _ _ Em x). cbn [Nat.add]. split; intros (k & A & B).
  - apply get_ok in A. apply boundaries_get in A. exists k. tauto.
  - exists k. destruct B as (-> & B). split; [|exact B]. unfold boundaries. rewrite (nth_error_nth' _ 0) by (rewrite bounds_from_len; lia).
    rewrite bounds_from_nth by exact A. f_equal. ring.
Qed.

(** The picture is drawn whenever the equivalent loads are found. *)
Lemma both_zero_total rs k : (k + 1 < length rs)%nat -> exists b, both_zero rs k = Ok b.
Proof.
  intros H. unfold both_zero, get. destruct (nth_error rs k) eqn:E; [|apply nth_error_None in E; lia]. cbn [rbind].
  destruct (Reqb r 0); [|eauto]. destruct (nth_error rs (k + 1)) eqn:F; [|apply nth_error_None in F; lia]. cbn [rbind]. eauto.
Qed.
Lemma marks_total rs offs : forall i, (2 * (i + length offs) <= length rs)%nat -> exists ms, support_marks rs offs i = Ok ms.
Proof.
  induction offs as [|o t IH]; intros i H; cbn [support_marks]; [eauto|]. cbn [length] in H.
  destruct (both_zero_total rs (2 * i) ltac:(lia)) as (b & ->). cbn [rbind]. destruct (IH (i + 1)%nat ltac:(lia)) as (ms & ->). cbn [rbind]. eauto.
Qed.
Lemma span_rows_slopes sp L F segs : forall q rows, span_rows sp L F segs q = Ok rows -> Forall (fun s => exists a, slope_start s = Ok a) segs.
Proof.
  induction segs as [|s t IH]; intros q rows E; [constructor|]. cbn [span_rows] in E. cbv zeta in E.
  apply rbind_ok in E. destruct E as (kk & _ & E). apply rbind_ok in E. destruct E as (q1 & Eq & E). apply rbind_ok in E. destruct E as (rest & Er & _).
  constructor; [|exact (IH _ _ Er)]. unfold slope_end in Eq. apply rbind_ok in Eq. destruct Eq as (a & Ea & _). eauto.
Qed.
Lemma eval_total segs : Forall (fun s => exists a, slope_start s = Ok a) segs -> forall x, exists e, eval_e segs x = Ok e.
Proof.
  induction 1 as [|s t (a & Ea) _ IH]; intros x; cbn [eval_e]; [eauto|]. destruct (_ && _)%bool; [|apply IH]. rewrite Ea. cbn [rbind]. eauto.
Qed.
Lemma mapM_total {A B} (f : A -> result B) l : (forall a, In a l -> exists b, f a = Ok b) -> exists bs, mapM f l = Ok bs.
Proof.
  induction l as [|a l IH]; intros H; cbn [mapM]; [eauto|]. destruct (H a (or_introl eq_refl)) as (b & ->). cbn [rbind].
  destruct IH as (bs & ->); [intros; apply H; right; assumption|]. cbn [rbind]. eauto.
Qed.
Lemma lines_total rs Ls Fs ps : forall i acc r, spans_rows rs Ls Fs i ps acc = Ok r ->
  exists ls, tendon_lines rs Ls (boundaries Ls) i ps = Ok ls.
Proof.
  induction ps as [|o t IH]; intros i acc r E; cbn [spans_rows tendon_lines] in *; [eauto|]. destruct o as [p|]; [|exact (IH _ _ _ E)].
  apply rbind_ok in E. destruct E as (Li & EL & E). apply rbind_ok in E. destruct E as (Fi & EF & E).
  apply rbind_ok in E. destruct E as (cant & Ec & E). apply rbind_ok in E. destruct E as (segs & Es & E).
  apply rbind_ok in E. destruct E as (rows & Er & E). apply rbind_ok in E. destruct E as (s0 & E0 & E).
  apply rbind_ok in E. destruct E as (first & Ef & E). cbv zeta in E. apply rbind_ok in E. destruct E as (q1 & Eq & E).
  destruct (IH _ _ _ E) as (ls & ->). unfold tendon_line. rewrite EL. cbn [rbind]. rewrite Ec. cbn [rbind]. rewrite Es. cbn [rbind]. cbv zeta.
  destruct (mapM_total (eval_e segs) (linspace 0 Li 80)) as (es & Ee); [intros x _; exact (eval_total _ (span_rows_slopes _ _ _ _ _ _ Er) x)|].
  rewrite Ee. cbn [rbind]. apply mapM_length in Ee.
  assert (i < length Ls)%nat by (apply nth_error_Some; apply get_ok in EL; congruence).
  destruct (get (boundaries Ls) i) as [o|] eqn:Eo.
  2:{ unfold get in Eo. destruct (nth_error (boundaries Ls) i) eqn:G; [discriminate|]. apply nth_error_None in G. unfold boundaries in G. rewrite bounds_from_len in G. lia. }
  cbn [rbind]. destruct (polyline_ok (map (fun x => o + x) (linspace 0 Li 80)) es) as (l & ->); [rewrite map_length; congruence|]. cbn [rbind]. eauto.
Qed.
Theorem tendon_total Ls rs f ps LM : length rs = (2 * (length Ls + 1))%nat -> equivalent_loads Ls rs f ps = Ok LM -> exists pic, plot_tendon Ls rs f ps = Ok pic.
Proof.
  intros Hr E. unfold plot_tendon. cbv zeta. rewrite boundaries_last. cbn [rbind]. rewrite E. cbn [rbind].
  destruct (marks_total rs (boundaries Ls) 0) as (ms & ->). { unfold boundaries. rewrite bounds_from_len. lia. }
  cbn [rbind]. unfold equivalent_loads in E. cbv zeta in E. destruct (negb _) in E; [discriminate|]. destruct (negb _) in E; [discriminate|].
  apply rbind_ok in E. destruct E as (st & Es & _). destruct (lines_total _ _ _ _ _ _ _ Es) as (ls & ->). cbn [rbind]. eauto.
Qed.

(** ** Modes *)
Theorem modes_shown r modes pic : plot_modes r modes = Ok pic ->
  mp_base pic = [(hd 0 (mo_x r), 0); (last (mo_x r) 0, 0)] /\ length (mp_curves pic) = length modes /\
  forall j m, nth_error modes j = Some m -> exists v c, mode_shape r m = Ok (mo_x r, v) /\ through (mo_x r) v c /\
    (m < length (mo_omega r))%nat /\ nth_error (mp_curves pic) j = Some (c, ((m + 1)%nat, nth m (mo_omega r) 0 / (2 * PI))).
Proof.
  unfold plot_modes. intros E. apply rbind_ok in E. destruct E as (x0 & E0 & E). apply rbind_ok in E. destruct E as (x1 & E1 & E).
  apply rbind_ok in E. destruct E as (cs & Ec & E). injection E as <-. cbn [mp_base mp_curves]. split.
  - destruct (mo_x r) as [|a t]; [discriminate|]. cbn in E0. injection E0 as <-. cbn [last_elt] in E1. injection E1 as <-. reflexivity.
  - split; [exact (mapM_length _ _ _ Ec)|]. intros j m Hj. apply mapM_ok in Ec. destruct (Forall2_nth _ _ _ Ec j m Hj) as (b & Hb & H).
    apply rbind_ok in H. destruct H as ((x & v) & Hm & H). apply rbind_ok in H. destruct H as (c & Hc & H). apply rbind_ok in H. destruct H as (f & Hf & H).
    injection H as <-. cbn [fst snd] in Hc. assert (x = mo_x r). { unfold mode_shape in Hm. apply rbind_ok in Hm. destruct Hm as (phi & _ & Hm). cbv zeta in Hm. injection Hm as <- _. reflexivity. }
    subst x. exists v, c. split; [exact Hm|]. split; [exact (polyline_through _ _ _ Hc)|]. apply get_ok in Hf. unfold mode_freqs in Hf. rewrite nth_error_map in Hf.
    destruct (nth_error (mo_omega r) m) as [w|] eqn:W; [|discriminate]. cbn in Hf. injection Hf as <-. split; [apply nth_error_Some; congruence|].
    rewrite (nth_error_nth _ _ 0 W). exact Hb.
Qed.
Theorem default_modes r : plot_mode_results r None = plot_modes r (seq 0 (Nat.min 3 (length (mo_omega r)))) /\ forall l, plot_mode_results r (Some l) = plot_modes r l.
Proof. split; reflexivity. Qed.
Theorem text_shown r n fs more : modal_text r = (n, fs, more) -> n = length (mo_omega r) /\ length fs = Nat.min 5 n /\
  (forall i, (i < length fs)%nat -> nth i fs 0 = nth i (mo_omega r) 0 / (2 * PI)) /\ (more = true <-> (length fs < n)%nat).
Proof.
  unfold modal_text. cbv zeta. intros E. assert (E1 : n = length (mo_omega r)) by congruence. assert (E2 : fs = firstn (Nat.min 5 (length (mo_omega r))) (mode_freqs r)) by congruence.
  assert (E3 : more = Nat.ltb 5 (length (mo_omega r))) by congruence. clear E. subst n fs more. split; [reflexivity|].
  assert (A : length (firstn (Nat.min 5 (length (mo_omega r))) (mode_freqs r)) = Nat.min 5 (length (mo_omega r))).
  { rewrite firstn_length. unfold mode_freqs. rewrite map_length. lia. }
  split; [exact A|]. split.
  - intros i Hi. rewrite A in Hi. assert (B : forall (l : list R) k i, (i < k)%nat -> nth i (firstn k l) 0 = nth i l 0).
    { clear. induction l as [|a l IH]; intros [|k] [|i] H; cbn; auto; try lia. apply IH. lia. }
    rewrite B by exact Hi. unfold mode_freqs. rewrite (nth_indep _ 0 ((fun w => w / (2 * PI)) 0)) by (rewrite map_length; lia). apply (map_nth (fun w => w / (2 * PI))).
  - rewrite A, Nat.ltb_lt. lia.
Qed.

(** ** Ratios *)
Theorem ratios_shown trial ref q pic : ratios_of trial ref q -> plot_ratios q = Ok pic ->
  rp_base pic = [(0, 0); (last (e_x ref) 0, 0)] /\
  through (e_x ref) (rt_Mmax q) (rp_Mmax pic) /\ through (e_x ref) (rt_Mmin q) (rp_Mmin pic) /\
  through (e_x ref) (rt_Vmax q) (rp_Vmax pic) /\ through (e_x ref) (rt_Vmin q) (rp_Vmin pic) /\
  (forall bars trials refs, (bars, trials, refs) = (rp_bars_max pic, e_Rmaxval trial, e_Rmaxval ref) \/ (bars, trials, refs) = (rp_bars_min pic, e_Rminval trial, e_Rminval ref) ->
     length bars = e_nsup ref /\ forall i, (i < e_nsup ref)%nat -> exists v, nth_error bars i = Some (i, v) /\ ratio_of (nth i trials 0) (nth i refs 0) v).
Proof.
  intros H E. destruct H as [Hx HM1 HM2 HV1 HV2 Hn HR1 HR2]. unfold plot_ratios in E. destruct (Nat.eqb _ _); [discriminate|]. rewrite Hx, Hn in E.
  apply rbind_ok in E. destruct E as (L & EL & E). apply rbind_ok in E. destruct E as (m1 & E1 & E). apply rbind_ok in E. destruct E as (m2 & E2 & E).
  apply rbind_ok in E. destruct E as (v1 & E3 & E). apply rbind_ok in E. destruct E as (v2 & E4 & E). apply rbind_ok in E. destruct E as (b1 & B1 & E).
  apply rbind_ok in E. destruct E as (b2 & B2 & E). injection E as <-. cbn.
  split; [destruct (e_x ref); [discriminate|]; cbn [last_elt] in EL; injection EL as <-; reflexivity|].
  do 4 (split; [apply polyline_through; assumption|]).
  assert (G : forall (sel : R * R -> R) b trials refs, mapM (fun i => do p <- get (rt_R q) i; Ok (i, sel p)) (seq 0 (e_nsup ref)) = Ok b -> ratio_list trials refs (map sel (rt_R q)) ->
    length b = e_nsup ref /\ forall i, (i < e_nsup ref)%nat -> exists v, nth_error b i = Some (i, v) /\ ratio_of (nth i trials 0) (nth i refs 0) v).
  { intros sel b trials refs B [RL RR]. split; [rewrite (mapM_length _ _ _ B); apply seq_length|]. intros i Hi. apply mapM_ok in B.
    assert (S : nth_error (seq 0 (e_nsup ref)) i = Some i). { rewrite (nth_error_nth' _ 0%nat) by (rewrite seq_length; exact Hi). rewrite seq_nth by exact Hi. reflexivity. }
    destruct (Forall2_nth _ _ _ B i i S) as (c & Hc & H). apply rbind_ok in H. destruct H as (p & Hp & H). injection H as <-. exists (sel p). split; [exact Hc|].
    apply get_ok in Hp. assert (K : nth_error (map sel (rt_R q)) i = Some (sel p)) by (rewrite nth_error_map, Hp; reflexivity).
    rewrite <- (nth_error_nth _ _ 0 K). apply RR. rewrite <- RL. apply nth_error_Some. congruence. }
  intros bars trials refs [HE|HE]; injection HE as -> -> ->; [exact (G fst _ _ _ B1 HR1)|exact (G snd _ _ _ B2 HR2)].
Qed.
Theorem ratios_drawn trial ref : BridgeSpec.shaped trial -> BridgeSpec.shaped ref -> e_npts trial = e_npts ref -> e_nsup trial = e_nsup ref -> length (e_x ref) = e_npts ref -> (0 < e_npts ref)%nat ->
  forall q, ratios_of trial ref q -> ((exists pic, plot_ratios q = Ok pic) <-> (0 < e_nsup ref)%nat) /\ (e_nsup ref = 0%nat -> plot_ratios q = Err ValueError).
Proof.
  intros ST SR Hp Hs Hx Hpos q H. destruct H as [Qx HM1 HM2 HV1 HV2 Hn HR1 HR2]. unfold plot_ratios. rewrite Hn, Qx.
  split; [|intros ->; reflexivity]. split.
  - intros (pic & E). destruct (Nat.eqb_spec (e_nsup ref) 0); [discriminate|]. lia.
  - intros Hpos'. destruct (Nat.eqb_spec (e_nsup ref) 0); [lia|]. rewrite last_elt_ok by (intros Z; rewrite Z in Hx; cbn in Hx; lia). cbn [rbind].
    destruct SR as [SM1 SM2 SV1 SV2 SR1 SR2].
    destruct (polyline_ok (e_x ref) (rt_Mmax q)) as (? & ->); [rewrite (proj1 HM1); congruence|]. cbn [rbind].
    destruct (polyline_ok (e_x ref) (rt_Mmin q)) as (? & ->); [rewrite (proj1 HM2); congruence|]. cbn [rbind].
    destruct (polyline_ok (e_x ref) (rt_Vmax q)) as (? & ->); [rewrite (proj1 HV1); congruence|]. cbn [rbind].
    destruct (polyline_ok (e_x ref) (rt_Vmin q)) as (? & ->); [rewrite (proj1 HV2); congruence|]. cbn [rbind].
    assert (LR : length (rt_R q) = e_nsup ref) by (rewrite <- (map_length fst), (proj1 HR1); exact SR1).
    assert (G : forall sel : R * R -> R, exists b, mapM (fun i => do p <- get (rt_R q) i; Ok (i, sel p)) (seq 0 (e_nsup ref)) = Ok b).
    { intros sel. apply mapM_total. intros i Hi. apply in_seq in Hi. unfold get. destruct (nth_error (rt_R q) i) eqn:Z; [cbn; eauto|]. apply nth_error_None in Z. lia. }
    destruct (G fst) as (? & ->). cbn [rbind]. destruct (G snd) as (? & ->). cbn [rbind]. eauto.
Qed.

(** ** Axle summary *)
Lemma isclose_iff v w : isclose 1e-5 1e-8 v w = true <-> agrees v w.
Proof. unfold isclose, agrees. destruct (Rleb_spec (Rabs (v - w)) (1e-8 + 1e-5 * Rabs w)); split; intros; try assumption; try reflexivity; try discriminate; lra. Qed.
Lemma same_run_spec w l : forall n rest, same_run w l = (n, rest) -> exists run, l = run ++ rest /\ length run = n /\ Forall (fun v => agrees v w) run /\
  (forall v t, rest = v :: t -> ~ agrees v w).
Proof.
  induction l as [|v t IH]; intros n rest E; cbn [same_run] in E.
  - injection E as <- <-. exists []. repeat split; [constructor|discriminate].
  - destruct (isclose 1e-5 1e-8 v w) eqn:C.
    + destruct (same_run w t) as [m r] eqn:Sr. injection E as <- <-. destruct (IH _ _ eq_refl) as (run & -> & <- & F & N). exists (v :: run). repeat split; [|exact N]. constructor; [apply isclose_iff; exact C|exact F].
    + injection E as <- <-. exists []. repeat split; [constructor|]. intros v' t' Z. injection Z as <- <-. rewrite <- isclose_iff. congruence.
Qed.
Lemma agrees_refl w : agrees w w.
Proof. unfold agrees. rewrite Rminus_diag_eq, Rabs_R0 by reflexivity. assert (H := Rabs_pos w). lra. Qed.
Lemma groups_spec fuel : forall l, (length l <= fuel)%nat -> summary l (axle_groups fuel l) /\ (forall v t, l = v :: t -> exists n gs, axle_groups fuel l = (n, v) :: gs).
Proof.
  induction fuel as [|k IH]; intros [|w t] Hl; cbn [length] in Hl; try lia; cbn [axle_groups].
  - split; [|discriminate]. constructor; [constructor|constructor|intros g []|intros [|i]; discriminate].
  - split; [|discriminate]. constructor; [constructor|constructor|intros g []|intros [|i]; discriminate].
  - destruct (same_run w t) as [n rest] eqn:S. destruct (same_run_spec _ _ _ _ S) as (run & -> & <- & F & N). rewrite app_length in Hl.
    destruct (IH rest ltac:(lia)) as ([W1 W2 W3 W4] & Hh). split; [|intros v t0 E; injection E as <- _; eauto]. constructor.
    + unfold expanded. cbn [map concat fst snd repeat]. cbn [app]. constructor; [apply agrees_refl|]. apply Forall2_app; [|exact W1].
      clear - F. induction F; cbn; constructor; auto.
    + constructor; [cbn; lia|exact W2].
    + intros g [<-|Hg]; [left; reflexivity|]. right. apply in_or_app. right. exact (W3 g Hg).
    + intros [|i] g h Hg Hhh; cbn [nth_error] in *.
      * injection Hg as <-. destruct rest as [|v t']; [destruct k; discriminate|]. destruct (Hh v t' eq_refl) as (n' & gs & Eg). rewrite Eg in Hhh. injection Hhh as <-. cbn. exact (N v t' eq_refl).
      * exact (W4 i g h Hg Hhh).
Qed.
Theorem axles_shown v gs W : vehicle_spec v = (gs, W) -> summary (v_axw v) gs /\ W = v_W v /\ fold_right Nat.add 0%nat (map fst gs) = length (v_axw v).
Proof.
  unfold vehicle_spec. intros E. injection E as <- <-. destruct (groups_spec (length (v_axw v)) (v_axw v) (le_n _)) as [S _]. split; [exact S|]. split; [reflexivity|].
  assert (A := su_weights _ _ S). assert (L : forall gs, length (expanded gs) = fold_right Nat.add 0%nat (map fst gs)).
  { intros gs. unfold expanded. induction gs as [|g gs IH]; [reflexivity|]. cbn [map concat fold_right]. rewrite app_length, repeat_length, IH. reflexivity. }
  rewrite <- L. clear - A. induction A; cbn; auto.
Qed.

(** ** Responses *)
Theorem responses_shown x B neg pos beam cases pic : plot_response_envelope x B neg pos beam cases = Ok pic ->
  length (rs_lines pic) = (length B + 2)%nat /\
  (forall j row, nth_error B j = Some row -> exists l, through x row l /\ nth_error (rs_lines pic) j = Some (match cases with Some cs => match nth_error cs j with Some c => source_name c j | None => "" end | None => "LC " ++ dec (j + 1) end, l)%string) /\
  (forall j, (j < length B)%nat -> match cases with Some cs => (j < length cs)%nat | None => True end) /\
  (exists n p, through x neg n /\ through x pos p /\ nth_error (rs_lines pic) (length B) = Some ("Additive negative envelope"%string, n) /\
     nth_error (rs_lines pic) (length B + 1) = Some ("Additive positive envelope"%string, p)) /\
  match beam with
  | None => rs_verticals pic = [] /\ rs_names pic = []
  | Some Ls => length (rs_verticals pic) = S (length Ls) /\ (forall i, (i <= length Ls)%nat -> nth i (rs_verticals pic) 0 = start Ls i) /\
      length (rs_names pic) = length Ls /\ forall i, (i < length Ls)%nat -> nth_error (rs_names pic) i = Some (start Ls i + nth i Ls 0 / 2, (i + 1)%nat)
  end.
Proof.
  unfold plot_response_envelope. intros E. apply rbind_ok in E. destruct E as (ls & El & E). apply rbind_ok in E. destruct E as (n & En & E).
  apply rbind_ok in E. destruct E as (p & Ep & E). cbv zeta in E. injection E as <-. cbn [rs_lines rs_verticals rs_names].
  assert (LL : length ls = length B). { rewrite (mapM_length _ _ _ El), combine_length, seq_length. lia. }
  apply mapM_ok in El.
  assert (G : forall j row, nth_error B j = Some row -> exists b, nth_error ls j = Some b /\ response_line x cases j row = Ok b).
  { intros j row Hj. assert (j < length B)%nat by (apply nth_error_Some; congruence).
    assert (C : nth_error (combine (seq 0 (length B)) B) j = Some (j, row)).
    { apply combine_nth_error; [|exact Hj]. rewrite (nth_error_nth' _ 0%nat) by (rewrite seq_length; lia). rewrite seq_nth by lia. reflexivity. }
    exact (Forall2_nth _ _ _ El _ _ C). }
  split; [rewrite app_length; cbn; lia|]. split; [|split; [|split]].
  - intros j row Hj. destruct (G j row Hj) as (b & Hb & H). unfold response_line in H. apply rbind_ok in H. destruct H as (lab & Hl & H). apply rbind_ok in H. destruct H as (l & Hp & H). injection H as <-.
    exists l. split; [exact (polyline_through _ _ _ Hp)|]. rewrite nth_error_app1 by (apply nth_error_Some; congruence). rewrite Hb. do 2 f_equal.
    destruct cases as [cs|]; [|injection Hl as <-; reflexivity]. apply rbind_ok in Hl. destruct Hl as (c & Hc & Hl). apply get_ok in Hc. rewrite Hc. injection Hl as <-. reflexivity.
  - intros j Hj. destruct cases as [cs|]; [|exact I]. destruct (nth_error B j) as [row|] eqn:R; [|apply nth_error_None in R; lia].
    destruct (G j row R) as (b & Hb & H). unfold response_line in H. apply rbind_ok in H. destruct H as (lab & Hl & _). apply rbind_ok in Hl. destruct Hl as (c & Hc & _). apply get_ok in Hc. apply nth_error_Some. congruence.
  - exists n, p. split; [exact (polyline_through _ _ _ En)|]. split; [exact (polyline_through _ _ _ Ep)|]. rewrite <- LL. split.
    + rewrite nth_error_app2, Nat.sub_diag by lia. reflexivity.
    + rewrite nth_error_app2 by lia. replace (length ls + 1 - length ls)%nat with 1%nat by lia. reflexivity.
  - destruct beam as [Ls|]; [|split; reflexivity]. assert (LB : length (boundaries Ls) = S (length Ls)) by apply bounds_from_len.
    assert (NB : forall i, (i <= length Ls)%nat -> nth i (boundaries Ls) 0 = start Ls i). { intros i Hi. unfold boundaries. rewrite bounds_from_nth by exact Hi. ring. }
    split; [exact LB|]. split; [exact NB|]. unfold span_names. rewrite LB. replace (S (length Ls) - 1)%nat with (length Ls) by lia. split; [rewrite map_length, seq_length; reflexivity|].
    intros i Hi. rewrite nth_error_map, (nth_error_nth' _ 0%nat) by (rewrite seq_length; lia). rewrite seq_nth by lia. cbn [option_map Nat.add]. do 2 f_equal.
    rewrite !NB by lia. rewrite Nat.add_1_r, start_S by exact Hi. lra.
Qed.

(** ** Counts *)
Lemma filter_count n f (P : nat -> Prop) : (forall k, (k < n)%nat -> (f k = true <-> P k)) -> count_of n P (length (filter f (seq 0 n))).
Proof.
  intros H. exists (filter f (seq 0 n)). split; [apply NoDup_filter, seq_NoDup|]. split; [reflexivity|]. intros k. rewrite filter_In, in_seq. split.
  - intros ((_ & A) & B). split; [lia|]. apply H; [lia|exact B].
  - intros (A & B). split; [lia|]. apply H; assumption.
Qed.
Theorem supports_counted n rs : length rs = (2 * (n + 1))%nat -> count_of (n + 1) (held rs) (n_supports n rs).
Proof.
  intros Hr. apply filter_count. intros k Hk. unfold held. destruct (Nat.ltb_spec (2 * k + 1) (length rs)); [|lia]. cbn [andb].
  destruct (Reqb_spec (nth (2 * k) rs 0) 0), (Reqb_spec (nth (2 * k + 1) rs 0) 0); cbn; split; intros; try tauto; try reflexivity; try discriminate.
Qed.
Theorem fixed_counted rs : count_of (length rs) (fun k => nth k rs 0 = -1) (no_fixed_restraints rs).
Proof.
  unfold no_fixed_restraints. assert (E : length (filter (fun r => Reqb r (-1)) rs) = length (filter (fun k => Reqb (nth k rs 0) (-1)) (seq 0 (length rs)))).
  { induction rs as [|r rs IH]; [reflexivity|]. cbn [length seq filter nth]. rewrite <- seq_shift.
    assert (S : forall (g : nat -> bool) l, length (filter g (map S l)) = length (filter (fun k => g (S k)) l)). { clear. intros g l. induction l as [|a l IH]; [reflexivity|]. cbn. destruct (g (S a)); cbn; rewrite IH; reflexivity. }
    destruct (Reqb r (-1)); cbn [length]; rewrite S, IH; reflexivity. }
  rewrite E. apply filter_count. intros k _. destruct (Reqb_spec (nth k rs 0) (-1)); split; intros; try assumption; try reflexivity; try discriminate. contradiction.
Qed.

(** ** Modes that were solved for *)
From Verif Require Import BeamModel ModalFacts2 ModalFacts3.
Lemma half_dofs b nseg : (dofs b nseg / 2)%nat = (elements b nseg + 1)%nat.
Proof. unfold dofs. rewrite Nat.mul_comm. apply Nat.div_mul. discriminate. Qed.
Theorem solved_modes_shown b mass nseg EIs Ls ms : vibrating b mass nseg EIs Ls ms -> forall eigh, eigh_sound eigh -> forall n_modes r, solve_modal eigh b mass n_modes nseg = Ok r ->
  forall modes, (forall m, In m modes -> (m < length (mo_omega r))%nat) ->
  exists pic, plot_modes r modes = Ok pic /\ mp_base pic = [(hd 0 (mo_x r), 0); (last (mo_x r) 0, 0)] /\ length (mp_curves pic) = length modes /\
  forall j m, nth_error modes j = Some m -> exists v c, drawn (ModalSpec.column (mo_phi r) m) (elements b nseg + 1) v /\ through (mo_x r) v c /\
    nth_error (mp_curves pic) j = Some (c, ((m + 1)%nat, nth m (mo_omega r) 0 / (2 * PI))).
Proof.
  intros HV eigh HE n_modes r Hr modes Hm. destruct (modes_x _ _ _ _ _ _ HV _ HE _ _ Hr) as (Lx & Nd & _). destruct (modes_count _ _ _ _ _ _ HV _ HE _ _ Hr) as (C1 & C2).
  assert (D : forall m, (m < length (mo_omega r))%nat -> exists v, mode_shape r m = Ok (mo_x r, v) /\ drawn (ModalSpec.column (mo_phi r) m) (elements b nseg + 1) v).
  { intros m H. assert (HN : exists phi, nth_error (mo_phi r) m = Some phi). { destruct (nth_error (mo_phi r) m) eqn:E; [eauto|]. apply nth_error_None in E. lia. }
    destruct HN as (phi & HN). destruct (shape_drawn r m phi HN) as (v & V1 & V2). { rewrite Nd. unfold dofs. lia. }
    exists v. split; [exact V1|]. rewrite Nd, half_dofs in V2. unfold ModalSpec.column. rewrite (nth_error_nth _ _ _ HN). exact V2. }
  assert (P : exists pic, plot_modes r modes = Ok pic).
  { unfold plot_modes. destruct (mo_x r) as [|x0 xt] eqn:Ex; [cbn in Lx; lia|]. rewrite <- Ex in *. replace (get (mo_x r) 0) with (Ok x0) by (rewrite Ex; reflexivity).
    rewrite last_elt_ok by (rewrite Ex; discriminate). cbn [rbind].
    destruct (mapM_total (fun m => do xv <- mode_shape r m; do c <- polyline (fst xv) (snd xv); do f <- get (mode_freqs r) m; Ok (c, ((m + 1)%nat, f))) modes) as (cs & ->); [|cbn [rbind]; eauto].
    intros m Hi. specialize (Hm m Hi). destruct (D m Hm) as (v & V1 & V2). rewrite V1. cbn [rbind fst snd].
    destruct (polyline_ok (mo_x r) v) as (c & ->); [rewrite (dr_length _ _ _ V2); exact Lx|]. cbn [rbind].
    unfold get, mode_freqs. rewrite nth_error_map. destruct (nth_error (mo_omega r) m) eqn:W; [cbn; eauto|]. apply nth_error_None in W. lia. }
  destruct P as (pic & E). exists pic. split; [exact E|]. destruct (modes_shown _ _ _ E) as (B & L & C). split; [exact B|]. split; [exact L|].
  intros j m Hj. destruct (C j m Hj) as (v & c & V & T & W & N). destruct (D m W) as (v' & V1 & V2). rewrite V in V1. injection V1 as ->. exists v', c. auto.
Qed.
