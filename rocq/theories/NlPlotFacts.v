From Coq Require Import String ZArith Sorted.
From Verif Require Import Base BaseFacts Linalg SectionModel LoadModel UnitsModel ResultsModel VehicleModel AnalysisSpec NonlinModel NonlinSpec NonlinFacts NonlinFacts2 NonlinFacts9 NonlinFacts10 PlotModel NlPlotModel NlPlotSpec.
Open Scope R_scope.
Local Notation length := List.length.
Local Open Scope list_scope.

(** * Lists *)
Lemma insert_loc_in x y l : In y (insert_loc x l) <-> y = x \/ In y l.
Proof.
  induction l as [|z t IH]; cbn [insert_loc]; [cbn; intuition congruence|]. unfold Rltb, Reqb. destruct (Rlt_dec x z); [cbn; intuition congruence|]. destruct (Req_EM_T x z) as [->|N]; cbn; [intuition congruence|]. rewrite IH. intuition congruence.
Qed.
Lemma insert_loc_sorted x l : StronglySorted Rlt l -> StronglySorted Rlt (insert_loc x l).
Proof.
  induction 1 as [|z t Ht IH Hz]; cbn [insert_loc]; [constructor; constructor|]. unfold Rltb, Reqb. destruct (Rlt_dec x z) as [L|L].
  - constructor; [constructor; assumption|]. constructor; [exact L|]. eapply Forall_impl; [|exact Hz]. intros w W. lra.
  - destruct (Req_EM_T x z) as [->|N]; [constructor; assumption|]. constructor; [exact IH|]. apply Forall_forall. intros w W. apply insert_loc_in in W as [->|W]; [lra|]. rewrite Forall_forall in Hz. apply Hz, W.
Qed.
Lemma sorted_set_in y l : In y (sorted_set l) <-> In y l.
Proof. unfold sorted_set. induction l as [|x t IH]; cbn [fold_right]; [reflexivity|]. rewrite insert_loc_in, IH. cbn. intuition congruence. Qed.
Lemma sorted_set_sorted l : StronglySorted Rlt (sorted_set l).
Proof. unfold sorted_set. induction l as [|x t IH]; cbn [fold_right]; [constructor|]. apply insert_loc_sorted, IH. Qed.

(** np.interp at a given abscissa. *)
Lemma interp_from_at : forall t x0 v0 x v, StronglySorted Rlt (x0 :: map fst t) -> In (x, v) ((x0, v0) :: t) -> interp_from x x0 v0 t = v.
Proof.
  induction t as [|[x1 v1] t IH]; intros x0 v0 x v S I; cbn [interp_from]; [destruct I as [I|[]]; congruence|].
  cbn [map fst] in S. apply StronglySorted_inv in S as [S F]. assert (S' := S). apply StronglySorted_inv in S as [S F1]. assert (L01 : x0 < x1) by (rewrite Forall_forall in F; apply F; left; reflexivity). destruct I as [I|I].
  - injection I as -> ->. unfold Rltb. destruct (Rlt_dec x x1) as [L|L]; [|lra]. field. lra.
  - unfold Rltb. destruct (Rlt_dec x x1) as [L|L]; [|apply IH; assumption]. exfalso. destruct I as [I|I]; [injection I as -> _; lra|]. apply (in_map fst) in I. cbn in I. rewrite Forall_forall in F1. specialize (F1 x I). lra.
Qed.
Lemma interp_at t x v : StronglySorted Rlt (map fst t) -> In (x, v) t -> interp x t = v.
Proof.
  destruct t as [|[x0 v0] t]; intros S I; [contradiction|]. cbn [interp]. unfold Rltb. destruct (Rlt_dec x x0) as [L|L].
  - exfalso. destruct I as [I|I]; [injection I as -> _; lra|]. cbn [map fst] in S. apply StronglySorted_inv in S as [_ F]. apply (in_map fst) in I. cbn in I. rewrite Forall_forall in F. specialize (F x I). lra.
  - apply interp_from_at; assumption.
Qed.
Lemma sorted_nth (l : list R) : (forall i j, (i < j < length l)%nat -> nth i l 0 < nth j l 0) -> StronglySorted Rlt l.
Proof.
  induction l as [|x t IH]; intros H; [constructor|]. constructor.
  - apply IH. intros i j Hij. apply (H (S i) (S j)). cbn. lia.
  - apply Forall_forall. intros y Iy. apply In_nth with (d := 0) in Iy as (j & Hj & <-). apply (H 0%nat (S j)). cbn. lia.
Qed.
Lemma max_abs_ge l x : In x l -> Rabs x <= max_abs l.
Proof. unfold max_abs. induction l as [|y t IH]; intros I; [contradiction|]. cbn [map fold_right]. destruct I as [->|I]; [apply Rmax_l|]. eapply Rle_trans; [apply IH, I|apply Rmax_r]. Qed.
Lemma max_abs_pos l : 0 <= max_abs l.
Proof. unfold max_abs. induction l as [|y t IH]; cbn [map fold_right]; [lra|]. eapply Rle_trans; [exact IH|apply Rmax_r]. Qed.
Lemma max_abs_at l : 0 < max_abs l -> exists x, In x l /\ Rabs x = max_abs l.
Proof.
  unfold max_abs. induction l as [|y t IH]; cbn [map fold_right]; [lra|]. generalize dependent (fold_right Rmax 0 (map Rabs t)). intros m IH P. destruct (Rle_dec (Rabs y) m); [rewrite Rmax_right in * by lra|rewrite Rmax_left in * by lra].
  - destruct (IH P) as (x & Ix & Ex). exists x. split; [right; exact Ix|exact Ex].
  - exists y. split; [left; reflexivity|reflexivity].
Qed.
Lemma is_kind_iff k e : is_kind k e = true <-> ev_kind e = k.
Proof. unfold is_kind. destruct k, (ev_kind e); split; congruence. Qed.
Lemma axles_fold front L (l acc : list (R * R)) :
  fold_left (fun acc wc => let x := front - snd wc in if (Rleb 0 x && Rleb x L)%bool then acc ++ [(x, fst wc)] else acc) l acc =
  acc ++ map (fun wc => (front - snd wc, fst wc)) (filter (fun wc => (Rleb 0 (front - snd wc) && Rleb (front - snd wc) L)%bool) l).
Proof.
  revert acc. induction l as [|wc t IH]; intros acc; cbn [fold_left filter map]; [symmetry; apply app_nil_r|]. rewrite IH. cbv zeta. destruct (Rleb 0 (front - snd wc) && Rleb (front - snd wc) L)%bool; [|reflexivity]. cbn [map]. rewrite <- app_assoc. reflexivity.
Qed.
Lemma in_combine_nth {A B} (x : A) (y : B) : forall l m, In (x, y) (combine l m) <-> exists i, nth_error l i = Some x /\ nth_error m i = Some y.
Proof.
  induction l as [|a l IH]; intros [|b m]; cbn [combine]; try (split; [contradiction|intros ([|i] & E1 & E2); cbn in *; discriminate]).
  split.
  - intros [E|I]; [injection E as -> ->; exists 0%nat; split; reflexivity|]. apply IH in I as (i & E1 & E2). exists (S i). split; assumption.
  - intros ([|i] & E1 & E2); cbn in E1, E2; [left; congruence|]. right. apply IH. exists i. split; assumption.
Qed.

(** * An analysis *)
Section Made.
Variables (a : nba) (Ls : list R) (EI : eiargs) (rs : list R) (Mp : narg) (My : option narg) (q msz : R).
Hypothesis H : made a Ls EI rs Mp My q msz.
Let Me := is_meshed _ _ _ _ _ _ _ _ H.
Lemma total_end : nb_total a = coord a (nb_elems a).
Proof.
  rewrite (me_last a Me). unfold nb_total, start. induction (nb_L a) as [|L t IH]; [reflexivity|]. change (lsum (L :: t)) with (L + lsum t). rewrite IH. change (start (L :: t) (length (L :: t))) with (rsum (length (L :: t)) (fun j => nth j (L :: t) 0)). change (L + start t (length t) = start (L :: t) (S (length t))). rewrite start_S. reflexivity.
Qed.
Lemma last_coord : last_of (nb_coords a) = Ok (nb_total a).
Proof.
  rewrite total_end. assert (N := me_nodes a Me). unfold nb_nodes in N. unfold coord. destruct (nb_coords a) as [|x t] eqn:E; [discriminate|]. unfold last_of. f_equal. rewrite <- E in *. clear E x t. replace (nb_elems a) with (length (nb_coords a) - 1)%nat by lia. generalize (nb_coords a). intros l. induction l as [|x [|y l] IH]; [reflexivity|reflexivity|]. change (last (x :: y :: l) 0) with (last (y :: l) 0). rewrite IH. cbn [length]. replace (S (S (length l)) - 1)%nat with (S (length l)) by lia. replace (S (length l) - 1)%nat with (length l) by lia. reflexivity.
Qed.
Lemma total_pos : 0 < nb_total a.
Proof. rewrite total_end. rewrite <- (me_first a Me). apply (coord_lt _ _ _ _ _ _ _ _ H). split; [apply (me_some a Me)|reflexivity]. Qed.
Lemma coords_sorted : StronglySorted Rlt (nb_coords a).
Proof. apply sorted_nth. intros i j Hij. apply (coord_lt _ _ _ _ _ _ _ _ H). assert (N := me_nodes a Me). unfold nb_nodes in N. lia. Qed.
Lemma coord_inj i j : (i < nb_nodes a)%nat -> (j < nb_nodes a)%nat -> coord a i = coord a j -> i = j.
Proof.
  intros Hi Hj E. assert (N := me_nodes a Me). destruct (Nat.lt_trichotomy i j) as [L|[L|L]]; [|exact L|].
  - assert (Q := coord_lt _ _ _ _ _ _ _ _ H i j ltac:(lia)). lra.
  - assert (Q := coord_lt _ _ _ _ _ _ _ _ H j i ltac:(lia)). lra.
Qed.
Lemma joints : at_joints Ls (cumsum 0 (nb_L a)).
Proof.
  destruct (parts _ _ _ _ _ _ _ _ H) as (ei & _ & E1 & _). rewrite E1. split; [apply cumsum_length|]. intros i Hi. rewrite cumsum_nth by exact Hi. ring.
Qed.

(** Events that name the nodes of the mesh. *)
Variable evs : list hevent.
Hypothesis Once : once_each evs.
Hypothesis Nodes : forall ev, In ev evs -> (ev_node ev < nb_nodes a)%nat /\ ev_x ev = coord a (ev_node ev).
Lemma series_good k h : series k h evs (map (fun e => (ev_x e, h e)) (filter (is_kind k) evs)).
Proof.
  split.
  - rewrite map_map. cbn [fst]. unfold once_each in Once. clear -Once Nodes H Me. induction evs as [|e t IH]; [constructor|]. cbn [map] in Once. apply NoDup_cons_iff in Once as [N O]. cbn [filter]. destruct (is_kind k e) eqn:K; [|apply IH; [exact O|intros ev I; apply Nodes; right; exact I]]. cbn [map]. constructor; [|apply IH; [exact O|intros ev I; apply Nodes; right; exact I]].
    intros I. apply in_map_iff in I as (e' & E & I). apply filter_In in I as [I K']. apply is_kind_iff in K, K'. destruct (Nodes e ltac:(left; reflexivity)) as [B1 X1]. destruct (Nodes e' ltac:(right; exact I)) as [B2 X2]. rewrite X1, X2 in E. apply coord_inj in E; [|assumption|assumption]. apply N. apply in_map_iff. exists e'. split; [congruence|exact I].
  - intros x y. rewrite in_map_iff. split.
    + intros (e & E & I). apply filter_In in I as [I K]. apply is_kind_iff in K. injection E as E1 E2. exists e. repeat split; congruence || assumption.
    + intros (e & I & K & -> & ->). exists e. split; [reflexivity|]. apply filter_In. split; [exact I|]. apply is_kind_iff. exact K.
Qed.

(** The curve and the hinges on it. *)
Variable w : nat -> R.
Let dv := map w (seq 0 (nb_nodes a)).
Lemma curve_good s : shows_shape a w s (combine (nb_coords a) (map (fun v => v * s) dv)).
Proof.
  unfold shows_shape, dv. rewrite combine_length, !map_length, seq_length. fold (nb_nodes a). split; [apply Nat.min_id|]. intros j Hj. rewrite combine_nth by (rewrite !map_length, seq_length; reflexivity). fold (coord a j). f_equal. rewrite map_map. rewrite (nth_indep _ 0 ((fun x => w x * s) 0%nat)) by (rewrite map_length, seq_length; exact Hj). rewrite (map_nth (fun x => w x * s)). rewrite seq_nth by exact Hj. cbn. ring.
Qed.
Lemma curve_in s j : (j < nb_nodes a)%nat -> In (coord a j, s * w j) (combine (nb_coords a) (map (fun v => v * s) dv)).
Proof. intros Hj. destruct (curve_good s) as [E N]. rewrite <- (N j Hj). apply nth_In. rewrite E. exact Hj. Qed.
Lemma combine_fst {A B} : forall (l : list A) (m : list B), length l = length m -> map fst (combine l m) = l.
Proof. induction l as [|x l IH]; intros [|y m] E; cbn in *; try discriminate; [reflexivity|]. f_equal. apply IH. lia. Qed.
Lemma hinges_good s : hinges_on w s evs (map (fun xi => (xi, interp xi (combine (nb_coords a) (map (fun v => v * s) dv)))) (sorted_set (map ev_x (filter (is_kind PlasticHinge) evs)))).
Proof.
  assert (So : StronglySorted Rlt (map fst (combine (nb_coords a) (map (fun v => v * s) dv)))). { rewrite combine_fst by (unfold dv; rewrite !map_length, seq_length; reflexivity). apply coords_sorted. }
  assert (At : forall ev, In ev evs -> interp (ev_x ev) (combine (nb_coords a) (map (fun v => v * s) dv)) = s * w (ev_node ev)). { intros ev I. destruct (Nodes ev I) as [B E]. rewrite E. apply interp_at; [exact So|]. apply curve_in, B. }
  split; [rewrite map_map; cbn [fst]; rewrite map_id; apply sorted_set_sorted|]. intros x y. rewrite in_map_iff. split.
  - intros (xi & E & I). injection E as -> <-. apply (proj1 (sorted_set_in _ _)) in I. apply in_map_iff in I as (e & <- & I). apply filter_In in I as [I K]. apply is_kind_iff in K. exists e. rewrite At by exact I. repeat split; assumption.
  - intros (e & I & K & -> & ->). exists (ev_x e). rewrite At by exact I. split; [reflexivity|]. apply sorted_set_in, in_map, filter_In. split; [exact I|]. apply is_kind_iff, K.
Qed.
Lemma scale_fills : let c := if Rltb 0 (max_abs dv) then 12/100 * nb_total a / max_abs dv else 1 in 0 < c /\ (moved a w -> fills a w c).
Proof.
  cbv zeta. assert (T := total_pos). assert (G : forall j, (j < nb_nodes a)%nat -> Rabs (w j) <= max_abs dv) by (intros j Hj; apply max_abs_ge; unfold dv; apply in_map, in_seq; lia). unfold Rltb. destruct (Rlt_dec 0 (max_abs dv)) as [P|P].
  - assert (C : 0 < 12/100 * nb_total a / max_abs dv) by (apply Rdiv_lt_0_compat; lra). split; [exact C|]. intros _. split.
    + intros j Hj. rewrite Rabs_mult, (Rabs_pos_eq (_ / _)) by lra. replace (12/100 * nb_total a) with (12/100 * nb_total a / max_abs dv * max_abs dv) at 2 by (field; lra). apply Rmult_le_compat_l; [lra|]. apply G, Hj.
    + destruct (max_abs_at dv P) as (x & I & E). unfold dv in I. apply in_map_iff in I as (j & <- & I). apply in_seq in I. exists j. split; [lia|]. rewrite Rabs_mult, (Rabs_pos_eq (_ / _)), E by lra. field. lra.
  - split; [lra|]. intros (j & Hj & N). exfalso. assert (Q := G j Hj). apply Rabs_pos_lt in N. lra.
Qed.
End Made.

Lemma even_map (u : nat -> R) n : even_entries (map u (seq 0 (2 * n))) n = map (fun j => u (2 * j)%nat) (seq 0 n).
Proof.
  unfold even_entries. apply map_ext_in. intros j I. apply in_seq in I. rewrite (nth_indep _ 0 (u 0%nat)) by (rewrite map_length, seq_length; lia). rewrite map_nth. rewrite seq_nth by lia. reflexivity.
Qed.

(** * The pictures *)
Section Pictures.
Variables (rd : nat -> mat -> bool) (a : nba) (Ls : list R) (EI : eiargs) (rs : list R) (Mp : narg) (My : option narg) (q msz : R).
Hypothesis H : made a Ls EI rs Mp My q msz.
Hypothesis Ca : capacities a.
Variables (us0 us : unit_system) (units : units_arg).
Hypothesis Un : resolve us0 units = Ok us.

Lemma static_nodes LM lmax k ms r : nl_analyze rd a LM lmax k ms = Ok r -> once_each (nr_events r) /\ forall ev, In ev (nr_events r) -> (ev_node ev < nb_nodes a)%nat /\ ev_x ev = coord a (ev_node ev).
Proof. intros E. destruct (events_good rd a Ls EI rs Mp My q msz H Ca LM lmax ms k r E) as (O & _ & N & _). split; [exact O|]. intros ev I. destruct (N ev I) as (N1 & N2 & _). split; assumption. Qed.

(** Static analysis, deformed shape. *)
Lemma collapse_static LM lmax k ms r scale : nl_analyze rd a LM lmax k ms = Ok r ->
  exists p c, plot_collapse us0 (static_out a r) scale units = Ok p /\
    shows_shape a (fun j => nr_u r (2 * j)%nat) c (pc_curve p) /\ hinges_on (fun j => nr_u r (2 * j)%nat) c (nr_events r) (pc_hinges p) /\
    match scale with Some s => c = s | None => 0 < c /\ (moved a (fun j => nr_u r (2 * j)%nat) -> fills a (fun j => nr_u r (2 * j)%nat) c) end /\
    at_joints Ls (pc_supports p) /\ pc_beam p = [(0, 0); (nb_total a, 0)] /\ pc_front p = Some (nr_lambda r) /\ pc_xlabel p = distance_axis us /\
    pc_title p = (if nr_collapsed r then "Collapse mechanism" else "Deformed shape")%string.
Proof.
  intros E. destruct (static_nodes _ _ _ _ _ E) as (O & N). set (w := fun j => nr_u r (2 * j)%nat).
  exists {| pc_beam := [(0, 0); (nb_total a, 0)];
    pc_curve := combine (nb_coords a) (map (fun v => v * match scale with Some s => s | None => if Rltb 0 (max_abs (map w (seq 0 (nb_nodes a)))) then 12/100 * nb_total a / max_abs (map w (seq 0 (nb_nodes a))) else 1 end) (map w (seq 0 (nb_nodes a))));
    pc_supports := cumsum 0 (nb_L a); pc_yields := [];
    pc_hinges := map (fun xi => (xi, interp xi (combine (nb_coords a) (map (fun v => v * match scale with Some s => s | None => if Rltb 0 (max_abs (map w (seq 0 (nb_nodes a)))) then 12/100 * nb_total a / max_abs (map w (seq 0 (nb_nodes a))) else 1 end) (map w (seq 0 (nb_nodes a))))))) (sorted_set (map ev_x (filter (is_kind PlasticHinge) (nr_events r))));
    pc_axles := []; pc_title := if nr_collapsed r then "Collapse mechanism" else "Deformed shape"; pc_front := Some (nr_lambda r); pc_xlabel := distance_axis us; pc_ylabel := "" |}.
  exists (match scale with Some s => s | None => if Rltb 0 (max_abs (map w (seq 0 (nb_nodes a)))) then 12/100 * nb_total a / max_abs (map w (seq 0 (nb_nodes a))) else 1 end).
  split.
  { unfold plot_collapse. rewrite Un. cbn [rbind static_out no_coords no_disp no_supports no_lambda no_collapsed no_events]. rewrite (last_coord _ _ _ _ _ _ _ _ H). cbn [rbind]. rewrite map_length, seq_length. fold (nb_nodes a). unfold nb_dof. rewrite !Nat.leb_refl. rewrite !even_map. reflexivity. }
  cbn [pc_curve pc_hinges pc_supports pc_beam pc_front pc_xlabel]. split; [apply curve_good|]. split; [apply (hinges_good _ _ _ _ _ _ _ _ H _ N)|]. split; [destruct scale; [reflexivity|apply (scale_fills _ _ _ _ _ _ _ _ H w)]|]. split; [apply (joints _ _ _ _ _ _ _ _ H)|]. repeat split.
Qed.
(** Moving loads: no deformed shape. *)
Lemma collapse_moving m st n_sub k r scale aw cs vL : (forall j, (j < nb_nodes a)%nat -> 0 <= nb_gy a j) -> carries m aw cs vL -> 0 < st -> 0 <= nb_total a + vL -> n_sub <> 0%nat ->
  nl_moving rd a m st n_sub k = Ok r ->
  exists p, plot_collapse us0 (moving_out a r) scale units = Ok p /\
    shows_shape a (fun _ => 0) 1 (pc_curve p) /\ hinges_on (fun _ => 0) 1 (nr_events r) (pc_hinges p) /\ at_joints Ls (pc_supports p) /\
    pc_title p = (if nr_collapsed r then "Collapse mechanism" else "Deformed shape")%string.
Proof.
  intros Gy C Hs T Ns E. destruct (moving_good rd a Ls EI rs Mp My q msz H Ca Gy m aw cs vL st n_sub k C Hs T Ns) as (r' & E' & _ & O & _ & N0 & _). rewrite E in E'. injection E' as <-.
  assert (N : forall ev, In ev (nr_events r) -> (ev_node ev < nb_nodes a)%nat /\ ev_x ev = coord a (ev_node ev)). { intros ev I. destruct (N0 ev I) as (N1 & N2 & _). split; assumption. }
  assert (Nn : nb_nodes a = S (nb_elems a)) by apply (me_nodes a (is_meshed _ _ _ _ _ _ _ _ H)).
  unfold plot_collapse. rewrite Un. cbn [rbind moving_out no_coords no_disp no_supports no_lambda no_collapsed no_events]. rewrite (last_coord _ _ _ _ _ _ _ _ H). cbn [rbind]. fold (nb_nodes a). cbn [length].
  assert (Lb : Nat.leb (2 * nb_nodes a) 0 = false) by (apply Nat.leb_gt; lia). rewrite Lb. eexists. split; [reflexivity|]. cbn [pc_curve pc_hinges pc_supports].
  match goal with |- context [map (fun v => v * ?s) (repeat 0 _)] => set (sc := s) end.
  assert (Z : map (fun v => v * sc) (repeat 0 (nb_nodes a)) = map (fun v => v * 1) (map (fun _ : nat => 0) (seq 0 (nb_nodes a)))).
  { rewrite map_map. clearbody sc. clear. generalize 0%nat as z. induction (nb_nodes a) as [|n IH]; intros z; [reflexivity|]. cbn [repeat seq map]. f_equal; [ring|apply IH]. }
  rewrite Z. split; [apply curve_good|]. split; [apply (hinges_good _ _ _ _ _ _ _ _ H _ N)|]. split; [apply (joints _ _ _ _ _ _ _ _ H)|reflexivity].
Qed.

(** History and state, for either kind of result. *)
Lemma history_good o moving : no_coords o = nb_coords a -> once_each (no_events o) -> (forall ev, In ev (no_events o) -> (ev_node ev < nb_nodes a)%nat /\ ev_x ev = coord a (ev_node ev)) ->
  exists p, plot_hinge_history us0 o moving units = Ok p /\
    series InitialYield ev_lam (no_events o) (pc_yields p) /\ series PlasticHinge ev_lam (no_events o) (pc_hinges p) /\
    pc_beam p = (if moving then [] else [(0, 1); (nb_total a, 1)]) /\ pc_xlabel p = distance_axis us /\ (moving = true -> pc_ylabel p = length_axis us "Front axle position").
Proof.
  intros Ec O N. unfold plot_hinge_history. rewrite Un. cbn [rbind]. rewrite Ec, (last_coord _ _ _ _ _ _ _ _ H). cbn [rbind]. eexists. split; [reflexivity|]. cbn [pc_yields pc_hinges pc_beam pc_xlabel pc_ylabel].
  split; [apply (series_good _ _ _ _ _ _ _ _ H _ O N)|]. split; [apply (series_good _ _ _ _ _ _ _ _ H _ O N)|]. split; [reflexivity|]. split; [reflexivity|]. intros ->. reflexivity.
Qed.
Lemma state_good o v : no_coords o = nb_coords a -> no_supports o = cumsum 0 (nb_L a) -> once_each (no_events o) -> (forall ev, In ev (no_events o) -> (ev_node ev < nb_nodes a)%nat /\ ev_x ev = coord a (ev_node ev)) ->
  exists p, plot_beam_state us0 o v units = Ok p /\
    series InitialYield (fun _ => - (1/2)) (no_events o) (pc_yields p) /\ series PlasticHinge (fun _ => - (1/2)) (no_events o) (pc_hinges p) /\
    pc_beam p = [(0, 0); (nb_total a, 0)] /\ at_joints Ls (pc_supports p) /\
    match v with
    | None => pc_axles p = [] /\ pc_front p = None /\ pc_title p = ""%string
    | Some v => axles_on v (no_lambda o) (nb_total a) (pc_axles p) /\ pc_front p = Some (no_lambda o) /\
                vehicle_forces a (v_axw v) (v_coords v) (no_lambda o) = fold_left (fun F xw => add_point a F (snd xw) (fst xw)) (pc_axles p) (fun _ => 0) /\
                pc_title p = (if no_collapsed o then "Vehicle at collapse" else "Vehicle at final")%string
    end.
Proof.
  intros Ec Es O N. unfold plot_beam_state. rewrite Un. cbn [rbind]. rewrite Ec, (last_coord _ _ _ _ _ _ _ _ H). cbn [rbind]. eexists. split; [reflexivity|]. cbn [pc_yields pc_hinges pc_beam pc_supports pc_axles pc_front].
  rewrite Es, cumsum_length. cbn [Nat.ltb Nat.leb draw_beam fst snd]. unfold draw_beam. cbn [fst snd]. rewrite Rplus_0_l. split; [apply (series_good _ _ _ _ _ _ _ _ H _ O N InitialYield (fun _ => - (1/2)))|]. split; [apply (series_good _ _ _ _ _ _ _ _ H _ O N PlasticHinge (fun _ => - (1/2)))|]. split; [reflexivity|]. split; [rewrite Es; apply (joints _ _ _ _ _ _ _ _ H)|].
  destruct v as [v|]; [|repeat split; reflexivity]. rewrite axles_fold. cbn [app]. split; [|split; [reflexivity|split]].
  - intros x w. rewrite in_map_iff. split.
    + intros ([w' c] & Eq & I). cbn [fst snd] in Eq. injection Eq as <- <-. apply filter_In in I as [I B]. cbn [snd] in B. apply andb_prop in B as [B1 B2]. unfold Rleb in B1, B2. destruct (Rle_dec 0 (no_lambda o - c)); [|discriminate]. destruct (Rle_dec (no_lambda o - c) (nb_total a)); [|discriminate]. apply in_combine_nth in I as (i & E1 & E2). exists i, c. repeat split; assumption.
    + intros (i & c & E1 & E2 & -> & B). exists (w, c). split; [reflexivity|]. apply filter_In. split; [apply in_combine_nth; exists i; split; assumption|]. cbn [snd]. unfold Rleb. destruct (Rle_dec 0 (no_lambda o - c)); [|lra]. destruct (Rle_dec (no_lambda o - c) (nb_total a)); [reflexivity|lra].
  - unfold vehicle_forces. generalize (fun _ : nat => 0). induction (combine (v_axw v) (v_coords v)) as [|[w c] t IH]; intros F; [reflexivity|]. cbn [fold_left filter snd fst]. cbv zeta. destruct (Rleb 0 (no_lambda o - c) && Rleb (no_lambda o - c) (nb_total a))%bool; [|apply IH]. cbn [map fold_left fst snd]. apply IH.
  - cbn [pc_title]. destruct (no_collapsed o); reflexivity.
Qed.
End Pictures.

Lemma results_fit (rd : nat -> mat -> bool) a Ls EI rs Mp My q msz : made a Ls EI rs Mp My q msz -> capacities a ->
  (forall LM lmax k ms r, nl_analyze rd a LM lmax k ms = Ok r -> pictured a (static_out a r)) /\
  (forall m st n_sub k r aw cs vL, (forall j, (j < nb_nodes a)%nat -> 0 <= nb_gy a j) -> carries m aw cs vL -> 0 < st -> 0 <= nb_total a + vL -> n_sub <> 0%nat ->
     nl_moving rd a m st n_sub k = Ok r -> pictured a (moving_out a r)).
Proof.
  intros H Ca. split.
  - intros LM lmax k ms r E. destruct (static_nodes rd a _ _ _ _ _ _ _ H Ca _ _ _ _ _ E) as (O & N). repeat split; try apply O; apply N; assumption.
  - intros m st n_sub k r aw cs vL Gy C Hs T Ns E. destruct (moving_good rd a Ls EI rs Mp My q msz H Ca Gy m aw cs vL st n_sub k C Hs T Ns) as (r' & E' & _ & O & _ & N0 & _). rewrite E in E'. injection E' as <-. repeat split; try apply O; apply N0; assumption.
Qed.
Lemma history_shown : forall a Ls EI rs Mp My q msz, made a Ls EI rs Mp My q msz ->
  forall us0 us units, resolve us0 units = Ok us ->
  forall o moving, pictured a o ->
  exists p, plot_hinge_history us0 o moving units = Ok p /\
    series InitialYield ev_lam (no_events o) (pc_yields p) /\ series PlasticHinge ev_lam (no_events o) (pc_hinges p) /\
    pc_beam p = (if moving then [] else [(0, 1); (nb_total a, 1)]) /\ pc_xlabel p = distance_axis us /\ (moving = true -> pc_ylabel p = length_axis us "Front axle position").
Proof. intros. destruct H1 as (A & B & C & D). eapply history_good; eassumption. Qed.
Lemma state_shown : forall a Ls EI rs Mp My q msz, made a Ls EI rs Mp My q msz ->
  forall us0 us units, resolve us0 units = Ok us ->
  forall o v, pictured a o ->
  exists p, plot_beam_state us0 o v units = Ok p /\
    series InitialYield (fun _ => - (1/2)) (no_events o) (pc_yields p) /\ series PlasticHinge (fun _ => - (1/2)) (no_events o) (pc_hinges p) /\
    pc_beam p = [(0, 0); (nb_total a, 0)] /\ at_joints Ls (pc_supports p) /\
    match v with
    | None => pc_axles p = [] /\ pc_front p = None /\ pc_title p = ""%string
    | Some v => axles_on v (no_lambda o) (nb_total a) (pc_axles p) /\ pc_front p = Some (no_lambda o) /\
                vehicle_forces a (v_axw v) (v_coords v) (no_lambda o) = fold_left (fun F xw => add_point a F (snd xw) (fst xw)) (pc_axles p) (fun _ => 0) /\
                pc_title p = (if no_collapsed o then "Vehicle at collapse" else "Vehicle at final")%string
    end.
Proof. intros. destruct H1 as (A & B & C & D). eapply state_good; eassumption. Qed.
