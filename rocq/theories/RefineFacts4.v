From Coq Require Import Lia ZArith.
From Verif Require Import Base BaseFacts Linalg LinalgFacts SectionModel LoadModel LoadSpec LMFacts FoundationModel ElementModel UtilsModel BeamModel BeamSpec AnalysisModel AnalysisSpec LinearFacts
  AnalysisFacts AnalysisFacts2 ResultsModel ResultsSpec ResultsFacts EnvelopeModel EnvelopeSpec PatternFacts VehicleModel VehicleSpec BridgeModel BridgeSpec BridgeFacts BridgeFacts2 BridgeFacts3 BridgeFacts4 RefineSpec RefineFacts RefineFacts2 RefineFacts3.
Open Scope R_scope.

Lemma lipc_mono L C D f : lipc L C f -> C <= D -> lipc L D f.
Proof.
  intros [C0 H] E. split; [lra|]. intros x y Hx Hy. eapply Rle_trans; [apply H; assumption|]. apply Rmult_le_compat_r; [apply Rabs_pos|exact E].
Qed.
Lemma unif n (P : nat -> R -> Prop) : (forall j C D, P j C -> C <= D -> P j D) -> (forall j, (j < n)%nat -> exists C, P j C) -> exists C, 0 <= C /\ forall j, (j < n)%nat -> P j C.
Proof.
  intros M. induction n as [|n IH]; intros H.
  - exists 0. split; [lra|]. intros; lia.
  - destruct IH as (C & C0 & HC); [intros; apply H; lia|]. destruct (H n ltac:(lia)) as (D & HD). exists (Rmax C D). pose proof (Rmax_l C D). pose proof (Rmax_r C D). split; [lra|].
    intros j Hj. destruct (Nat.eq_dec j n) as [->|]; [apply (M n D); assumption|]. apply (M j C); [apply HC; lia|assumption].
Qed.
Lemma flat_close d l l' : 0 <= d -> Forall2 (fun r r' : mres => length (r_M r) = length (r_M r') /\ forall k, Rabs (nth k (r_M r) 0 - nth k (r_M r') 0) <= d) l l' ->
  forall k, Rabs (nth k (flat_map r_M l) 0 - nth k (flat_map r_M l') 0) <= d.
Proof.
  intros D0 F. induction F as [|r r' l l' [EL H] F IH]; intros k; cbn [flat_map].
  - destruct k; cbn; rewrite Rminus_0_r, Rabs_R0; exact D0.
  - destruct (Nat.lt_ge_cases k (length (r_M r))) as [Lt|Ge].
    + rewrite !app_nth1 by lia. apply H.
    + rewrite !app_nth2 by lia. rewrite EL. apply IH.
Qed.
Lemma f2_of_nth {A B} (P : A -> B -> Prop) l l' : length l = length l' -> (forall i x y, nth_error l i = Some x -> nth_error l' i = Some y -> P x y) -> Forall2 P l l'.
Proof.
  revert l'. induction l as [|x l IH]; intros [|y l'] E H; try discriminate; constructor; [exact (H 0%nat x y eq_refl eq_refl)|]. apply IH; [cbn in E; lia|]. intros i. exact (H (S i)).
Qed.
Lemma near_position p0 step : 0 < step -> forall k p, p0 <= p <= p0 + INR k * step + step / 2 -> exists i, (i <= k)%nat /\ Rabs (p - (p0 + INR i * step)) <= step / 2.
Proof.
  intros Hs. induction k as [|k IH]; intros p Hp.
  - exists 0%nat. split; [lia|]. change (INR 0) with 0 in *. rewrite Rabs_right; lra.
  - rewrite S_INR in Hp. destruct (Rle_dec (p0 + INR k * step + step / 2) p) as [Le|Le].
    + exists (S k). split; [lia|]. rewrite S_INR. apply Rabs_le. lra.
    + destruct (IH p ltac:(lra)) as (i & Hi & H). exists i. split; [lia|exact H].
Qed.

Section Close.
Variables (gl : nat -> list (R * R)) (ill : nat -> mat -> bool) (a : analysis).
Local Notation b := (an_beam a).
Local Notation n := (an_n a).
Hypothesis BM : bridge_model a.
Variable rvd : nat -> R -> vec.
Hypothesis PM : forall m mb, (m < n)%nat -> member_at b m = Ok mb -> unit_forces gl mb (rvd m).
Hypothesis RV : forall j, (j < n)%nat -> fits (lend a j) (rvd j).

Lemma axle_axrow p v rows : axle_rows b v p rows -> Forall (axrow n) rows.
Proof using BM.
  unfold axle_rows. intros F. induction F as [|q r l rows (j & x & -> & Hj & _) F IH]; constructor; [|exact IH]. exists j, (snd q), x. split; [reflexivity|]. rewrite (bm_n _ BM). exact Hj.
Qed.
Lemma n_pos : (0 < n)%nat.
Proof using BM. rewrite (bm_n _ BM). apply (dk_some _ (bm_deck _ BM)). Qed.
Lemma fx_held i : restraint b i < 0 -> fx a i = true.
Proof using. intros H. unfold fx, bcv. destruct (prescribed b i); [reflexivity|]. destruct (Rlt_dec (restraint b i) 0); [reflexivity|lra]. Qed.

Lemma positions_close : ends_held b -> exists C, 0 <= C /\
  forall v static sps p p' r r', loaded_at gl ill a v static sps p r -> loaded_at gl ill a v static sps p' r' -> within_of b (C * total_weight v * Rabs (p - p')) r r'.
Proof using BM PM RV.
  intros [H0 HN]. rewrite <- (bm_n _ BM) in HN. pose proof n_pos as Np. pose proof (lend_pos a BM) as LP.
  assert (CM : exists C, 0 <= C /\ forall m, (m < n)%nat -> exists C1, C1 <= C /\ forall j, (j < n)%nat -> forall s, 0 <= s <= lend a m -> lipc (lend a j) C1 (rM gl a rvd m s j)).
  { apply unif; [intros m C D (C1 & H1 & H2) E; exists C1; split; [lra|exact H2]|]. intros m Hm.
    destruct (unif n (fun j C => forall s, 0 <= s <= lend a m -> lipc (lend a j) C (rM gl a rvd m s j))) as (C & _ & HC).
    - intros j C D H E s Hs. apply (lipc_mono _ C); auto.
    - intros j Hj. apply (respM_lip n (kbd gl a) (Bd gl a) (fx a) (lend a) rvd LP RV m j Hm Hj).
    - exists C, C. split; [lra|exact HC]. }
  assert (CR : exists C, 0 <= C /\ forall i, (i < 2 * (n + 1))%nat -> exists C1, C1 <= C /\ forall j, (j < n)%nat -> lipc (lend a j) C1 (rR gl a rvd i j)).
  { apply unif; [intros m C D (C1 & H1 & H2) E; exists C1; split; [lra|exact H2]|]. intros i Hi.
    destruct (unif n (fun j C => lipc (lend a j) C (rR gl a rvd i j))) as (C & _ & HC).
    - intros j C D H E. apply (lipc_mono _ C); auto.
    - intros j Hj. apply (respR_lip n (Kd gl a) (Bd gl a) (fx a) (lend a) rvd LP RV i j Hj).
    - exists C, C. split; [lra|exact HC]. }
  destruct CM as (C1 & P1 & H1), CR as (C2 & P2 & H2). exists (C1 + C2). split; [lra|].
  intros v static sps p p' r r' (rows & HA & HR) (rows' & HA' & HR'). pose proof (axle_axrow _ _ _ HA) as F. pose proof (axle_axrow _ _ _ HA') as F'.
  assert (T0 : 0 <= total_weight v).
  { unfold total_weight, lsum. clear. induction (axles v) as [|x l IH]; cbn; [lra|]. pose proof (Rabs_pos (snd x)). lra. }
  assert (D0 : 0 <= (C1 + C2) * total_weight v * Rabs (p - p')) by (repeat apply Rmult_le_pos; try apply Rabs_pos; lra).
  assert (Gen : forall rs C, 0 <= C <= C1 + C2 -> (forall j, (j < n)%nat -> lipc (lend a j) C (rs j)) -> (forall j, (S j < n)%nat -> rs j (lend a j) = rs (S j) 0) ->
    rs 0%nat 0 = 0 -> rs (n - 1)%nat (lend a (n - 1)) = 0 -> Rabs (rsm rs rows - rsm rs rows') <= (C1 + C2) * total_weight v * Rabs (p - p')).
  { intros rs C HC HL HM Hl Hr.
    pose proof (axles_lip n (lend a) rs C Np LP HL HM Hl Hr b (eq_sym (bm_n _ BM)) (fun j => eq_refl) p p' (axles v) rows rows' HA HA') as Q.
    fold (total_weight v) in Q. fold (rsm rs rows) in Q. fold (rsm rs rows') in Q. eapply Rle_trans; [exact Q|].
    replace (C * Rabs (p - p') * total_weight v) with (C * (total_weight v * Rabs (p - p'))) by ring. rewrite Rmult_assoc. apply Rmult_le_compat_r; [apply Rmult_le_pos; [exact T0|apply Rabs_pos]|lra]. }
  split.
  - intros k. unfold M_at. destruct (run_split gl ill a static rows sps r HR) as (o & kb & rf & a1 & _ & _ & Hv & E & _). destruct (run_split gl ill a static rows' sps r' HR') as (o' & kb' & rf' & a1' & _ & _ & Hv' & E' & _).
    rewrite E, E'. cbn [mres_concat r_M]. apply flat_close; [exact D0|].
    destruct (member_analysis_spec _ _ _ _ _ _ _ Hv) as (_ & _ & Hlen & _), (member_analysis_spec _ _ _ _ _ _ _ Hv') as (_ & _ & Hlen' & _).
    cbn [set_loads with_LM b_nspans] in Hlen, Hlen'. apply f2_of_nth; [congruence|]. intros m x y Hx Hy.
    assert (Hm : (m < n)%nat) by (rewrite (bm_n _ BM), <- Hlen; apply nth_error_Some; congruence).
    destruct (run_moments gl ill a BM rvd PM static rows sps r HR F m Hm) as (mr & Em & El & Ek), (run_moments gl ill a BM rvd PM static rows' sps r' HR' F' m Hm) as (mr' & Em' & El' & Ek').
    rewrite Hx in Em. injection Em as <-. rewrite Hy in Em'. injection Em' as <-. split; [congruence|]. clear k. intros k.
    set (st := stations (lend a m) (an_npts a) (sps m)) in *.
    destruct (Ek k) as [K1 K2], (Ek' k) as [K1' K2'].
    destruct (Nat.eq_dec k 0) as [Z|Z]; [rewrite K2, K2' by (left; exact Z); rewrite Rminus_0_r, Rabs_R0; exact D0|].
    destruct (Nat.lt_ge_cases k (length st - 1)) as [Lt|Ge]; [|rewrite K2, K2' by (right; exact Ge); rewrite Rminus_0_r, Rabs_R0; exact D0].
    destruct (K1 _ ltac:(lia) eq_refl) as [Hs ->], (K1' _ ltac:(lia) eq_refl) as [_ ->]. set (s := nth k st 0) in *.
    replace (SM gl a static m s + rsm (rM gl a rvd m s) rows - (SM gl a static m s + rsm (rM gl a rvd m s) rows')) with (rsm (rM gl a rvd m s) rows - rsm (rM gl a rvd m s) rows') by ring.
    destruct (H1 m Hm) as (C & HC & HL). apply (Gen (rM gl a rvd m s) C).
    + destruct (HL 0%nat Np s Hs) as [C0 _]. lra.
    + intros j Hj. apply HL; assumption.
    + intros j Hj. apply (respM_match n (kbd gl a) (Bd gl a) (fx a) (lend a) rvd LP RV); assumption.
    + apply (respM_left n (kbd gl a) (Bd gl a) (fx a) (lend a) rvd LP RV); auto using fx_held.
    + apply (respM_right n (kbd gl a) (Bd gl a) (fx a) (lend a) rvd LP RV); auto using fx_held.
  - intros i (Hi & Hr & I0 & IN). rewrite <- (bm_n _ BM) in Hi, IN.
    rewrite (run_reactions gl ill a BM rvd PM static rows sps r HR F i Hi Hr), (run_reactions gl ill a BM rvd PM static rows' sps r' HR' F' i Hi Hr).
    replace (SR gl a static i + rsm (rR gl a rvd i) rows - (SR gl a static i + rsm (rR gl a rvd i) rows')) with (rsm (rR gl a rvd i) rows - rsm (rR gl a rvd i) rows') by ring.
    destruct (H2 i Hi) as (C & HC & HL). apply (Gen (rR gl a rvd i) C).
    + destruct (HL 0%nat Np) as [C0 _]. lra.
    + intros j Hj. apply HL; assumption.
    + intros j Hj. apply (respR_match n (Kd gl a) (Bd gl a) (fx a) (lend a) rvd LP RV); assumption.
    + apply (respR_left n (Kd gl a) (Bd gl a) (fx a) (lend a) rvd LP RV); auto using fx_held.
    + apply (respR_right n (Kd gl a) (Bd gl a) (fx a) (lend a) rvd LP RV); auto using fx_held.
Qed.

(** A traverse covers all positions up to half a step. *)
Lemma traverse_close : ends_held b -> exists C, 0 <= C /\ forall g v step pstart pend sp dv g' e, bg_ba g = Some a -> bg_veh g = Some v -> 0 < step -> run_vehicle gl ill g step pstart pend sp dv = (g', Ok e) ->
  exists sps, shear_sections b sp dv sps (bg_spx g') /\ forall p r, given 0 pstart <= p <= given (deck_length b + v_L v) pend -> loaded_at gl ill a v (bg_static g) sps p r -> covered b (C * total_weight v * (step / 2)) e r.
Proof using BM PM RV.
  intros HE. destruct (positions_close HE) as (C & C0 & HC). exists C. split; [exact C0|]. intros g v step pstart pend sp dv g' e Ha Hv Hs Hrun.
  destruct (vehicle_traversed gl ill g a v step pstart pend sp dv g' e Ha Hv BM Hrun) as (k & sps & HS & T). exists sps. split; [exact HS|]. intros p r Hp HL.
  pose proof (tv_end _ _ _ _ _ _ _ _ _ _ _ _ _ T) as TE. rewrite (Rabs_right step) in TE by lra. 
  destruct (near_position (given 0 pstart) step Hs k p) as (i & Hi & Hn).
  { split; [lra|]. unfold Rabs in TE. destruct (Rcase_abs _) in TE; lra. }
  assert (TR := tv_res _ _ _ _ _ _ _ _ _ _ _ _ _ T). rewrite (tv_pos _ _ _ _ _ _ _ _ _ _ _ _ _ T) in TR.
  assert (X : exists r', In r' (bg_results g') /\ loaded_at gl ill a v (bg_static g) sps (given 0 pstart + INR i * step) r').
  { clear - TR Hi. unfold positions in TR. remember (bg_results g') as rs. clear Heqrs. 
    assert (G : forall l rs, Forall2 (fun p r => exists rows, axle_loads v b p rows /\ analysed_with gl ill a sps (bg_static g ++ rows)%list = Ok r) (map (fun i => given 0 pstart + INR i * step) l) rs ->
      In i l -> exists r', In r' rs /\ loaded_at gl ill a v (bg_static g) sps (given 0 pstart + INR i * step) r').
    { clear. induction l as [|j l IH]; intros rs F [].
      - subst j. cbn [map] in F. apply f2_cons in F as (r & rest & -> & (rows & A & B) & _). exists r. split; [left; reflexivity|]. exists rows. split; assumption.
      - cbn [map] in F. apply f2_cons in F as (r & rest & -> & _ & F). destruct (IH rest F H) as (r' & I & L). exists r'. split; [right; exact I|exact L]. }
    apply (G _ _ TR). apply in_seq. lia. }
  destruct X as (r' & HI & HL'). destruct (HC v (bg_static g) sps _ _ r r' HL HL') as [WM WR].
  assert (T0 : 0 <= total_weight v).
  { unfold total_weight, lsum. clear. induction (axles v) as [|x l IH]; cbn; [lra|]. pose proof (Rabs_pos (snd x)). lra. }
  assert (Bd0 : C * total_weight v * Rabs (p - (given 0 pstart + INR i * step)) <= C * total_weight v * (step / 2)) by (apply Rmult_le_compat_l; [apply Rmult_le_pos; assumption|exact Hn]).
  destruct (tv_env _ _ _ _ _ _ _ _ _ _ _ _ _ T) as [EM _ ER _]. split.
  - intros q Hq. destruct (EM q Hq) as [(_ & MX & _) (_ & MN & _)]. specialize (MX r' HI). specialize (MN r' HI). specialize (WM q).
    assert (D : Rabs (M_at q r - M_at q r') <= C * total_weight v * (step / 2)) by lra. clear - D MX MN. unfold Rabs in D. destruct (Rcase_abs _) in D; lra.
  - intros j Hj q Hq. destruct (ER q Hq) as [(_ & MX & _) (_ & MN & _)]. specialize (MX r' HI). specialize (MN r' HI). specialize (WR j Hj).
    assert (D : Rabs (reaction_of b j r - reaction_of b j r') <= C * total_weight v * (step / 2)) by lra. unfold reaction_of in *. fold q in D |- *. clear - D MX MN. unfold Rabs in D. destruct (Rcase_abs _) in D; lra.
Qed.

(** The reaction of a held end jumps by the weight of an axle that drives over it. *)
Lemma end_jump v W rest static sps r r' p : axles v = (0, W) :: rest -> Forall (fun ax => 0 < fst ax) rest -> restraint b 0 < 0 -> p < 0 ->
  loaded_at gl ill a v static sps 0 r -> loaded_at gl ill a v static sps p r' -> reaction_of b 0 r - reaction_of b 0 r' = W.
Proof using BM PM RV.
  intros Ev Hr H0 Hp (rows & HA & HR) (rows' & HA' & HR'). pose proof (axle_axrow _ _ _ HA) as F. pose proof (axle_axrow _ _ _ HA') as F'.
  pose proof n_pos as Np. assert (Hi : (0 < 2 * (n + 1))%nat) by lia.
  rewrite (run_reactions gl ill a BM rvd PM static rows sps r HR F 0 Hi H0), (run_reactions gl ill a BM rvd PM static rows' sps r' HR' F' 0 Hi H0).
  assert (Off : forall q l, q < 0 \/ q = 0 -> Forall (fun ax : R * R => 0 < fst ax) l -> on_deck b (map (fun ax => (q - fst ax, snd ax)) l) = []).
  { intros q l Hq. induction 1 as [|x l Hx FL IH]; [reflexivity|]. unfold on_deck in *. cbn [map filter fst]. unfold within at 1. destruct (Rle_dec 0 (q - fst x)); [lra|]. exact IH. }
  assert (DL : 0 < deck_length b).
  { unfold deck_length, node_at. rewrite <- (bm_n _ BM). destruct n as [|k] eqn:En; [lia|]. pose proof (lend_pos a BM) as LP. rewrite En in LP. cbn [rsum]. 
    assert (0 <= rsum k (fun m => nth m (b_lengths b) 0)) by (apply rsum_nonneg; intros i Hk; left; apply (LP i); lia). pose proof (LP k ltac:(lia)) as Q. unfold lend in Q. lra. }
  unfold axle_rows, axles_at in HA, HA'. rewrite Ev in HA, HA'.
  assert (E1 : on_deck b (map (fun ax => (0 - fst ax, snd ax)) ((0, W) :: rest)) = [(0, W)]).
  { pose proof (Off 0 rest (or_intror eq_refl) Hr) as O. unfold on_deck in *. cbn [map filter fst snd]. rewrite O, Rminus_0_r. unfold within. destruct (Rle_dec 0 0); [|lra]. destruct (Rle_dec 0 (deck_length b)); [reflexivity|lra]. }
  assert (E2 : on_deck b (map (fun ax => (p - fst ax, snd ax)) ((0, W) :: rest)) = []).
  { pose proof (Off p rest (or_introl Hp) Hr) as O. unfold on_deck in *. cbn [map filter fst snd]. rewrite O, Rminus_0_r. unfold within. destruct (Rle_dec 0 p); [lra|reflexivity]. }
  rewrite E1 in HA. rewrite E2 in HA'. apply f2_nil in HA' as ->. apply f2_cons in HA as (w & t & -> & (j & x & -> & Hj & Ey & Hx & Hl) & HA). apply f2_nil in HA as ->. cbn [fst snd] in *.
  assert (Z : j = 0%nat /\ x = 0).
  { destruct j as [|j]; [split; [reflexivity|]|exfalso].
    - unfold node_at in Ey. cbn in Ey. lra.
    - unfold node_at in Ey. cbn [rsum] in Ey. pose proof (lend_pos a BM) as LP. rewrite <- (bm_n _ BM) in Hj. assert (0 <= rsum j (fun m => nth m (b_lengths b) 0)) by (apply rsum_nonneg; intros m Hm; left; apply (LP m); lia).
      pose proof (LP j ltac:(lia)) as Q. unfold lend in Q. lra. }
  destruct Z as [-> ->]. rewrite rsm_cons, rowval_at. unfold rsm at 1 2, lsum. cbn [map fold_right]. unfold rR, respR.
  pose proof (lend_pos a BM) as LP.
  rewrite (held_reacts n (Kd gl a) (Bd gl a) (fx a) rvd 0 0 (held_start n (fx a) (lend a) rvd LP RV Np (fx_held 0 H0))). rewrite nodal_start with (n := n) (len := lend a) by assumption. cbn. ring.
Qed.
End Close.
