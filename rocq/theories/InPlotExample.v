(** Worked pictures. *)
From Coq Require Import String ZArith.
From Verif Require Import Base BaseFacts SectionModel ElementSpec SectBuildModel SectBuildSpec SectBuildFacts SectBuildFacts2 SectBuildFacts3 VehicleModel VehicleFacts EnvelopeModel InPlotModel InPlotSpec InPlotFacts InPlotFacts2.
Open Scope R_scope.
Local Notation length := List.length.
Local Open Scope list_scope.

(** A section with a strip of five times the rigidity, eight tenths of a metre long. *)
Definition strip : list segment := [seg "const" [0; 101/10] [1]; seg "const" [101/10; 109/10] [5]; seg "const" [109/10; 40] [1]].
Lemma strip_built pf : exists s, sect_init pf strip = Ok s.
Proof.
  assert (G : forall acc s c, history pf acc s -> acceptable (s_end s) c -> exists s', history pf (acc ++ [c]) s' /\ s_end s' = end_of c).
  { intros acc s c H A. apply (accepted_iff pf acc s c H) in A as (s' & E). exists s'. split; [exact (h_accepted pf _ _ _ _ H E)|]. destruct (add1_inv _ _ _ _ (call_inv _ _ _ _ E)) as (_ & _ & _ & _ & nw & _ & ->). reflexivity. }
  destruct (G [] sect_empty (seg "const" [0; 101/10] [1]) (h_new pf)) as (s1 & H1 & E1).
  { split; [cbn; lia|]. split; [intros [|i] Hi; cbn in *; [lra|lia]|]. split; [apply abut_refl|]. apply (fits_const _ _ _ 1); [reflexivity|lra]. }
  destruct (G _ s1 (seg "const" [101/10; 109/10] [5]) H1) as (s2 & H2 & E2).
  { split; [cbn; lia|]. split; [intros [|i] Hi; cbn in *; [lra|lia]|]. split; [rewrite E1; apply abut_refl|]. apply (fits_const _ _ _ 5); [reflexivity|lra]. }
  destruct (G _ s2 (seg "const" [109/10; 40] [1]) H2) as (s3 & H3 & E3).
  { split; [cbn; lia|]. split; [intros [|i] Hi; cbn in *; [lra|lia]|]. split; [rewrite E2; apply abut_refl|]. apply (fits_const _ _ _ 1); [reflexivity|lra]. }
  exists s3. apply init_history. exact H3.
Qed.
Lemma strip_joined : joined 0 strip 40.
Proof. repeat (constructor; [reflexivity|]). constructor. Qed.
Lemma strip_sample pf s k : history pf strip s -> (k < 41)%nat -> sect_eval s (INR k) = Ok 1.
Proof.
  intros H K. destruct (le_lt_dec k 10) as [L|L].
  - refine (proj1 (evaluates pf strip s 40 (seg "const" [0; 101/10] [1]) 0 (101/10) (fun _ => 1) (INR k) H strip_joined _ _ _)); [left; reflexivity|exact (dec_const (seg "const" [0; 101/10] [1]) 1 eq_refl eq_refl)|].
    right. split; [reflexivity|]. apply le_INR in L. assert (P := pos_INR k). replace (INR 10) with 10 in L by (cbn; ring). lra.
  - refine (proj1 (evaluates pf strip s 40 (seg "const" [109/10; 40] [1]) (109/10) 40 (fun _ => 1) (INR k) H strip_joined _ _ _)); [right; right; left; reflexivity|exact (dec_const (seg "const" [109/10; 40] [1]) 1 eq_refl eq_refl)|].
    left. assert (L2 : (k <= 40)%nat) by lia. apply le_INR in L2. apply le_INR in L. rewrite !INR_IZR_INZ in *. cbn in L, L2. lra.
Qed.
Lemma mapM_all {A B} (f : A -> result B) (P : B -> Prop) l : (forall a, In a l -> exists b, f a = Ok b /\ P b) -> exists v, mapM f l = Ok v /\ Forall P v.
Proof.
  induction l as [|a l IH]; intros H; [exists []; split; [reflexivity|constructor]|]. destruct (H a (or_introl eq_refl)) as (b & E & Pb). destruct IH as (v & Ev & Pv); [intros x I; apply H; right; exact I|].
  cbn. rewrite E. cbn. rewrite Ev. cbn. exists (b :: v). split; [reflexivity|constructor; assumption].
Qed.
Lemma flat_none sh Ls es xv v : 0 < v -> es <> [] -> all_samples 0 Ls es = Ok xv -> Forall (fun p => snd p = v) xv -> depth_profile sh Ls es = Ok None.
Proof.
  intros Pv N E F. unfold depth_profile. destruct es as [|e es]; [congruence|]. rewrite E. cbn [rbind]. assert (G : Forall (eq v) (map snd xv)) by (clear - F; induction F; constructor; auto).
  destruct (map snd xv) as [|w l]; [cbn; destruct (Rleb_spec 0 0); [reflexivity|lra]|].
  inversion G as [|? ? Q G']; subst. cbn [row_max row_min]. rewrite fold_min_const, fold_max_const by exact G'. destruct (Rleb_spec (w - w) (1e-6 * w)); [rewrite Bool.orb_true_r; reflexivity|]. lra.
Qed.
Lemma strip_flat pf : exists s, sect_init pf strip = Ok s /\ positive_beam [40] [RSect s] /\ sect_eval s (105/10) = Ok 5 /\ sect_eval s 20 = Ok 1 /\ forall sh, depth_profile sh [40] [RSect s] = Ok None.
Proof.
  destruct (strip_built pf) as (s & E). exists s. split; [exact E|]. apply init_history in E.
  assert (V : forall x, 0 <= x <= 40 -> exists v, sect_eval s x = Ok v /\ 0 < v).
  { intros x Hx. assert (D : exists v, sect_eval s x = Ok v) by (apply (total pf strip s 40 x E strip_joined); discriminate). destruct D as (v & Ev). exists v. split; [exact Ev|].
    assert (Q := positive pf strip s 40 E strip_joined). assert (PR : positive_rigidity (RSect s)).
    { apply Q; [repeat constructor; discriminate|]. repeat constructor; (apply gentle_const; [reflexivity|]); [apply (fits_const _ _ _ 1)|apply (fits_const _ _ _ 5)|apply (fits_const _ _ _ 1)]; (reflexivity || lra). }
    destruct (history_laid _ _ _ E) as (nws & [A B _ _]). assert (EX := joined_exact _ _ _ A _ _ strip_joined). rewrite <- B in EX. destruct PR as [_ PR].
    assert (NE : s_pieces s <> []) by (intros Z; rewrite Z in EX; inversion EX; lra). destruct (exact_cover _ _ _ EX NE x Hx) as (p & Ip & Bp). exact (PR p x v Ip Bp Ev). }
  split; [constructor; [split; [lra|exact V]|constructor]|]. split; [|split].
  - refine (proj1 (evaluates pf strip s 40 (seg "const" [101/10; 109/10] [5]) (101/10) (109/10) (fun _ => 5) (105/10) E strip_joined _ _ _)); [right; left; reflexivity|exact (dec_const (seg "const" [101/10; 109/10] [5]) 5 eq_refl eq_refl)|left; lra].
  - assert (Q := strip_sample pf s 20 E ltac:(lia)). rewrite INR_IZR_INZ in Q. exact Q.
  - intros sh. destruct (mapM_all (fun x => do v <- sect_eval s x; Ok (0 + x, v)) (fun p => snd p = 1) (linspace 0 40 41)) as (xv & Ex & Fx).
    + intros x I. unfold linspace in I. apply in_map_iff in I. destruct I as (k & <- & Ik). apply in_seq in Ik. replace (0 + INR k * ((40 - 0) / INR (41 - 1))) with (INR k).
      * rewrite (strip_sample pf s k E) by lia. cbn. eexists. split; reflexivity.
      * rewrite (INR_IZR_INZ (41 - 1)). cbn. field.
    + apply (flat_none sh [40] [RSect s] xv 1); [lra|discriminate| |exact Fx]. cbn [all_samples depth_samples]. rewrite Ex. cbn [rbind]. rewrite app_nil_r. reflexivity.
Qed.

(** The demonstration section drawn. *)
Lemma demo_picture pf : exists s v, sect_init pf demo = Ok s /\ history pf demo s /\ joined 0 demo 6 /\ section_plot 200 true s = Ok v /\ In (5, 40, 25) (sp_risers v) /\
  (forall y1 y2, ~ In (2, y1, y2) (sp_risers v)) /\ sp_marks v = [0; 2; 3; 5; 6].
Proof.
  destruct (demo_built pf) as (s & E). assert (H := proj1 (init_history pf _ _) E). assert (P : exists v, section_plot 200 true s = Ok v) by (apply (plot_total pf demo); [exact H|discriminate]). destruct P as (v & Ev).
  exists s, v. split; [exact E|]. split; [exact H|]. split; [exact demo_joined|]. split; [exact Ev|].
  assert (D2 : declares (seg "pwl" [2; 3; 5] [30; 20; 40]) 3 5 (chord 3 5 20 40)) by exact (dec_linear (seg "pwl" [2; 3; 5] [30; 20; 40]) [30; 20; 40] 1 (or_intror eq_refl) eq_refl ltac:(cbn; lia)).
  assert (D1 : declares (seg "pwl" [2; 3; 5] [30; 20; 40]) 2 3 (chord 2 3 30 20)) by exact (dec_linear (seg "pwl" [2; 3; 5] [30; 20; 40]) [30; 20; 40] 0 (or_intror eq_refl) eq_refl ltac:(cbn; lia)).
  assert (D0 : declares (seg "const" [0; 2] [30]) 0 2 (fun _ => 30)) by exact (dec_const (seg "const" [0; 2] [30]) 30 eq_refl eq_refl).
  assert (D3 : declares (seg "linear" [5; 6] [25; 10]) 5 6 (chord 5 6 25 10)) by exact (dec_linear (seg "linear" [5; 6] [25; 10]) [25; 10] 0 (or_introl eq_refl) eq_refl ltac:(cbn; lia)).
  split; [|split].
  - assert (R := jump_drawn pf demo s 6 _ _ 3 5 6 _ _ 200%Z true v H demo_joined (or_intror (or_introl eq_refl)) (or_intror (or_intror (or_introl eq_refl))) D2 D3 Ev).
    replace (chord 3 5 20 40 5) with 40 in R by (unfold chord; field). replace (chord 5 6 25 10 5) with 25 in R by (unfold chord; field). apply R. unfold told_apart. rewrite (Rabs_right 40), (Rabs_left (25 - 40)); lra.
  - intros y1 y2 I. apply (jumps_drawn pf demo s 6 _ _ 0 2 3 _ _ 200%Z true v H demo_joined (or_introl eq_refl) (or_intror (or_introl eq_refl)) D0 D1 Ev y1 y2) in I. destruct I as (-> & -> & T). unfold told_apart, chord in T. replace (30 + (20 - 30) * ((2 - 2) / (3 - 2)) - 30) with 0 in T by field. rewrite Rabs_R0, Rabs_right in T; lra.
  - apply (marks_drawn pf demo s 6 200%Z true v H demo_joined); [discriminate| |exact Ev]. unfold Rmax. destruct (Rle_dec 1 6); [|lra]. cbn. repeat split; lra.
Qed.

(** Two spans of different rigidity. *)
Lemma two_depths : positive_beam [3; 4] [RConst 8; RConst 1] /\ exists pts, depth_profile 1 [3; 4] [RConst 8; RConst 1] = Ok (Some pts) /\ In (0, 6/10) pts /\ In (7, 3/10) pts.
Proof.
  split; [repeat (constructor; [split; lra|]); constructor|]. unfold depth_profile. cbn [all_samples depth_samples rbind app map snd row_max row_min fold_left]. 
  rewrite !(Rmax_left 8), !(Rmin_left 8 8), (Rmin_right 8 1), (Rmin_left 1 1) by lra. destruct (Rleb_spec 8 0); [lra|]. destruct (Rleb_spec (8 - 1) (1e-6 * 8)); [lra|]. cbn [orb]. eexists. split; [reflexivity|]. cbn [map fst snd In]. split.
  - left. f_equal; [ring|]. replace (8 / 8) with 1 by field. unfold Rpower. rewrite ln_1, Rmult_0_r, exp_0. field.
  - right. right. right. left. f_equal; [ring|]. replace (1 / 8) with (/ (2 ^ 3)) by (cbn; field). replace (Rpower (/ 2 ^ 3) (1 / 3)) with (/ 2); [field|]. unfold Rpower. rewrite ln_Rinv, ln_pow by lra. replace (1 / 3 * - (INR 3 * ln 2)) with (- ln 2) by (cbn; field). rewrite exp_Ropp, exp_ln by lra. reflexivity.
Qed.
(** Reactions up and down, and a couple. *)
Lemma reactions_ex : exists vs ms, reactions_picture [0; 4; 9] 1 [(0%nat, 10); (2%nat, -3)] [(0%nat, -7)] = Ok (vs, ms) /\ length vs = 2%nat /\ length ms = 1%nat.
Proof. unfold reactions_picture. cbn [mapM get fst snd nth_error rbind]. eexists _, _. split; [reflexivity|]. split; reflexivity. Qed.
