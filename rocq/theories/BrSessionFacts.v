(** Proofs about programs with bridge analyses (C90). *)
From Coq Require Import Lia ZArith.
From Verif Require Import Base BaseFacts Linalg SectionModel LoadModel FoundationModel ElementModel UtilsModel BeamModel AnalysisModel AnalysisSpec ResultsModel RenderModel SessionModel SessionSpec SessionFacts
  EnvelopeModel VehicleModel VehicleSpec BridgeModel BridgeSpec BridgeFacts BridgeFacts3 BridgeFacts4 LoadCasesSpec BrSessionModel BrSessionSpec.
Open Scope R_scope.

Lemma F2_impl {A B} (P Q : A -> B -> Prop) l m : (forall x y, P x y -> Q x y) -> Forall2 P l m -> Forall2 Q l m.
Proof. intros H. induction 1; constructor; auto. Qed.

Section B.
Variable gl : nat -> list (R * R).
Variable ill : nat -> mat -> bool.
Local Notation good := (good gl ill).
Local Notation kin := (kin gl ill).

(** ** One position *)
Definition extends (st st' : store) : Prop := (length (st_lists st) <= length (st_lists st'))%nat /\ forall r, (r < length (st_lists st))%nat -> rows_of st' r = rows_of st r.
Lemma extends_refl st : extends st st.
Proof. split; auto. Qed.
Lemma extends_trans a b c : extends a b -> extends b c -> extends a c.
Proof. intros [A1 A2] [B1 B2]. split; [lia|]. intros r Hr. rewrite B2 by lia. apply A2, Hr. Qed.
Lemma new_rows st lm : rows_of (fst (new_list st lm)) (length (st_lists st)) = lm.
Proof. unfold rows_of, new_list. cbn [fst st_lists]. rewrite app_nth2 by lia. rewrite Nat.sub_diag. reflexivity. Qed.
Lemma new_extends st lm : extends st (fst (new_list st lm)).
Proof. split; [unfold new_list; cbn [fst st_lists]; rewrite app_length; lia|]. intros r Hr. apply rows_app, Hr. Qed.

Lemma position_spec st p static o a0 sps rw st' d : good st -> object st p o -> kin a0 (so_an o) -> position_run gl ill st p static o sps rw = (st', d) ->
  fst d = (rows_of st static ++ rw)%list /\ snd d = analysed_with gl ill a0 sps (fst d) /\ good st' /\ extends st st' /\
  (forall q x, q <> p -> (object st' q x <-> object st q x)) /\
  exists o', object st' p o' /\ so_lm o' = length (st_lists st) /\ rows_of st' (so_lm o') = fst d /\ (forall r, snd d = Ok r -> kin a0 (so_an o')).
Proof.
  intros G Ho K H. unfold position_run in H. set (lm := add_LM (rows_of st static) rw) in *.
  pose proof (good_new gl ill st lm G) as G1. pose proof (new_extends st lm) as X1. pose proof (new_rows st lm) as NR.
  assert (L1 : length (st_lists (fst (new_list st lm))) = S (length (st_lists st))) by (unfold new_list; cbn [fst st_lists]; rewrite app_length; cbn; lia).
  destruct (new_list st lm) as [st1 r] eqn:EN. assert (r = length (st_lists st)) as -> by (unfold new_list in EN; congruence). cbn [fst] in *.
  assert (O1 : object st1 p o) by (unfold new_list in EN; injection EN as <-; exact Ho).
  assert (OQ : forall q x, object st1 q x <-> object st q x) by (unfold new_list in EN; injection EN as <-; reflexivity).
  set (o1 := {| so_an := so_an o; so_lm := length (st_lists st); so_res := so_res o |}) in *.
  assert (ES : seen st1 o1 = with_beam (so_an o) (set_loads (an_beam (so_an o)) lm)) by (unfold seen, o1; cbn [so_an so_lm]; rewrite NR; reflexivity).
  destruct (G p o Ho) as [_ HH]. assert (HS := healthy_step gl ill _ (OAnalyze None true) (healthy_seen gl ill st1 o1 HH)). cbn [step] in HS. rewrite <- (analyze_fst_core gl ill (seen st1 o1) sps) in HS.
  pose proof (kin_result gl ill a0 (so_an o) lm sps K) as KR. rewrite <- ES in KR.
  destruct (analyze gl ill (seen st1 o1) sps None true) as [a res] eqn:EA. cbn [fst snd] in HS, KR. injection H as <- <-. cbn [fst snd].
  rewrite NR. split; [reflexivity|]. split; [exact KR|]. set (o2 := {| so_an := a; so_lm := length (st_lists st); so_res := _ |}).
  split; [apply (good_write gl ill st1 p o); [exact G1|exact O1|cbn [o2 so_lm]; lia|exact HS]|]. split; [exact X1|]. split.
  - intros q x N. rewrite (object_write st1 p o o2 q x O1). destruct (Nat.eqb_spec q p); [contradiction|apply OQ].
  - exists o2. split; [apply (object_write st1 p o o2 p o2 O1); rewrite Nat.eqb_refl; reflexivity|]. split; [reflexivity|]. split; [exact NR|].
    intros r Er. rewrite ES, Er in EA. exact (proj1 (kin_step gl ill a0 (so_an o) lm sps a r K EA)).
Qed.

(** ** A traverse *)
Definition at_position (a0 : analysis) (static : list row) (sps : nat -> list R) (rows : beam -> R -> result (list row)) (x : R) (d : list row * result bres) : Prop :=
  exists rw, rows (an_beam a0) x = Ok rw /\ fst d = (static ++ rw)%list /\ snd d = analysed_with gl ill a0 sps (fst d).
Lemma positions_spec a0 static sps rows p : geometric rows -> forall ps st out0 o, good st -> object st p o -> kin a0 (so_an o) -> (static < length (st_lists st))%nat ->
  forall st' out r, positions_run gl ill st p static sps rows ps out0 = (st', out, r) ->
  exists ds, out = (out0 ++ ds)%list /\ (length ds <= length ps)%nat /\ (r = Ok tt -> length ds = length ps) /\ Forall2 (at_position a0 (rows_of st static) sps rows) (firstn (length ds) ps) ds /\
    good st' /\ extends st st' /\ (forall q x, q <> p -> (object st' q x <-> object st q x)) /\
    exists o', object st' p o' /\ (ds = [] -> o' = o) /\ (ds <> [] -> (length (st_lists st) <= so_lm o')%nat /\ exists d, last ds ([], Err ValueError) = d /\ rows_of st' (so_lm o') = fst d).
Proof.
  intros GE. induction ps as [|x ps IH]; intros st out0 o G Ho K HS st' out r H.
  - cbn [positions_run] in H. injection H as <- <- <-. exists []. rewrite app_nil_r. cbn [length firstn]. split; [reflexivity|]. split; [lia|]. split; [reflexivity|]. split; [constructor|]. split; [exact G|]. split; [apply extends_refl|]. split; [reflexivity|].
    exists o. split; [exact Ho|]. split; [reflexivity|]. intros C; contradiction.
  - cbn [positions_run] in H. unfold object in Ho. rewrite Ho in H.
    assert (EB : rows (an_beam (so_an o)) x = rows (an_beam a0) x) by (rewrite (k_beam _ _ _ _ K), GE; reflexivity). rewrite EB in H.
    destruct (rows (an_beam a0) x) as [rw|e] eqn:ER.
    + destruct (position_run gl ill st p static o sps rw) as [st1 d] eqn:EP. destruct (position_spec st p static o a0 sps rw st1 d G Ho K EP) as (D1 & D2 & G1 & X1 & O1 & o1 & Ho1 & L1 & R1 & K1).
      assert (AP : at_position a0 (rows_of st static) sps rows x d) by (exists rw; auto). destruct (snd d) as [res|e] eqn:ED.
      * destruct (IH st1 (out0 ++ [d])%list o1 G1 Ho1 (K1 res eq_refl) ltac:(destruct X1; lia) st' out r H) as (ds & E & LE & LO & F & G' & X' & O' & o' & Ho' & N0 & N1).
        exists (d :: ds). rewrite E, <- app_assoc. cbn [app length firstn]. split; [reflexivity|]. split; [lia|]. split; [intros Er; rewrite (LO Er); reflexivity|].
        split; [constructor; [exact AP|]; rewrite (proj2 X1 static HS) in F; exact F|]. split; [exact G'|]. split; [eapply extends_trans; eassumption|].
        split; [intros q y N; rewrite (O' q y N); apply O1, N|]. exists o'. split; [exact Ho'|]. split; [discriminate|]. intros _. destruct ds as [|d2 ds].
        -- rewrite (N0 eq_refl). split; [rewrite L1; lia|]. exists d. split; [reflexivity|]. rewrite (proj2 X'); [exact R1|]. rewrite L1. destruct X1 as [X1 _]. destruct (G1 p o1 Ho1) as [GL _]. lia.
        -- destruct (N1 ltac:(discriminate)) as (LL & d' & E1 & E2). split; [destruct X1; lia|]. exists d'. split; [exact E1|exact E2].
      * injection H as <- <- <-. exists [d]. split; [reflexivity|]. split; [cbn; lia|]. split; [discriminate|]. split; [constructor; [exact AP|constructor]|]. split; [exact G1|]. split; [exact X1|]. split; [exact O1|].
        exists o1. split; [exact Ho1|]. split; [discriminate|]. intros _. split; [rewrite L1; lia|]. exists d. auto.
    + injection H as <- <- <-. exists []. rewrite app_nil_r. cbn [length firstn]. split; [reflexivity|]. split; [lia|]. split; [discriminate|]. split; [constructor|]. split; [exact G|]. split; [apply extends_refl|]. split; [reflexivity|].
      exists o. split; [exact Ho|]. split; [reflexivity|]. intros C; contradiction.
Qed.

(** ** A program *)
Local Notation bexec := (bexec gl ill).
Local Notation brun := (brun gl ill).
Definition bgood (s : bstore) : Prop := good (bs_st s) /\ forall q b, nth_error (bs_br s) q = Some b -> (bo_static b < length (st_lists (bs_st s)))%nat.

Lemma exec_len st k : (length (st_lists st) <= length (st_lists (fst (exec gl ill st k))))%nat.
Proof.
  destruct k as [lm|r lm|c lm|p r|p h|p r|p rs|p ds|p L EI et GAv kf|p|p npts check]; cbn [SessionModel.exec].
  1: { cbn. rewrite app_length. cbn. lia. }
  1: { destruct (Nat.ltb_spec r (length (st_lists st))); cbn [fst]; [|lia]. unfold write_list. cbn [st_lists]. rewrite put_length by assumption. lia. }
  1: { set (X := match lm with Some r => (st, r) | None => new_list st [] end).
       assert (GX : (length (st_lists st) <= length (st_lists (fst X)))%nat) by (unfold X; destruct lm; cbn; [lia|rewrite app_length; lia]).
       destruct X as [st1 r]. cbn [fst] in GX. destruct (Nat.ltb_spec r (length (st_lists st1))); [|cbn; lia].
       destruct (analysis_init _) as [a|e]; cbn [fst st_lists]; lia. }
  all: unfold on_obj; destruct (nth_error (st_objs st) p) as [o'|] eqn:Ho; [|cbn; lia].
  all: try (destruct (Nat.ltb _ _)); try (destruct (helper_row h)); try (destruct (set_prescribed _ _) as [b x]); try (destruct (add_span _ _ _ _ _ _) as [b x]); try (destruct (is_stable _ _ _) as [a x]);
       try (destruct (analyze _ _ _ _ _ _) as [a [x|e]]); cbn [fst snd write_obj write_list st_lists]; try lia.
  all: unfold put; rewrite app_length, firstn_length; cbn [length]; rewrite skipn_length; lia.
Qed.

Lemma run_cases s q sp dv rows ps s' out r : run_of gl ill s q sp dv rows ps = (s', out, r) ->
  (s' = s /\ out = [] /\ r <> Ok tt) \/
  exists b p v o sps pts, nth_error (bs_br s) q = Some b /\ bo_ba b = Some p /\ bo_veh b = Some v /\ object (bs_st s) p o /\ apply_shear_points (an_beam (so_an o)) sp dv = Ok (sps, pts) /\
    positions_run gl ill (bs_st s) p (bo_static b) sps (rows v) ps [] = (bs_st s', out, r) /\ bs_br s' = bs_br s.
Proof.
  unfold run_of. intros H. destruct (nth_error (bs_br s) q) as [b|] eqn:Eb; [|left; injection H as <- <- <-; repeat split; discriminate].
  destruct (bo_ba b) as [p|] eqn:Ep; [|left; injection H as <- <- <-; repeat split; discriminate].
  destruct (bo_veh b) as [v|] eqn:Ev; [|left; injection H as <- <- <-; repeat split; discriminate].
  destruct (nth_error (st_objs (bs_st s)) p) as [o|] eqn:Eo; [|left; injection H as <- <- <-; repeat split; discriminate].
  destruct (apply_shear_points (an_beam (so_an o)) sp dv) as [[sps pts]|e] eqn:Es; [|left; injection H as <- <- <-; repeat split; discriminate].
  destruct (positions_run gl ill (bs_st s) p (bo_static b) sps (rows v) ps []) as [[st' out'] r'] eqn:EP. injection H as <- <- <-.
  right. exists b, p, v, o, sps, pts. repeat split; auto.
Qed.

(** What a call that analyses positions does to the state. *)
Definition driven (s s' : bstore) (q : nat) (out : list (list row * result bres)) : Prop :=
  bgood s' /\ bs_br s' = bs_br s /\ extends (bs_st s) (bs_st s') /\
  ((s' = s /\ out = []) \/ exists b p o o', nth_error (bs_br s) q = Some b /\ bo_ba b = Some p /\ object (bs_st s) p o /\ object (bs_st s') p o' /\
     (forall p' x, p' <> p -> (object (bs_st s') p' x <-> object (bs_st s) p' x)) /\
     (out = [] -> o' = o) /\ (out <> [] -> (length (st_lists (bs_st s)) <= so_lm o')%nat /\ rows_of (bs_st s') (so_lm o') = fst (last out ([], Err ValueError)))).
Lemma run_driven s q sp dv rows ps s' out r : bgood s -> (forall v, geometric (rows v)) -> run_of gl ill s q sp dv rows ps = (s', out, r) -> driven s s' q out.
Proof.
  intros [G B] GE H. destruct (run_cases _ _ _ _ _ _ _ _ _ H) as [(-> & -> & _)|(b & p & v & o & sps & pts & Hb & Hp & Hv & Ho & Hs & HP & HB)].
  - split; [split; assumption|]. split; [reflexivity|]. split; [apply extends_refl|]. left. auto.
  - destruct (positions_spec (so_an o) (bo_static b) sps (rows v) p (GE v) ps (bs_st s) [] o G Ho (kin_refl gl ill _) (B q b Hb) _ _ _ HP) as (ds & E & _ & _ & _ & G' & X' & O' & o' & Ho' & N0 & N1).
    cbn [app] in E. subst out. split; [split; [exact G'|]; rewrite HB; intros q' b' Hb'; specialize (B q' b' Hb'); destruct X'; lia|]. split; [exact HB|]. split; [exact X'|]. right.
    exists b, p, o, o'. do 5 (split; [assumption|]). split; [exact N0|]. intros N. destruct (N1 N) as (A & d & <- & C). auto.
Qed.

Lemma drive_driven s k q ps sp dv P s' out r : bgood s -> drives k q ps sp dv P -> bexec s k = (s', out, r) -> driven s s' q out.
Proof.
  intros G D H. destruct D as [q pos sp dv|q ps sp dv|q ps w c sp dv]; cbn [BrSessionModel.bexec] in H.
  - eapply run_driven; [exact G| |exact H]. intros v. apply geometric_axles.
  - eapply run_driven; [exact G| |exact H]. intros v. apply geometric_axles.
  - destruct (validate_clearances c) as [bf|e] eqn:V.
    + eapply run_driven; [exact G| |exact H]. intros v. apply geometric_lane.
    + injection H as <- <- <-. split; [exact G|]. split; [reflexivity|]. split; [apply extends_refl|]. left. auto.
Qed.

Definition drive_of (k : bcall) : option nat := match k with Static q _ _ _ | Traverse q _ _ _ | LaneTraverse q _ _ _ _ _ => Some q | _ => None end.
Lemma drive_of_drives k q : drive_of k = Some q -> exists ps sp dv P, drives k q ps sp dv P.
Proof. destruct k; cbn; try discriminate; intros [= ->]; do 4 eexists; constructor. Qed.

Lemma bridge_put (l : list bobj) q x b q' b' : nth_error l q = Some b -> nth_error (put l q x) q' = Some b' -> (q' = q /\ b' = x) \/ (q' <> q /\ nth_error l q' = Some b').
Proof.
  intros H H'. destruct (Nat.eq_dec q' q) as [->|N].
  - rewrite put_same in H' by exact (some_lt _ _ _ H). injection H' as <-. left; auto.
  - rewrite put_other in H' by (try exact (some_lt _ _ _ H); exact N). right; auto.
Qed.

Lemma bgood_exec s k : bgood s -> bgood (fst (fst (bexec s k))).
Proof.
  intros G. destruct (drive_of k) as [q|] eqn:ED.
  - destruct (drive_of_drives k q ED) as (ps & sp & dv & P & D). destruct (bexec s k) as [[s' out] r] eqn:E. exact (proj1 (drive_driven _ _ _ _ _ _ _ _ _ _ G D E)).
  - destruct G as [G B]. destruct k as [k|[p|] v|q p|q v| | |]; try discriminate; cbn [BrSessionModel.bexec].
    + destruct (exec gl ill (bs_st s) k) as [st r] eqn:E. cbn [fst]. split; cbn [bs_st bs_br].
      * pose proof (good_exec gl ill (bs_st s) k G) as G'. rewrite E in G'. exact G'.
      * intros q b Hb. pose proof (exec_len (bs_st s) k) as L. rewrite E in L. cbn [fst] in L. specialize (B q b Hb). lia.
    + destruct (nth_error (st_objs (bs_st s)) p) as [o|] eqn:Eo; cbn [fst]; [|split; assumption]. split; [exact G|]. cbn [bs_st bs_br]. intros q b Hb.
      destruct (lt_dec q (length (bs_br s))) as [L|L].
      * rewrite nth_error_app1 in Hb by exact L. exact (B q b Hb).
      * rewrite nth_error_app2 in Hb by lia. destruct (q - length (bs_br s))%nat as [|[|n]]; cbn in Hb; try discriminate. injection Hb as <-. exact (proj1 (G p o Eo)).
    + cbn [fst new_list]. split; [apply (good_new gl ill (bs_st s) [] G)|]. cbn [bs_st bs_br st_lists]. intros q b Hb. rewrite app_length. cbn [length].
      destruct (lt_dec q (length (bs_br s))) as [L|L].
      * rewrite nth_error_app1 in Hb by exact L. specialize (B q b Hb). lia.
      * rewrite nth_error_app2 in Hb by lia. destruct (q - length (bs_br s))%nat as [|[|n]]; cbn in Hb; try discriminate. injection Hb as <-. cbn [bo_static]. lia.
    + destruct (nth_error (st_objs (bs_st s)) p) as [o|] eqn:Eo; cbn [fst]; [|split; assumption]. unfold on_bridge. destruct (nth_error (bs_br s) q) as [b|] eqn:Eb; cbn [fst]; [|split; assumption].
      split; [exact G|]. cbn [bs_st bs_br]. intros q' b' Hb'. destruct (bridge_put _ _ _ _ _ _ Eb Hb') as [[-> ->]|[N X]]; [exact (proj1 (G p o Eo))|exact (B q' b' X)].
    + unfold on_bridge. destruct (nth_error (bs_br s) q) as [b|] eqn:Eb; cbn [fst]; [|split; assumption].
      split; [exact G|]. cbn [bs_st bs_br]. intros q' b' Hb'. destruct (bridge_put _ _ _ _ _ _ Eb Hb') as [[-> ->]|[N X]]; [exact (B q b Eb)|exact (B q' b' X)].
Qed.
Lemma brun_snoc ks k : brun (ks ++ [k])%list = fst (fst (bexec (brun ks) k)).
Proof. unfold BrSessionModel.brun. rewrite fold_left_app. reflexivity. Qed.
Lemma bgood_run ks : bgood (brun ks).
Proof.
  induction ks as [|k ks IH] using rev_ind.
  - split; [intros p o H; destruct p; discriminate|intros [|q] b H; discriminate].
  - rewrite brun_snoc. apply bgood_exec, IH.
Qed.

(** ** The properties *)
Lemma positions_loads ks k q ps sp dv P p v o static s' ds r : let s := brun ks in
  drives k q ps sp dv P -> works_on s q p -> has_vehicle s q v -> static_loads s q static -> object (bs_st s) p o -> bridge_model (so_an o) ->
  (2 * b_nspans (an_beam (so_an o)) < length (b_R (an_beam (so_an o))))%nat -> Forall (Rlt length_tol) (b_lengths (an_beam (so_an o))) -> 0 <= v_L v ->
  bexec s k = (s', ds, r) ->
  (length ds <= length ps)%nat /\ (r = Ok tt -> length ds = length ps) /\
  exists sps, (ds <> [] -> exists pts, shear_sections (an_beam (so_an o)) sp dv sps pts) /\
    Forall2 (fun x d => exists rw, P v (an_beam (so_an o)) x rw /\ fst d = (static ++ rw)%list /\ snd d = analysed_with gl ill (so_an o) sps (fst d)) (firstn (length ds) ps) ds.
Proof.
  cbv zeta. intros D (b & Hb & Hp) (b1 & Hb1 & Hv) (b2 & Hb2 & Hs) Ho BM HR F HL H.
  assert (b1 = b) as -> by congruence. assert (b2 = b) as -> by congruence. clear Hb1 Hb2. destruct (bgood_run ks) as [G B].
  assert (M : forall rows ps' s2 ds2 r2, (forall u, geometric (rows u)) -> described (rows v) (P v) (so_an o) -> run_of gl ill (brun ks) q sp dv rows ps' = (s2, ds2, r2) ->
    (length ds2 <= length ps')%nat /\ (r2 = Ok tt -> length ds2 = length ps') /\
    exists sps, (ds2 <> [] -> exists pts, shear_sections (an_beam (so_an o)) sp dv sps pts) /\
    Forall2 (fun x d => exists rw, P v (an_beam (so_an o)) x rw /\ fst d = (static ++ rw)%list /\ snd d = analysed_with gl ill (so_an o) sps (fst d)) (firstn (length ds2) ps') ds2).
  { intros rows ps' s2 ds2 r2 GE DS HH. destruct (run_cases _ _ _ _ _ _ _ _ _ HH) as [(_ & -> & NR)|(b' & p' & v' & o' & sps & pts & Hb' & Hp' & Hv' & Ho' & Hs' & HP & HB)].
    - split; [cbn; lia|]. split; [intros E; contradiction|]. exists (fun _ => []). split; [intros C; contradiction|constructor].
    - assert (b' = b) as -> by congruence. assert (p' = p) as -> by congruence. assert (v' = v) as -> by congruence. assert (o' = o) as -> by (unfold object in *; congruence).
      destruct (positions_spec (so_an o) (bo_static b) sps (rows v) p (GE v) ps' (bs_st (brun ks)) [] o G Ho (kin_refl gl ill _) (B q b Hb) _ _ _ HP) as (ds' & E & LE & LO & FF & _).
      cbn [app] in E. subst ds'. split; [exact LE|]. split; [exact LO|]. exists sps. split; [intros _; exists pts; apply apply_sections; [exact (bm_deck _ BM)|exact HR|exact Hs']|].
      rewrite Hs in FF. revert FF. apply F2_impl. intros x d (rw & E1 & E2 & E3). destruct (DS x) as (rw' & E4 & E5). assert (rw' = rw) as -> by congruence. exists rw. auto. }
  destruct D as [q pos sp dv|q ps sp dv|q ps w c sp dv]; cbn [BrSessionModel.bexec] in H.
  - exact (M _ _ _ _ _ (fun u => geometric_axles u) (axles_described _ v (bm_deck _ BM)) H).
  - exact (M _ _ _ _ _ (fun u => geometric_axles u) (axles_described _ v (bm_deck _ BM)) H).
  - destruct (validate_clearances c) as [bf|e] eqn:V.
    + exact (M _ _ _ _ _ (fun u => geometric_lane u c bf w) (lane_described _ v c bf w (bm_deck _ BM) F HL V) H).
    + injection H as <- <- <-. split; [cbn; lia|]. split; [discriminate|]. exists (fun _ => []). split; [intros C; contradiction|constructor].
Qed.

Lemma static_kept ks k q rows : static_loads (brun ks) q rows -> ~ touches (brun ks) k q -> static_loads (brun (ks ++ [k])%list) q rows.
Proof.
  intros (b & Hb & HR) NT. rewrite brun_snoc. pose proof (bgood_run ks) as GG. destruct (drive_of k) as [q'|] eqn:ED.
  - destruct (drive_of_drives k q' ED) as (ps & sp & dv & P & D). destruct (bexec (brun ks) k) as [[s' out] r] eqn:E. destruct (drive_driven _ _ _ _ _ _ _ _ _ _ GG D E) as (_ & EB & [_ X] & _). cbn [fst].
    exists b. rewrite EB. split; [exact Hb|]. rewrite X; [exact HR|]. exact (proj2 GG q b Hb).
  - destruct GG as [G B]. destruct k as [k|[p|] v|q' p|q' v| | |]; try discriminate; cbn [BrSessionModel.bexec touches] in *.
    + pose proof (exec_lists gl ill (bs_st (brun ks)) k (bo_static b) G (B q b Hb)) as X. destruct (exec gl ill (bs_st (brun ks)) k) as [st r] eqn:E. cbn [fst] in *.
      exists b. split; [exact Hb|]. cbn [bs_st]. rewrite X; [exact HR|]. intros C. apply NT. exists b. auto.
    + destruct (nth_error (st_objs (bs_st (brun ks))) p) as [o|] eqn:Eo; cbn [fst]; exists b; (split; [|exact HR]); [|exact Hb]. cbn [bs_br]. rewrite nth_error_app1 by exact (some_lt _ _ _ Hb). exact Hb.
    + cbn [fst new_list]. exists b. split; [cbn [bs_br]; rewrite nth_error_app1 by exact (some_lt _ _ _ Hb); exact Hb|]. cbn [bs_st]. rewrite <- HR. exact (rows_app (bs_st (brun ks)) [] (bo_static b) (B q b Hb)).
    + destruct (nth_error (st_objs (bs_st (brun ks))) p) as [o|] eqn:Eo; cbn [fst]; [|exists b; auto]. unfold on_bridge. destruct (nth_error (bs_br (brun ks)) q') as [b'|] eqn:Eb; cbn [fst]; [|exists b; auto].
      exists b. split; [cbn [bs_br]; rewrite put_other; [exact Hb|exact (some_lt _ _ _ Eb)|congruence]|exact HR].
    + unfold on_bridge. destruct (nth_error (bs_br (brun ks)) q') as [b'|] eqn:Eb; cbn [fst]; [|exists b; auto]. destruct (Nat.eq_dec q q') as [->|N].
      * assert (b' = b) as -> by congruence. eexists. split; [cbn [bs_br]; apply put_same, (some_lt _ _ _ Eb)|exact HR].
      * exists b. split; [cbn [bs_br]; rewrite put_other; [exact Hb|exact (some_lt _ _ _ Eb)|exact N]|exact HR].
Qed.

Lemma attached_new ks p v rows : loads_are (brun ks) p rows ->
  let q := length (bs_br (brun ks)) in let s' := brun (ks ++ [NewBridge (Some p) v])%list in
  static_loads s' q rows /\ same_list s' q p /\ loads_are s' p rows.
Proof.
  intros (o & Ho & HL). cbv zeta. rewrite brun_snoc. cbn [BrSessionModel.bexec]. unfold object in Ho. rewrite Ho. cbn [fst].
  assert (N : nth_error (bs_br (brun ks) ++ [{| bo_ba := Some p; bo_veh := v; bo_static := so_lm o |}])%list (length (bs_br (brun ks))) = Some {| bo_ba := Some p; bo_veh := v; bo_static := so_lm o |})
    by (rewrite nth_error_app2 by lia; rewrite Nat.sub_diag; reflexivity).
  split; [eexists; split; [exact N|exact HL]|]. split; [do 2 eexists; split; [exact N|]; split; [reflexivity|]; split; [exact Ho|reflexivity]|]. exists o. split; [exact Ho|exact HL].
Qed.
Lemma attached_set ks p q b rows : loads_are (brun ks) p rows -> nth_error (bs_br (brun ks)) q = Some b ->
  let s' := brun (ks ++ [SetBridge q p])%list in
  static_loads s' q rows /\ same_list s' q p /\ loads_are s' p rows /\ (forall v, has_vehicle (brun ks) q v -> has_vehicle s' q v).
Proof.
  intros (o & Ho & HL) Hb. cbv zeta. rewrite brun_snoc. cbn [BrSessionModel.bexec]. unfold object in Ho. rewrite Ho. unfold on_bridge. rewrite Hb. cbn [fst].
  set (b' := {| bo_ba := Some p; bo_veh := bo_veh b; bo_static := so_lm o |}).
  assert (N : nth_error (put (bs_br (brun ks)) q b') q = Some b') by (apply put_same, (some_lt _ _ _ Hb)).
  split; [exists b'; split; [exact N|exact HL]|]. split; [exists b', o; split; [exact N|]; split; [reflexivity|]; split; [exact Ho|reflexivity]|]. split; [exists o; split; [exact Ho|exact HL]|].
  intros v (b2 & H2 & H3). assert (b2 = b) as -> by congruence. exists b'. split; [exact N|exact H3].
Qed.
Lemma joined ks k q p w rows : same_list (brun ks) q p -> static_loads (brun ks) q rows -> adds k p w ->
  let s' := brun (ks ++ [Plain k])%list in static_loads s' q (rows ++ [w])%list /\ same_list s' q p.
Proof.
  intros (b & o & Hb & Hp & Ho & HL) (b' & Hb' & HR) A. cbv zeta. assert (b' = b) as -> by congruence. rewrite brun_snoc. cbn [BrSessionModel.bexec].
  assert (E : exec gl ill (bs_st (brun ks)) k = (write_list (bs_st (brun ks)) (so_lm o) (rows_of (bs_st (brun ks)) (so_lm o) ++ [w])%list, Ok tt)).
  { unfold object in Ho. destruct A as [p h w Hh|p w]; cbn [SessionModel.exec]; unfold on_obj; rewrite Ho; [rewrite Hh|]; reflexivity. }
  rewrite E. cbn [fst]. pose proof (exec_add gl ill (bs_st (brun ks)) p o w (proj1 (bgood_run ks)) Ho) as X. cbv zeta in X. destruct (X p o Ho) as (X1 & _ & X3). split.
  - exists b. split; [exact Hb|]. cbn [bs_st]. rewrite <- HL, X3, HL, HR. reflexivity.
  - exists b, o. cbn [bs_st bs_br]. auto.
Qed.
Lemma link_kept ks k q p : same_list (brun ks) q p -> ~ replaces (brun ks) k q p -> same_list (brun (ks ++ [k])%list) q p.
Proof.
  intros (b & o & Hb & Hp & Ho & HL) NR. rewrite brun_snoc. pose proof (bgood_run ks) as GG. destruct (drive_of k) as [q'|] eqn:ED.
  - destruct (drive_of_drives k q' ED) as (ps & sp & dv & P & D). destruct (bexec (brun ks) k) as [[s' out] r] eqn:E. destruct (drive_driven _ _ _ _ _ _ _ _ _ _ GG D E) as (_ & EB & _ & CC). cbn [fst].
    destruct CC as [[-> _]|(b' & p' & o1 & o2 & Hb' & Hp' & _ & _ & O & _)]; [exists b, o; auto|].
    exists b, o. rewrite EB. split; [exact Hb|]. split; [exact Hp|]. split; [|exact HL]. apply O; [|exact Ho]. intros <-. apply NR. destruct k; try discriminate; injection ED as ->; cbn; exists b'; auto.
  - destruct GG as [G B]. destruct k as [k|[p1|] v|q' p1|q' v| | |]; try discriminate; cbn [BrSessionModel.bexec replaces] in *.
    + pose proof (exec_after gl ill (bs_st (brun ks)) k p o Ho) as X. destruct (exec gl ill (bs_st (brun ks)) k) as [st r] eqn:E. cbn [fst] in *. exists b, (after gl ill (bs_st (brun ks)) k p o).
      split; [exact Hb|]. split; [exact Hp|]. split; [exact X|]. rewrite <- HL. destruct k; cbn [after]; try reflexivity; try (destruct (Nat.eqb_spec p p0) as [->|N]; [|reflexivity]); try reflexivity. exfalso; apply NR; reflexivity.
    + destruct (nth_error (st_objs (bs_st (brun ks))) p1) as [o1|] eqn:Eo; cbn [fst]; exists b, o; cbn [bs_br bs_st]; auto. rewrite nth_error_app1 by exact (some_lt _ _ _ Hb). auto.
    + cbn [fst new_list]. exists b, o. cbn [bs_br bs_st]. rewrite nth_error_app1 by exact (some_lt _ _ _ Hb). auto.
    + destruct (nth_error (st_objs (bs_st (brun ks))) p1) as [o1|] eqn:Eo; cbn [fst]; [|exists b, o; auto]. unfold on_bridge. destruct (nth_error (bs_br (brun ks)) q') as [b'|] eqn:Eb; cbn [fst]; [|exists b, o; auto].
      exists b, o. cbn [bs_br bs_st]. rewrite put_other; [auto|exact (some_lt _ _ _ Eb)|congruence].
    + unfold on_bridge. destruct (nth_error (bs_br (brun ks)) q') as [b'|] eqn:Eb; cbn [fst]; [|exists b, o; auto]. destruct (Nat.eq_dec q q') as [->|N].
      * assert (b' = b) as -> by congruence. eexists _, o. cbn [bs_br bs_st]. split; [apply put_same, (some_lt _ _ _ Eb)|]. auto.
      * exists b, o. cbn [bs_br bs_st]. rewrite put_other; [auto|exact (some_lt _ _ _ Eb)|exact N].
Qed.
Lemma link_cut ks k q ps sp dv P p s' ds r : drives k q ps sp dv P -> works_on (brun ks) q p -> bexec (brun ks) k = (s', ds, r) -> ds <> [] ->
  (forall q', ~ same_list s' q' p) /\ loads_are s' p (fst (last ds ([], Err ValueError))) /\
  forall k2 w q' rows, adds k2 p w -> static_loads (brun ks) q' rows -> static_loads (brun (ks ++ [k; Plain k2])%list) q' rows.
Proof.
  intros D (b & Hb & Hp) E N. pose proof (bgood_run ks) as GG. destruct (drive_driven _ _ _ _ _ _ _ _ _ _ GG D E) as (G' & EB & X & CC).
  destruct CC as [[_ C]|(b' & p' & o & o' & Hb' & Hp' & Ho & Ho' & O & _ & NE)]; [contradiction|]. assert (b' = b) as -> by congruence. assert (p' = p) as -> by congruence.
  destruct (NE N) as [L1 L2].
  assert (NS : forall q' b2, nth_error (bs_br s') q' = Some b2 -> so_lm o' <> bo_static b2).
  { intros q' b2 H2. rewrite EB in H2. pose proof (proj2 GG q' b2 H2). lia. }
  split; [|split].
  - intros q' (b2 & o2 & H2 & _ & H3 & H4). assert (o2 = o') as -> by (unfold object in *; congruence). exact (NS q' b2 H2 H4).
  - exists o'. split; [exact Ho'|exact L2].
  - intros k2 w q' rows A S. replace (ks ++ [k; Plain k2])%list with ((ks ++ [k]) ++ [Plain k2])%list by (rewrite <- app_assoc; reflexivity).
    apply static_kept; [apply static_kept; [exact S|]|].
    + destruct D; cbn; auto.
    + rewrite brun_snoc, E. cbn [fst touches]. intros (b2 & H2 & H3). destruct A as [p h w Hh|p w]; cbn [edits] in H3; destruct H3 as (o2 & A1 & A2); assert (o2 = o') as -> by (unfold object in *; congruence); exact (NS q' b2 H2 A2).
Qed.
Lemma drive_static ks k q ps sp dv P q' rows : drives k q ps sp dv P -> static_loads (brun ks) q' rows -> static_loads (brun (ks ++ [k])%list) q' rows.
Proof. intros D S. apply static_kept; [exact S|]. destruct D; cbn; auto. Qed.
End B.
