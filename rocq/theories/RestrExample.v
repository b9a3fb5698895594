From Coq Require Import ZArith String.
From Verif Require Import Base BaseFacts Linalg LinalgFacts SectionModel LoadModel VehicleModel UtilsModel ElementModel ElementSpec BeamModel BeamSpec AnalysisModel AnalysisSpec ResultsModel ResultsSpec ResultsFacts BridgeModel BridgeSpec BridgeFacts EnvelopeModel RenderModel InfModel InfSpec InfFacts4 InfFacts5 NonlinModel NonlinSpec NonlinFacts8 ModalModel ModalSpec ModalFacts2 ModalFacts3 ModalFacts3 RestrSpec RestrFacts RestrFacts2.
Local Notation length := List.length.
Open Scope R_scope.

(** ** Influence lines under the change of codes *)
Definition edit_il (s : il) (rs' : list R) : il := {| il_a := edit_restraints (il_a s) rs'; il_L := il_L s; il_res := il_res s; il_pos := il_pos s |}.
Lemma il_loop_same gl ill rs rs' : same_restraints rs rs' -> forall ps a lv pos br, b_R (an_beam a) = rs ->
  il_loop gl ill (edit_restraints a rs') lv ps pos br = (let '((a1, pos1, br1), r) := il_loop gl ill a lv ps pos br in ((edit_restraints a1 rs', pos1, br1), r)).
Proof.
  intros S. induction ps as [|p t IH]; intros a lv pos br E; [reflexivity|]. cbn [il_loop].
  change (get_local_span_coords (an_beam (edit_restraints a rs')) p) with (get_local_span_coords (an_beam a) p).
  destruct (get_local_span_coords (an_beam a) p) as [[ispan x]|e]; [|reflexivity]. cbv zeta.
  set (lv' := if Z.eqb ispan (-1) then 0 else lv).
  set (lm := [Row (ispan + 1) 2 [lv'; x; 0]]).
  change (with_beam (edit_restraints a rs') (set_loads (an_beam (edit_restraints a rs')) lm)) with (edit_restraints (with_beam a (set_loads (an_beam a) lm)) rs').
  rewrite analyze_same by (cbn; rewrite E; exact S).
  destruct (analyze gl ill (with_beam a (set_loads (an_beam a) lm)) (fun _ => []) None true) as [a1 [r|e]] eqn:EA; [|reflexivity].
  apply IH. unfold analyze in EA. destruct (analyze_core _ _ _ _ _) as [a2 [o|e]] eqn:EC; [|discriminate]. assert (a2 = a1) by congruence. subst a2.
  destruct (analyze_core_state _ _ _ _ _ _ _ EC) as (EB & _). rewrite EB. exact E.
Qed.
Lemma create_same gl ill s rs' step lv : same_restraints (b_R (an_beam (il_a s))) rs' ->
  create_ils gl ill (edit_il s rs') step lv = (let (s1, r) := create_ils gl ill s step lv in (edit_il s1 rs', r)).
Proof.
  intros S. unfold create_ils. cbn [il_L edit_il il_a il_pos]. destruct (Reqb _ 0); [reflexivity|].
  rewrite (il_loop_same _ _ _ _ S) by reflexivity. destruct (il_loop _ _ _ _ _ _ _) as [[[a1 p1] b1] r]. reflexivity.
Qed.
Lemma lines_same gl ill ints s rs' poi eff : same_restraints (b_R (an_beam (il_a s))) rs' -> effect_of eff = EffV \/ effect_of eff = EffM ->
  get_il gl ill ints (edit_il s rs') poi eff = (let (s1, r) := get_il gl ill ints s poi eff in (edit_il s1 rs', r)).
Proof.
  intros S HE. unfold get_il. change (il_res (edit_il s rs')) with (il_res s) at 1.
  assert (Q : (match il_res s with [] => create_ils gl ill (edit_il s rs') None 1 | _ => (edit_il s rs', Ok tt) end)
    = (let (s1, r) := match il_res s with [] => create_ils gl ill s None 1 | _ => (s, Ok tt) end in (edit_il s1 rs', r)))
    by (destruct (il_res s); [apply create_same, S|reflexivity]).
  rewrite Q. destruct (match il_res s with [] => create_ils gl ill s None 1 | _ => (s, Ok tt) end) as [s1 c]. f_equal.
  destruct c as [u|e]; [|reflexivity]. cbn [rbind il_res il_pos edit_il].
  change (station_index (an_beam (il_a (edit_il s1 rs'))) (il_res s1) poi) with (station_index (an_beam (il_a s1)) (il_res s1) poi).
  destruct (station_index _ _ _) as [ik|e]; [|reflexivity]. cbn [rbind]. destruct HE as [-> | ->]; reflexivity.
Qed.

Lemma half_unusual : unusual (-2).
Proof. split; lra. Qed.
Definition il2 : il := edit_il il0 [-2; -1; -1; -1].
Lemma il2_init : il_init [6] (EIAll (RConst 2)) [-2; -1; -1; -1] [EtNum [1%Z]] = Ok il2.
Proof. reflexivity. Qed.
Lemma il2_same : same_restraints (b_R (an_beam (il_a il0))) [-2; -1; -1; -1].
Proof. cbn. apply Forall2_cons; [right; split; lra|]. repeat (apply Forall2_cons; [left; reflexivity|]). apply Forall2_nil. Qed.
Lemma il2_case gl ill : exists s1 pos eta, create_ils gl ill il2 (Some 1) 1 = (s1, Ok tt) /\ il_res s1 <> [] /\
  b_lengths (an_beam (il_a s1)) = [6] /\ b_R (an_beam (il_a s1)) = [-2; -1; -1; -1] /\ snd (get_il gl ill true s1 6 "R") = Ok (pos, eta).
Proof.
  destruct (il0_creates gl ill (Some 1) 1 (step_some 1 Rlt_0_1)) as (s1 & H1).
  destruct (read_completes gl ill il0 (Some 1) 1 s1 true 6 "R" il0_valid (step_some 1 Rlt_0_1) il0_plain (il0_readable _) H1) as (xs & eta & HG).
  destruct (created gl ill il0 (Some 1) 1 s1 il0_valid (step_some 1 Rlt_0_1) H1) as (V1 & new & EP & ST & K & U & NN).
  assert (NR : il_res s1 <> []) by exact (F2_nonempty _ _ _ U NN).
  assert (EB := k_beam _ _ _ _ K).
  assert (EB2 : exists lm, an_beam (il_a s1) = set_loads (an_beam (il_a il0)) lm) by (eexists; exact EB). destruct EB2 as (lm & EB2).
  exists (edit_il s1 [-2; -1; -1; -1]). unfold il2. rewrite (create_same gl ill il0 _ (Some 1) 1 il2_same), H1.
  unfold get_il in HG. destruct (il_res s1) as [|r0 l] eqn:R; [congruence|]. rewrite <- R in *.
  pose proof (f_equal snd HG) as HG2. cbn [snd rbind] in HG2.
  apply rbind_ok in HG2. destruct HG2 as (ik & Hik & HG2). change (effect_of "R") with EffR in HG2. cbn iota in HG2. rewrite EB2 in HG2.
  apply rbind_ok in HG2. destruct HG2 as (et & HG2 & _). apply rbind_ok in HG2. destruct HG2 as (k & Hk & HG2).
  assert (k = 2%nat).
  { unfold support_index in Hk. cbn -[Reqb BridgeModel.argmin Rabs where_eq cumsum_from] in Hk.
    assert (W : where_eq (-1) [-1; -1] = [0%nat; 1%nat]) by (unfold where_eq; cbn; destruct (Reqb_spec (-1) (-1)); [reflexivity|lra]).
    rewrite W in Hk. cbn [cumsum_from mapM get nth_error rbind map] in Hk.
    assert (A : BridgeModel.argmin [Rabs (0 - 6); Rabs (0 + 6 - 6)] = 1%nat).
    { unfold BridgeModel.argmin, row_min. cbn [fold_left BridgeModel.index_of]. assert (Q1 : Rabs (0 - 6) = 6) by (rewrite Rabs_left; lra). assert (Q2 : Rabs (0 + 6 - 6) = 0) by (replace (0 + 6 - 6) with 0 by ring; apply Rabs_R0).
      rewrite Q1, Q2. rewrite Rmin_right by lra. destruct (Reqb_spec 6 0); [lra|]. destruct (Reqb_spec 0 0); [reflexivity|lra]. }
    rewrite A in Hk. cbn [get nth_error rbind] in Hk.
    assert (W2 : where_eq (0 + 6) [0; 0 + 6] = [1%nat]) by (unfold where_eq; cbn [length seq filter nth]; destruct (Reqb_spec 0 (0 + 6)); [lra|]; destruct (Reqb_spec (0 + 6) (0 + 6)); [reflexivity|lra]).
    rewrite W2 in Hk. cbn [get nth_error rbind mask_from Nat.mul Nat.add] in Hk. destruct (Reqb_spec (-1) (-1)) in Hk; [|lra]. cbn in Hk. congruence. }
  subst k. apply mapM_get_nth in HG2.
  assert (T : exists et', Forall2 (fun r x => nth_error (br_R r) 1 = Some x) (il_res s1) et').
  { clear - HG2. induction HG2 as [|r x t v E F IH]; [exists []; constructor|]. destruct IH as (v' & F'). destruct (br_R r) as [|y0 [|y1 m]] eqn:EQ; try discriminate. exists (y1 :: v'). constructor; [rewrite EQ; reflexivity|exact F']. }
  destruct T as (et' & T). apply mapM_get_nth in T.
  exists (il_pos s1), et'. split; [reflexivity|]. cbn [il_res edit_il il_a]. split; [exact NR|]. split; [cbn; rewrite EB2; reflexivity|]. split; [reflexivity|].
  unfold get_il. cbn [il_res edit_il]. rewrite R. cbn [snd rbind il_pos edit_il].
  change (il_res (edit_il s1 [-2; -1; -1; -1])) with (il_res s1).
  change (station_index (an_beam (il_a (edit_il s1 [-2; -1; -1; -1]))) (il_res s1) 6) with (station_index (an_beam (il_a s1)) (il_res s1) 6). rewrite Hik. cbn [rbind].
  change (effect_of "R") with EffR. cbn iota. rewrite (wrong_support_index _ 6 (-2)) by (try lra; try exact half_unusual; try reflexivity; cbn; rewrite EB2; reflexivity).
  cbn [rbind]. rewrite T. reflexivity.
Qed.

(** ** The other cases *)
Lemma restr_case gl ill sps : same_restraints (b_R (an_beam ff)) [-2; -1; -1; -1] /\ unusual (-2) /\
  (exists a1 br, analyze gl ill (edit_restraints ff [-2; -1; -1; -1]) sps None false = (a1, Ok br)) /\
  il_init [6] (EIAll (RConst 2)) [-2; -1; -1; -1] [EtNum [1%Z]] = Ok il2 /\
  exists s1 pos eta, create_ils gl ill il2 (Some 1) 1 = (s1, Ok tt) /\ il_res s1 <> [] /\
    b_lengths (an_beam (il_a s1)) = [6] /\ b_R (an_beam (il_a s1)) = [-2; -1; -1; -1] /\ snd (get_il gl ill true s1 6 "R") = Ok (pos, eta).
Proof.
  split; [exact il2_same|]. split; [exact half_unusual|]. split; [|split; [exact il2_init|exact (il2_case gl ill)]].
  rewrite (analyze_same gl ill ff _ sps None false il2_same). destruct (ff_results gl ill sps) as (a' & br & e & -> & _). eauto.
Qed.
Lemma unusual_modes b mass nseg EIs Ls ms : vibrating b mass nseg EIs Ls ms -> Forall unusual (b_R b) ->
  forall eigh, eigh_sound eigh -> forall n_modes r, solve_modal eigh b mass n_modes nseg = Ok r -> length (mo_omega r) = Nat.min n_modes (dofs b nseg).
Proof.
  intros V U eigh He n_modes r H. destruct (modes_count b mass nseg EIs Ls ms V eigh He n_modes r H) as (E & _). rewrite E. unfold motions. rewrite (unusual_rigid b U (vb_supports _ _ _ _ _ _ V)), Nat.sub_0_r. reflexivity.
Qed.
Lemma modal_case : vibrating (with_R fixed_beam [-2; -2; -2; -2] 0) (MScalar 420) 2 [1] [2] [420] /\ Forall unusual (b_R (with_R fixed_beam [-2; -2; -2; -2] 0)) /\
  dofs (with_R fixed_beam [-2; -2; -2; -2] 0) 2 = 6%nat /\ motions fixed_beam 2 = 2%nat.
Proof.
  split; [|split; [cbn; repeat (apply Forall_cons; [exact half_unusual|]); apply Forall_nil|split; [reflexivity|apply fixed_modes]]].
  split; cbn; try lia.
  - intros i Hi. assert (i = 0%nat) as -> by lia. cbn. repeat apply conj; try reflexivity; lra.
  - intros i Hi. assert (i = 0%nat) as -> by lia. reflexivity.
Qed.
Lemma nl_case rank : exists a r, nba_init [4] (EIOne (RConst 1)) [-2; -2; -2; -2] (NScalar 1) None 0 1 = Ok a /\
  (forall x, In x [-2; -2; -2; -2] -> x <> -1) /\ nl_analyze rank a [Row 1 1 [5]] 2 1 10 = Ok r.
Proof.
  destruct (init_ok [4] (EIOne (RConst 1)) (NScalar 1) [-2; -2; -2; -2] (NScalar 1) None 0 1) as (a & H); try (cbn; lia || exact I || reflexivity); [discriminate|repeat constructor; lra|].
  assert (E : nba_init [4] (EIOne (RConst 1)) [-2; -2; -2; -2] (NScalar 1) None 0 1 = Ok a) by apply H. exists a.
  assert (EL : nb_L a = [4]).
  { clear H. unfold nba_init in E. repeat (apply rbind_ok in E; destruct E as (? & _ & E)). injection E as <-. reflexivity. }
  unfold nl_analyze, force_vector. cbn [foldM]. unfold add_row, nb_starts. rewrite EL. cbn. eexists. split; [exact E|]. split; [intros x [<-|[<-|[<-|[<-|[]]]]]; lra|reflexivity].
Qed.
