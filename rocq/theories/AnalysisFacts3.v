(** Packaged statements and sample beams for the analysis properties. *)
From Coquelicot Require Import Coquelicot.
From Verif Require Import Base BaseFacts Linalg LinalgFacts SectionModel FlexModel LoadModel LoadSpec
  ClampFacts FoundationModel ElementModel ElementSpec ElementFacts ElementFacts2 ConstSectFacts UtilsModel UtilsSpec BeamModel BeamSpec CtorFacts AnalysisModel
  AnalysisSpec LMFacts LinearFacts AnalysisFacts AnalysisFacts2 SuperFacts BalanceFacts MechFacts HistoryFacts.
Open Scope R_scope.

Section G.
Variable gl : nat -> list (R * R).
Variable ill : nat -> mat -> bool.

Lemma analyze_equilibrium a npts check a' o : analyze_core gl ill a npts check = (a', Ok o) ->
  equilibrium gl (an_beam a) (an_n a) (o_d o).
Proof. intros H. destruct (core_inv _ _ _ _ _ _ _ H) as [(kb & rf & S) _]. exact (solved_equilibrium gl _ _ _ _ _ S). Qed.

(** Reported reactions hold the nodes in equilibrium. *)
Lemma analyze_reactions a npts check a' o : analyze_core gl ill a npts check = (a', Ok o) ->
  settles_supports (an_beam a) ->
  exists ef, (forall m, (m < an_n a)%nat -> member_state gl (an_beam a) (o_d o) m (ef m)) /\
    forall i, (i < an_ndof a)%nat -> reported (an_beam a) o i = nodal_sum (an_n a) ef i.
Proof.
  intros H HS. destruct (core_inv _ _ _ _ _ _ _ H) as [(kb & rf & S) _].
  exists (mef kb rf (o_d o)). split; [apply system_state, (sv_sys _ _ _ _ _ _ S)|].
  intros i Hi. apply (reported_nodal gl); assumption.
Qed.

Lemma analyze_total a npts check a' o W : gauss_rule gl -> members (an_beam a) (an_n a) sound_member ->
  loads_on_members (an_beam a) (an_n a) -> settles_supports (an_beam a) ->
  analyze_core gl ill a npts check = (a', Ok o) -> beam_load (an_beam a) (an_n a) W ->
  rsum (an_n a + 1) (fun j => reported (an_beam a) o (2 * j)) = W.
Proof.
  intros G M HL HS H HW. destruct (core_inv _ _ _ _ _ _ _ H) as [(kb & rf & S) _].
  exact (reactions_total gl _ _ _ _ _ _ G M HL HS S HW).
Qed.
Lemma analyze_moment a npts check a' o W : gauss_rule gl ->
  members (an_beam a) (an_n a) (fun mb => sound_member mb /\ mb_type mb <> 4%nat) ->
  loads_on_members (an_beam a) (an_n a) -> settles_supports (an_beam a) ->
  analyze_core gl ill a npts check = (a', Ok o) -> beam_moment (an_beam a) (an_n a) W ->
  rsum (an_n a + 1) (fun j => node_x (an_beam a) j * reported (an_beam a) o (2 * j) + reported (an_beam a) o (2 * j + 1)) = W.
Proof.
  intros G M HL HS H HW. destruct (core_inv _ _ _ _ _ _ _ H) as [(kb & rf & S) _].
  exact (reactions_moment gl _ _ _ _ _ _ G M HL HS S HW).
Qed.

Lemma inconsistent_rejected a npts check : well_formed gl (an_beam a) (an_n a) -> inconsistent gl (an_beam a) (an_n a) ->
  snd (analyze_core gl ill a npts check) = Err ValueError.
Proof.
  intros W (rf & i & (ls & El & Hr) & Hi & C1 & C2 & C3). rewrite core_npts.
  destruct (well_formed_system _ _ _ W) as (kb & rf0 & S). destruct W as (HR & HD & _).
  destruct (an_forces_total gl _ _ ls rf El Hr) as (f & EF & Ef).
  unfold analyze_core. rewrite EF. unfold an_ndof. cbn [rbind].
  destruct (validate_spec (an_beam a) f (2 * (an_n a + 1)) HR HD) as [[_ HV]|[-> _]]; [|reflexivity].
  exfalso. apply (HV i Hi). unfold conflict. split; [exact C1|]. split; [exact C2|].
  rewrite Ef. rewrite fcl_nodal by exact Hi. exact C3.
Qed.

Lemma not_inconsistent a npts check a' o : analyze_core gl ill a npts check = (a', Ok o) -> ~ inconsistent gl (an_beam a) (an_n a).
Proof.
  intros H (rf & i & (ls & El & Hr) & Hi & C1 & C2 & C3).
  destruct (core_inv _ _ _ _ _ _ _ H) as [(kb & rf' & S) _].
  apply (sv_valid _ _ _ _ _ _ S i Hi). unfold conflict. split; [exact C1|]. split; [exact C2|].
  rewrite fcl_nodal by exact Hi. intros E. apply C3. rewrite <- E. f_equal. apply nodal_ext; [exact Hi|].
  intros m p Hm. destruct (sy_r _ _ _ _ _ (sv_sys _ _ _ _ _ _ S)) as (ls' & El' & Hr').
  destruct (Hr m Hm) as (mb & E1 & E2), (Hr' m Hm) as (mb' & E1' & E2').
  replace ls' with ls in * by congruence. replace mb' with mb in * by congruence. congruence.
Qed.

Lemma analyze_exactly a npts : gauss_rule gl -> well_formed gl (an_beam a) (an_n a) ->
  members (an_beam a) (an_n a) sound_member -> (forall y, ~ mechanism gl (an_beam a) (an_n a) y) ->
  ((exists o, snd (analyze_core gl ill a npts false) = Ok o) <-> ~ inconsistent gl (an_beam a) (an_n a)) /\
  (inconsistent gl (an_beam a) (an_n a) <-> snd (analyze_core gl ill a npts false) = Err ValueError).
Proof.
  intros G W M N. 
  assert (A : (exists o, snd (analyze_core gl ill a npts false) = Ok o) -> ~ inconsistent gl (an_beam a) (an_n a)).
  { intros (o & H). destruct (analyze_core gl ill a npts false) as [a' r] eqn:E. cbn in H. subst r. exact (not_inconsistent _ _ _ _ _ E). }
  assert (B := fun C => analyze_solves gl ill a npts G W M C N).
  split; [split; auto|]. split; [apply inconsistent_rejected; exact W|].
  intros H. destruct (Classical_Prop.classic (inconsistent gl (an_beam a) (an_n a))) as [|C]; [assumption|].
  destruct (B C) as (o & Ho). congruence.
Qed.

(** ** Member end forces *)
Lemma forces_state b d m e : member_forces gl b d m = Ok e -> member_state gl b d m e.
Proof.
  unfold member_forces. intros H. apply rbind_ok in H as (ls & H1 & H). apply rbind_ok in H as (mb & H2 & H).
  apply rbind_ok in H as (kb & H3 & H). apply rbind_ok in H as (r & H4 & H). injection H as <-.
  exists ls, mb, kb, r. repeat (split; [assumption|]). reflexivity.
Qed.

Lemma ends_cancel a npts check a' o j e1 e2 : analyze_core gl ill a npts check = (a', Ok o) ->
  (j + 1 < an_n a)%nat -> restraint (an_beam a) (2 * (j + 1) + 1) = 0 -> prescribed (an_beam a) (2 * (j + 1) + 1) = None ->
  member_forces gl (an_beam a) (o_d o) j = Ok e1 -> member_forces gl (an_beam a) (o_d o) (j + 1) = Ok e2 ->
  e1 3%nat + e2 1%nat = 0.
Proof.
  intros H Hj HR HP H1 H2. destruct (analyze_equilibrium _ _ _ _ _ H) as (ef & S & E).
  specialize (E (2 * (j + 1) + 1)%nat ltac:(lia)). rewrite HP, HR in E.
  destruct (Rlt_dec 0 0); [lra|]. unfold spring_force, nodal_sum in E. rewrite HR in E. destruct (Rlt_dec 0 0); [lra|].
  replace ((2 * (j + 1) + 1) / 2)%nat with (j + 1)%nat in E by (apply (Nat.div_unique _ 2 _ 1); lia).
  replace ((2 * (j + 1) + 1) mod 2)%nat with 1%nat in E by (apply (Nat.mod_unique _ 2 (j + 1) 1); lia).
  destruct (Nat.ltb_spec (2 * (j + 1) + 1) (2 * an_n a)); [|lia]. destruct (Nat.leb_spec 2 (2 * (j + 1) + 1)); [|lia].
  replace (j + 1 - 1)%nat with j in E by lia. cbn in E.
  destruct (S j ltac:(lia)) as (ls & mb & kb & r & A1 & A2 & A3 & A4 & A5).
  destruct (S (j + 1)%nat ltac:(lia)) as (ls' & mb' & kb' & r' & B1 & B2 & B3 & B4 & B5).
  destruct (forces_state _ _ _ _ H1) as (cs & cm & ck & cr & C1 & C2 & C3 & C4 & C5).
  destruct (forces_state _ _ _ _ H2) as (cs' & cm' & ck' & cr' & D1 & D2 & D3 & D4 & D5).
  replace cs with ls in * by congruence. replace cs' with ls in * by congruence. replace ls' with ls in * by congruence.
  replace cm with mb in * by congruence. replace cm' with mb' in * by congruence.
  replace ck with kb in * by congruence. replace ck' with kb' in * by congruence.
  replace cr with r in * by congruence. replace cr' with r' in * by congruence.
  rewrite C5, D5, <- A5, <- B5. lra.
Qed.

Lemma released_end_zero a npts check a' o m mb e p : gauss_rule gl -> analyze_core gl ill a npts check = (a', Ok o) ->
  (m < an_n a)%nat -> member_at (an_beam a) m = Ok mb -> sound_member mb -> loads_on_members (an_beam a) (an_n a) ->
  member_forces gl (an_beam a) (o_d o) m = Ok e -> released (mb_type mb) p -> e p = 0.
Proof.
  intros G H Hm Em Sm HL He Hp.
  destruct (state_balance gl (an_beam a) (o_d o) m e mb G Em Sm (member_length _ _ _ Em)
    (fun ls El => HL ls m El Hm) (forces_state _ _ _ _ He)) as (_ & _ & Z). auto.
Qed.

Lemma member_in_balance a npts check a' o m mb e ls : gauss_rule gl -> analyze_core gl ill a npts check = (a', Ok o) ->
  (m < an_n a)%nat -> member_at (an_beam a) m = Ok mb -> sound_member mb -> loads_on_members (an_beam a) (an_n a) ->
  member_forces gl (an_beam a) (o_d o) m = Ok e -> parsed_loads (an_beam a) = Ok ls ->
  (forall W, span_resultant (mb_L mb) (loads_of ls m) (fun _ => 1) (fun _ => 0) W -> e 0%nat + e 2%nat = W) /\
  (mb_type mb <> 4%nat -> forall W, span_resultant (mb_L mb) (loads_of ls m) (fun x => x) (fun _ => 1) W ->
     e 1%nat + e 3%nat + mb_L mb * e 2%nat = W).
Proof.
  intros G H Hm Em Sm HL He El. assert (EL := member_length _ _ _ Em).
  destruct (state_balance gl (an_beam a) (o_d o) m e mb G Em Sm EL
    (fun ls El => HL ls m El Hm) (forces_state _ _ _ _ He)) as (A & B & _).
  rewrite EL. split; [intros W; apply A; exact El|]. intros Ht W HW.
  assert (HW' : span_resultant (span_length (an_beam a) m) (loads_of ls m) (fun x => 0 + x) (fun _ => 1) W).
  { destruct HW as (ws & F & E). exists ws. split; [|exact E]. clear -F. induction F as [|ld w lds ws R _ IH]; constructor; [|exact IH].
    revert R. apply resultant_ext; intros; ring. }
  specialize (B Ht ls 0 W El HW'). lra.
Qed.
End G.

(** ** A two-span beam: encastre, roller, spring *)
Definition sample_ctor : ctor :=
  {| ct_L := [4; 6]; ct_EI := EIAll (RConst 2); ct_R := Some [-1; -1; -1; 0; 3; 0]; ct_LM := None;
     ct_types := [EtNum [1%Z]; EtNum [1%Z]]; ct_D := None; ct_sup := None; ct_GAv := GNone; ct_kf := KNone |}.
Definition sample_beam : beam :=
  {| b_lengths := [4; 6]; b_EIs := [RConst 2; RConst 2]; b_GAv := [None; None]; b_kf := [None; None];
     b_types := [1%nat; 1%nat]; b_nspans := 2; b_length := 0 + 4 + 6; b_terminal := [0; 0 + 4; 0 + 4 + 6];
     b_R := [-1; -1; -1; 0; 3; 0]; b_D := [None; None; None; None; None; None]; b_LM := []; b_version := 2 |}.
Definition sample : analysis :=
  {| an_beam := sample_beam; an_n := 2; an_npts := 100; an_checked := None; an_out := None |}.
Lemma sample_init : analysis_init sample_ctor = Ok sample.
Proof. reflexivity. Qed.

(** UDL on span 1, point load on span 2. *)
Definition sample_A : list row := [Row 1 1 [10]].
Definition sample_B : list row := [Row 2 2 [5; 2]].
Definition sample_gl : nat -> list (R * R) := fun _ => gauss2.

Lemma sample_sound n lm : (n <= 2)%nat -> members (set_loads sample_beam lm) n
  (fun mb => (sound_member mb /\ mb_type mb = 1%nat) /\ scalar_member mb).
Proof.
  intros Hn m mb Hm E. assert (m = 0 \/ m = 1)%nat as [-> | ->] by lia; cbv in E; injection E as <-; (split; [split; [|reflexivity]|]).
  1,3: constructor; cbn; try lra; try lia; try reflexivity; try discriminate; exact Rlt_0_2 || (intros; discriminate).
  all: split; [eexists; reflexivity|left; reflexivity].
Qed.

Lemma sample_stable lm y : ~ mechanism sample_gl (set_loads sample_beam lm) 2 y.
Proof.
  apply continuous_stable.
  - exact gauss2_rule.
  - intros m mb Hm E. exact (proj1 (sample_sound 2 lm (le_n 2) m mb Hm E)).
  - intros m Hm. assert (m = 0 \/ m = 1)%nat as [-> | ->] by lia; do 2 eexists; split; reflexivity.
  - exists 0%nat, 1%nat. split; [lia|]. split; [lia|]. split; [left; right; cbn; lra|].
    right. split; [lia|]. left. right. cbn. lra.
Qed.

Lemma sample_consistent lm : ~ inconsistent sample_gl (set_loads sample_beam lm) 2.
Proof.
  intros (rf & i & _ & Hi & _ & C & _). apply C.
  assert (i = 0 \/ i = 1 \/ i = 2 \/ i = 3 \/ i = 4 \/ i = 5)%nat as [->|[->|[->|[->|[->| ->]]]]] by lia; reflexivity.
Qed.

Lemma sample_runs ill lm : well_formed sample_gl (set_loads sample_beam lm) 2 ->
  exists o, run sample_gl ill sample lm false = Ok o.
Proof.
  intros W. apply (analyze_solves sample_gl ill (with_beam sample (set_loads sample_beam lm)) None gauss2_rule W).
  - intros m mb Hm E. exact (proj1 (proj1 (sample_sound 2 lm (le_n 2) m mb Hm E))).
  - apply sample_consistent.
  - apply sample_stable.
Qed.
Ltac sample_wf := split; [cbn; lia|]; split; [cbn; lia|]; eexists; split; [reflexivity|];
  let m := fresh in intros m ?; assert (m = 0 \/ m = 1)%nat as [-> | ->] by lia; do 3 eexists; repeat (split; [reflexivity|]); reflexivity.
Lemma sample_A_wf : well_formed sample_gl (set_loads sample_beam sample_A) 2.
Proof. sample_wf. Qed.
Lemma sample_B_wf : well_formed sample_gl (set_loads sample_beam sample_B) 2.
Proof. sample_wf. Qed.
Lemma sample_node_wf P j : (j < 2)%nat -> well_formed sample_gl (set_loads sample_beam (node_force P j)) 2.
Proof. intros Hj. assert (j = 0 \/ j = 1)%nat as [-> | ->] by lia; sample_wf. Qed.
Lemma sample_A_on : loads_on_members (set_loads sample_beam sample_A) 2.
Proof.
  intros ls m E Hm. injection E as <-. assert (m = 0 \/ m = 1)%nat as [-> | ->] by lia; cbn; [constructor; [|constructor]|constructor].
  cbn. auto.
Qed.
Lemma sample_A_load : beam_load (set_loads sample_beam sample_A) 2 40.
Proof.
  exists [(0%Z, LUDL 10)], (fun m => match m with O => 40 | _ => 0 end). split; [reflexivity|]. split.
  - intros m Hm. assert (m = 0 \/ m = 1)%nat as [-> | ->] by lia.
    + exists [40]. split; [constructor; [|constructor]|cbn; ring].
      exists 40. split; [|cbn; ring]. cbn. evar_last; [apply is_RInt_const|].
      unfold scal; cbn; unfold mult; cbn. ring.
    + exists []. split; [constructor|reflexivity].
  - cbn. ring.
Qed.
Lemma sample_settles lm : settles_supports (set_loads sample_beam lm).
Proof.
  intros i H. exfalso. apply H. unfold prescribed. cbn. destruct i as [|[|[|[|[|[|i]]]]]]; try reflexivity. destruct i; reflexivity.
Qed.
Lemma sample_unsettled : no_settlement sample_beam.
Proof.
  intros i. left. unfold prescribed. cbn. destruct i as [|[|[|[|[|[|i]]]]]]; try reflexivity. destruct i; reflexivity.
Qed.

(** A mechanism: one span on a single pin. *)
Definition loose_beam : beam :=
  {| b_lengths := [4]; b_EIs := [RConst 2]; b_GAv := [None]; b_kf := [None];
     b_types := [1%nat]; b_nspans := 1; b_length := 0 + 4; b_terminal := [0; 0 + 4];
     b_R := [-1; 0; 0; 0]; b_D := [None; None; None; None]; b_LM := []; b_version := 1 |}.
Definition loose : analysis :=
  {| an_beam := loose_beam; an_n := 1; an_npts := 100; an_checked := None; an_out := None |}.
Lemma loose_init : analysis_init
  {| ct_L := [4]; ct_EI := EIAll (RConst 2); ct_R := Some [-1; 0; 0; 0]; ct_LM := None;
     ct_types := [EtNum [1%Z]]; ct_D := None; ct_sup := None; ct_GAv := GNone; ct_kf := KNone |} = Ok loose.
Proof. reflexivity. Qed.
Lemma loose_mechanism gl : well_formed gl loose_beam 1 /\
  mechanism gl loose_beam 1 (fun i => match i with 1%nat => 1 | 2%nat => 4 | 3%nat => 1 | _ => 0 end).
Proof.
  split.
  - split; [cbn; lia|]. split; [cbn; lia|]. eexists; split; [reflexivity|]. intros m Hm.
    replace m with 0%nat by lia. do 3 eexists. repeat (split; [reflexivity|]). reflexivity.
  - split; [exists 1%nat; split; [lia|lra]|]. split.
    + intros i Hi [[H|H]|H].
      * exfalso. apply H. unfold prescribed. cbn. destruct i as [|[|[|[|i]]]]; try reflexivity. destruct i; reflexivity.
      * unfold restraint in H. cbn in H. destruct i as [|[|[|[|i]]]]; cbn in H; lra || lia.
      * unfold restraint in H. cbn in H. destruct i as [|[|[|[|i]]]]; cbn in H; lra || lia.
    + intros m mb kb p Hm E Ek Hp. replace m with 0%nat in * by lia. cbv in E. injection E as <-.
      cbn in Ek. injection Ek as <-. unfold end_forces, mulmv, ends.
      destruct p as [|[|[|[|p]]]]; try lia; cbn; field.
Qed.

(** A pin-pin member between two encastre supports. *)
Definition pp_beam : beam :=
  {| b_lengths := [3]; b_EIs := [RConst 2]; b_GAv := [None]; b_kf := [None];
     b_types := [4%nat]; b_nspans := 1; b_length := 0 + 3; b_terminal := [0; 0 + 3];
     b_R := [-1; -1; -1; -1]; b_D := [None; None; None; None]; b_LM := [Row 1 2 [27; 1]]; b_version := 1 |}.
Definition pp : analysis :=
  {| an_beam := pp_beam; an_n := 1; an_npts := 100; an_checked := None; an_out := None |}.
Lemma pp_moment : exists c a o W, 
  analysis_init c = Ok a /\ members (an_beam a) (an_n a) sound_member /\
  loads_on_members (an_beam a) (an_n a) /\ settles_supports (an_beam a) /\
  snd (analyze_core sample_gl (fun _ _ => false) a None true) = Ok o /\
  beam_moment (an_beam a) (an_n a) W /\
  rsum (an_n a + 1) (fun j => node_x (an_beam a) j * reported (an_beam a) o (2 * j) + reported (an_beam a) o (2 * j + 1)) <> W.
Proof.
  exists {| ct_L := [3]; ct_EI := EIAll (RConst 2); ct_R := Some [-1; -1; -1; -1]; ct_LM := Some [Row 1 2 [27; 1]];
     ct_types := [EtNum [4%Z]]; ct_D := None; ct_sup := None; ct_GAv := GNone; ct_kf := KNone |}, pp.
  assert (HM : members pp_beam 1 sound_member).
  { intros m mb Hm E. replace m with 0%nat in E by lia. cbv in E. injection E as <-.
    constructor; cbn; try lra; try lia; try reflexivity; try discriminate; exact Rlt_0_2 || (intros; discriminate). }
  assert (EP : forall i, prescribed pp_beam i = None).
  { intros i. unfold prescribed. cbn. destruct i as [|[|[|[|i]]]]; try reflexivity. destruct i; reflexivity. }
  assert (ER : forall i, (i < 4)%nat -> restraint pp_beam i = -1).
  { intros i Hi. unfold restraint. cbn. destruct i as [|[|[|[|i]]]]; try reflexivity. lia. }
  assert (W : well_formed sample_gl pp_beam 1).
  { split; [cbn; lia|]. split; [cbn; lia|]. eexists; split; [reflexivity|]. intros m Hm.
    replace m with 0%nat by lia. do 3 eexists. repeat (split; [reflexivity|]). reflexivity. }
  destruct (well_formed_system _ _ _ W) as (kb & rf & S).
  destruct (core_total sample_gl (fun _ _ => false) pp true kb rf S) as (o & Ho).
  - cbn. lia.
  - cbn. lia.
  - intros i Hi (C & _). rewrite ER in C by (cbn in Hi; lia). lra.
  - intros y Hy i Hi. specialize (Hy i Hi). unfold bcv in Hy. cbn [an_beam pp] in Hy. rewrite EP, ER in Hy by (cbn in Hi; lia).
    destruct (Rlt_dec (-1) 0); [exact Hy|lra].
  - right. destruct (an_assemble_total sample_gl pp_beam 1 kb (sy_k _ _ _ _ _ S)) as (k & EA & _); [cbn; lia|].
    exists k. split; [exact EA|]. unfold check_stability.
    assert (EF : free_dofs (b_R pp_beam) (b_D pp_beam) (seq 0 (2 * (an_n pp + 1))) = Ok []).
    { cbn. unfold Rltb. destruct (Rlt_dec (-1) 0); [|lra]. reflexivity. }
    change (an_beam pp) with pp_beam. rewrite EF. reflexivity.
  - exists o, 27. split; [reflexivity|]. split; [exact HM|]. split; [|split; [|split; [exact Ho|split]]].
    + intros ls m E Hm. replace m with 0%nat by (cbn in Hm; lia). cbv in E. injection E as <-. cbn. constructor; [cbn; lra|constructor].
    + intros i H. exfalso. apply H. apply EP.
    + exists [(0%Z, LPL 27 1)], (fun _ => 27). split; [reflexivity|]. split.
      * intros m Hm. replace m with 0%nat by (cbn in Hm; lia). exists [27]. split; [constructor; [|constructor]|cbn; ring].
        exists 0. split; [|cbn; ring]. cbn. apply (is_RInt_ext (fun _ => 0)); [intros; symmetry; apply Rmult_0_r|].
        evar_last; [apply is_RInt_const|]. unfold scal; cbn; unfold mult; cbn. ring.
      * cbn. ring.
    + destruct (analyze_core sample_gl (fun _ _ => false) pp None true) as [a' r] eqn:E. cbn in Ho. subst r.
      destruct (core_inv _ _ _ _ _ _ _ E) as [(kb' & rf' & S') _]. cbn [an_beam an_n pp] in *.
      assert (RF : forall i, (i < 4)%nat -> reported pp_beam o i = rf' 0%nat i).
      { intros i Hi. rewrite (reported_eq sample_gl _ _ _ _ _ i S') by (cbn; lia).
        rewrite ER by lia. destruct (Rlt_dec (-1) 0); [|lra].
        assert (Z : forall j, (j < 4)%nat -> o_d o j = 0).
        { intros j Hj. assert (X := sv_eq _ _ _ _ _ _ S' j ltac:(cbn; lia)). unfold bcv in X. rewrite EP, ER in X by lia.
          destruct (Rlt_dec (-1) 0); [exact X|lra]. }
        assert (M0 : mulmv (2 * (1 + 1)) (Kcl kb' pp_beam 1) (o_d o) i = 0).
        { unfold mulmv. apply rsum_0. intros j Hj. rewrite Z by (cbn in Hj; lia). apply Rmult_0_r. }
        rewrite M0.
        unfold fcl. cbn [rsum]. unfold scat. destruct i as [|[|[|[|i]]]]; try lia; cbn; lra. }
      destruct (sy_r _ _ _ _ _ (sv_sys _ _ _ _ _ _ S')) as (ls & El & Hr). injection El as <-.
      destruct (Hr 0%nat ltac:(lia)) as (mb & E1 & E2). cbv in E1. injection E1 as <-.
      cbn [rsum Nat.add Nat.mul]. rewrite !RF by lia.
      unfold span_ref in E2. cbn [mb_kf loads_of filter fst Z.of_nat Z.eqb map snd foldM ref_one mb_GAv mb_EI rbind] in E2.
      cbn in E2. injection E2 as <-. unfold node_x, span_length. cbn. unfold Rmax. match goal with |- context [Rle_dec ?u 0] => destruct (Rle_dec u 0) end; [lra|]. intros E0. field_simplify in E0. lra.
Qed.

(** An edit in place of the restraint list leaves a stale check: cantilever whose rotational
    fixity becomes a spring. *)
Definition cant_beam : beam :=
  {| b_lengths := [4]; b_EIs := [RConst 2]; b_GAv := [None]; b_kf := [None];
     b_types := [1%nat]; b_nspans := 1; b_length := 0 + 4; b_terminal := [0; 0 + 4];
     b_R := [-1; -1; 0; 0]; b_D := [None; None; None; None]; b_LM := []; b_version := 1 |}.
Lemma stale_after_edit : exists ill c a r o,
  analysis_init c = Ok a /\
  snd (is_stable sample_gl ill a) = Ok true /\
  snd (is_stable sample_gl ill (edit_restraints (fst (is_stable sample_gl ill a)) r)) = Ok false /\
  snd (analyze_core sample_gl ill (edit_restraints (fst (is_stable sample_gl ill a)) r) None true) = Ok o.
Proof.
  exists (fun n _ => Nat.eqb n 3),
    {| ct_L := [4]; ct_EI := EIAll (RConst 2); ct_R := Some [-1; -1; 0; 0]; ct_LM := None;
       ct_types := [EtNum [1%Z]]; ct_D := None; ct_sup := None; ct_GAv := GNone; ct_kf := KNone |},
    {| an_beam := cant_beam; an_n := 1; an_npts := 100; an_checked := None; an_out := None |}, [-1; 1; 0; 0].
  set (ill := fun n (_ : mat) => Nat.eqb n 3).
  set (a := {| an_beam := cant_beam; an_n := 1; an_npts := 100; an_checked := None; an_out := None |}).
  assert (EA : forall r v, length r = 4%nat -> exists k, an_assemble sample_gl (with_R cant_beam r v) 1 = Ok k).
  { intros r v Hr. destruct (an_assemble_total sample_gl (with_R cant_beam r v) 1
      (fun _ => match span_k sample_gl {| mb_L := 4; mb_EI := RConst 2; mb_GAv := None; mb_kf := None; mb_type := 1 |} with Ok k => k | Err _ => fun _ _ => 0 end)) as (k & E & _).
    - intros m Hm. replace m with 0%nat by lia. eexists. split; reflexivity.
    - cbn. lia.
    - eauto. }
  assert (S1 : is_stable sample_gl ill a = (with_checked a (Some 1%nat), Ok true)).
  { unfold is_stable. destruct (EA [-1; -1; 0; 0] 1%nat eq_refl) as (k & E).
    change (with_R cant_beam [-1; -1; 0; 0] 1) with cant_beam in E. change (an_beam a) with cant_beam. change (an_n a) with 1%nat.
    rewrite E. cbn [rbind]. unfold check_stability.
    assert (F : free_dofs (b_R cant_beam) (b_D cant_beam) (seq 0 (an_ndof a)) = Ok [2%nat; 3%nat]).
    { cbn. unfold Rltb. destruct (Rlt_dec (-1) 0); [|lra]. destruct (Rlt_dec 0 0); [lra|]. reflexivity. }
    rewrite F. reflexivity. }
  rewrite S1. cbn [fst snd]. set (b2 := with_R cant_beam [-1; 1; 0; 0] 1).
  set (a2 := edit_restraints (with_checked a (Some 1%nat)) [-1; 1; 0; 0]).
  assert (E2 : snd (is_stable sample_gl ill a2) = Ok false).
  { unfold is_stable. destruct (EA [-1; 1; 0; 0] 1%nat eq_refl) as (k & E). change (an_beam a2) with b2. change (an_n a2) with 1%nat.
    fold b2 in E. rewrite E. cbn [rbind]. unfold check_stability.
    assert (F : free_dofs (b_R b2) (b_D b2) (seq 0 (an_ndof a2)) = Ok [1%nat; 2%nat; 3%nat]).
    { cbn. unfold Rltb. destruct (Rlt_dec (-1) 0); [|lra]. destruct (Rlt_dec 0 0); [lra|]. destruct (Rlt_dec 1 0); [lra|]. reflexivity. }
    rewrite F. reflexivity. }
  assert (E3 : exists o, snd (analyze_core sample_gl ill a2 None false) = Ok o).
  { apply analyze_solves.
    - exact gauss2_rule.
    - split; [cbn; lia|]. split; [cbn; lia|]. eexists; split; [reflexivity|]. intros m Hm.
      replace m with 0%nat by (cbn in Hm; lia). do 3 eexists. repeat (split; [reflexivity|]). reflexivity.
    - intros m mb Hm E. replace m with 0%nat in E by (cbn in Hm; lia). cbv in E. injection E as <-.
      constructor; cbn; try lra; try lia; try reflexivity; try discriminate; exact Rlt_0_2 || (intros; discriminate).
    - intros (rf & i & _ & Hi & _ & C & _). apply C. unfold prescribed. cbn. destruct i as [|[|[|[|i]]]]; try reflexivity. destruct i; reflexivity.
    - apply continuous_stable.
      + exact gauss2_rule.
      + intros m mb Hm E. replace m with 0%nat in E by (cbn in Hm; lia). cbv in E. injection E as <-. split; [|reflexivity].
        constructor; cbn; try lra; try lia; try reflexivity; try discriminate; exact Rlt_0_2 || (intros; discriminate).
      + intros m Hm. replace m with 0%nat by (cbn in Hm; lia). do 2 eexists; split; reflexivity.
      + exists 0%nat, 0%nat. split; [cbn; lia|]. split; [cbn; lia|]. split; [left; right; cbn; lra|]. left. right. cbn. lra. }
  destruct E3 as (o & E3). exists o. split; [reflexivity|]. split; [reflexivity|]. split; [exact E2|].
  rewrite <- E3. apply core_skip. reflexivity.
Qed.

(** A short list of member types silently drops spans. *)
Lemma short_types_drop : exists c b, length (ct_L c) = 2%nat /\ length (ct_types c) = 1%nat /\
  beam_init c = Ok b /\ b_nspans b = 1%nat.
Proof.
  exists {| ct_L := [4; 6]; ct_EI := EIAll (RConst 2); ct_R := Some [-1; -1; -1; 0; 3; 0]; ct_LM := None;
     ct_types := [EtNum [1%Z]]; ct_D := None; ct_sup := None; ct_GAv := GNone; ct_kf := KNone |}.
  eexists. split; [reflexivity|]. split; [reflexivity|]. split; reflexivity.
Qed.

Lemma ctor_exact c : (length (ct_L c) <= length (ct_types c))%nat ->
  ((exists b, beam_init c = Ok b) <-> exists r ts, valid_args c r ts) /\
  (forall e, beam_init c = Err e -> e = ValueError) /\
  (forall b, beam_init c = Ok b -> exists r ts, valid_args c r ts /\
      b_lengths b = ct_L c /\ b_EIs b = ei_list c /\ b_GAv b = gav_list c /\ b_kf b = kf_list c /\ b_types b = ts /\
      b_R b = r /\ b_D b = match ct_D c with Some d => d | None => repeat None (length r) end /\
      b_LM b = match ct_LM c with Some l => l | None => [] end).
Proof.
  intros H. assert (S := ctor_spec c H). destruct (beam_init c) as [b|e].
  - split; [split; [|eauto]|split; [discriminate|]].
    + intros _. destruct S as (r & ts & V & _). eauto.
    + intros b' E. injection E as <-. destruct S as (r & ts & V & A1 & A2 & A3 & A4 & A5 & A6 & A7 & A8 & _). exists r, ts. tauto.
  - destruct S as [-> N]. split; [split; [intros (b & E); discriminate|intros (r & ts & V); exfalso; exact (N r ts V)]|].
    split; [congruence|discriminate].
Qed.

Lemma lookup_built c b pos : beam_init c = Ok b -> (1 <= b_nspans b)%nat ->
  (forall m, (m < b_nspans b)%nat -> 0 < nth m (b_lengths b) 0) ->
  (0 <= pos <= node_at b (b_nspans b) ->
     exists i x, get_local_span_coords b pos = Ok (Z.of_nat i, x) /\ (i < b_nspans b)%nat /\
       pos = node_at b i + x /\ 0 <= x /\
       (x < nth i (b_lengths b) 0 \/ x = nth i (b_lengths b) 0 /\ i = (b_nspans b - 1)%nat)) /\
  (pos < 0 \/ node_at b (b_nspans b) < pos -> get_local_span_coords b pos = Ok ((-1)%Z, 0)).
Proof. intros H. apply lookup_spec. exact (ctor_laid c b H). Qed.

Lemma sample_settled_runs ill : exists o,
  run_settled sample_gl ill sample sample_A [Some (1/100); None; Some (-2); None; None; None] false = Ok o.
Proof.
  unfold run_settled, set_prescribed.
  change (negb (Nat.eqb (length [Some (1/100); None; Some (-2); None; None; None]) (length (b_R (set_loads (an_beam sample) sample_A))))) with false.
  cbv iota. set (b := with_D _ _ _).
  apply (analyze_solves sample_gl ill (with_beam sample b) None gauss2_rule).
  - cbn [with_beam an_beam an_n sample]. sample_wf.
  - intros m mb Hm E. exact (proj1 (proj1 (sample_sound 2 sample_A (le_n 2) m mb Hm E))).
  - intros (rf & i & _ & Hi & C1 & C & _). cbn in Hi. apply C. unfold restraint in C1. cbn in C1. unfold prescribed. cbn.
    destruct i as [|[|[|[|[|[|i]]]]]]; cbn in *; try lra; try lia; reflexivity.
  - apply continuous_stable.
    + exact gauss2_rule.
    + intros m mb Hm E. exact (proj1 (sample_sound 2 sample_A (le_n 2) m mb Hm E)).
    + intros m Hm. cbn in Hm. assert (m = 0 \/ m = 1)%nat as [-> | ->] by lia; do 2 eexists; split; reflexivity.
    + exists 0%nat, 1%nat. split; [cbn; lia|]. split; [cbn; lia|]. split; [left; right; cbn; lra|].
      right. split; [lia|]. left. right. cbn. lra.
Qed.

Lemma loads_never_recheck gl ill a0 ops ill' npts :
  (snd (is_stable gl ill a0) = Ok true -> Forall load_only ops ->
   let a := history gl ill (fst (is_stable gl ill a0)) ops in
   snd (analyze_core gl ill' a npts true) = snd (analyze_core gl ill' a npts false)) /\
  (forall np o, snd (analyze_core gl ill a0 np true) = Ok o -> Forall load_only ops ->
   let a := history gl ill (fst (analyze_core gl ill a0 np true)) ops in
   snd (analyze_core gl ill' a npts true) = snd (analyze_core gl ill' a npts false)).
Proof.
  split.
  - intros H HO. apply no_recheck; [|exact HO]. apply stable_after. exact H.
  - intros np o H HO. apply no_recheck; [|exact HO]. exact (checked_after gl ill a0 np o H).
Qed.

Lemma unchecked_same gl ill a a2 : an_beam a = an_beam a2 -> an_n a = an_n a2 ->
  snd (analyze_core gl ill a None false) = snd (analyze_core gl ill a2 None false).
Proof.
  intros E1 E2. unfold analyze_core, an_ndof. rewrite E1, E2. cbv zeta.
  match goal with |- snd (match ?X with Ok _ => _ | Err _ => _ end) = _ => destruct X as [[f k]|]; reflexivity end.
Qed.
Lemma sample_history : exists o, analysis_init sample_ctor = Ok sample /\
  snd (analyze_core sample_gl (fun _ _ => false)
    (history sample_gl (fun _ _ => false) sample [OIsStable; OSetLoads sample_A; OAnalyze None true]) None true) = Ok o.
Proof.
  set (ill := fun (_ : nat) (_ : mat) => false). destruct (sample_runs ill _ sample_A_wf) as (o & Ho). exists o.
  split; [exact sample_init|]. set (ops := [OIsStable; OSetLoads sample_A; OAnalyze None true]).
  assert (S1 : snd (is_stable sample_gl ill sample) = Ok true).
  { unfold is_stable. destruct (an_assemble_total sample_gl sample_beam 2
      (fun m => match member_at sample_beam m with Ok mb => match span_k sample_gl mb with Ok k => k | Err _ => fun _ _ => 0 end | Err _ => fun _ _ => 0 end)) as (k & E & _).
    - intros m Hm. assert (m = 0 \/ m = 1)%nat as [-> | ->] by lia; eexists; split; reflexivity.
    - cbn. lia.
    - change (an_beam sample) with sample_beam. change (an_n sample) with 2%nat. rewrite E. cbn [rbind]. unfold check_stability.
      assert (F : free_dofs (b_R sample_beam) (b_D sample_beam) (seq 0 (an_ndof sample)) = Ok [3%nat; 4%nat; 5%nat]).
      { cbn. unfold Rltb. destruct (Rlt_dec (-1) 0); [|lra]. destruct (Rlt_dec 0 0); [lra|]. destruct (Rlt_dec 3 0); [lra|]. reflexivity. }
      rewrite F. reflexivity. }
  assert (N := proj1 (loads_never_recheck sample_gl ill sample [OSetLoads sample_A; OAnalyze None true] ill None) S1).
  unfold ops. change (history sample_gl ill sample (OIsStable :: ?l)) with (history sample_gl ill (fst (is_stable sample_gl ill sample)) l).
  cbv zeta in N. rewrite N by (repeat constructor).
  cbn [history fold_left step]. 
  destruct (is_stable_fst sample_gl ill sample) as [E|[E _]]; rewrite E;
  match goal with |- context [analyze_core sample_gl ill ?x None true] => destruct (analyze_fst sample_gl ill x None true) as (p & [E2|[E2 _]]); rewrite E2 end;
  (etransitivity; [|exact Ho]; apply unchecked_same; reflexivity).
Qed.

(** A spring, a settlement and a load at the same DOF. *)
Definition conflicting : analysis :=
  with_beam sample (with_D (set_loads sample_beam sample_B) [None; None; None; None; Some 1; None] 3).
Lemma conflicting_inconsistent : well_formed sample_gl (an_beam conflicting) (an_n conflicting) /\
  inconsistent sample_gl (an_beam conflicting) (an_n conflicting).
Proof.
  assert (W : well_formed sample_gl (an_beam conflicting) 2) by (cbn [conflicting with_beam an_beam]; sample_wf).
  split; [exact W|].
  destruct (well_formed_system _ _ _ W) as (kb & rf & S). exists rf, 4%nat.
  split; [exact (sy_r _ _ _ _ _ S)|]. split; [cbn; lia|]. split; [cbn; lra|]. split; [cbn; discriminate|].
  destruct (sy_r _ _ _ _ _ S) as (ls & El & Hr). injection El as <-.
  destruct (Hr 1%nat ltac:(cbn; lia)) as (mb & E1 & E2). cbv in E1. injection E1 as <-.
  unfold nodal_sum. cbn [Nat.ltb Nat.leb Nat.mul Nat.add an_n conflicting with_beam sample Nat.div Nat.modulo Nat.divmod fst snd Nat.sub].
  cbn in E2. injection E2 as E2. rewrite <- E2. cbn. unfold Rmax.
  match goal with |- context [Rle_dec ?u 0] => destruct (Rle_dec u 0) end; [lra|]. intros E0. field_simplify in E0. lra.
Qed.

From Coq Require Import Ascii String.
Lemma support_examples : denotes (SupName "  Pinned "%string) (-1, 0) /\ (forall p, ~ denotes (SupName "hinge"%string) p).
Proof.
  split.
  - apply (den_name _ "pinned"%string); [cbn; tauto|]. exists "  "%string, "Pinned"%string, " "%string.
    split; [reflexivity|]. cbn. unfold blank_char, capital. cbn. repeat split; try tauto; try (left; reflexivity).
    right. left. repeat split; lia.
  - intros [x y] H. assert (E : support_pair (SupName "hinge"%string) = Ok [x; y]) by (apply UtilsFacts.support_pair_iff; eauto).
    discriminate.
Qed.
Lemma string_examples : written ("E"%char, [("20"%string, "h"%char); ("30"%string, "R"%char); ("10"%string, "F"%char)]) /\
  legal ("E"%char, [("20"%string, "h"%char); ("30"%string, "R"%char); ("10"%string, "F"%char)]) /\
  render ("E"%char, [("20"%string, "h"%char); ("30"%string, "R"%char); ("10"%string, "F"%char)]) = "E20h30R10F"%string /\
  ~ legal ("H"%char, [("20"%string, "p"%char)]).
Proof.
  split; [|split; [|split; [reflexivity|]]].
  - split.
    + unfold term_letter. repeat constructor; cbn; tauto.
    + unfold plain, term_letter. repeat constructor; cbn; intros H; repeat (destruct H as [H|H]; [discriminate|]); exact H.
  - unfold legal, hinge, free_or_encastre. cbn. split; [discriminate|].
    split; [intros [H|H]; discriminate|]. split; [intros [H|H]; discriminate|].
    repeat constructor; intros H; repeat (destruct H as [H|H]; [discriminate|]); exact H.
  - unfold legal, hinge. cbn. intros (_ & H & _). apply H. auto.
Qed.
