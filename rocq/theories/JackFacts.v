(** Facts about [jacked] degrees of freedom. *)
From Coq Require Import Lia.
From Coquelicot Require Import Coquelicot.
From Verif Require Import Base BaseFacts Linalg SectionModel FlexModel LoadModel LoadSpec LMFacts FoundationModel ElementModel ElementSpec UtilsModel BeamModel BeamSpec AnalysisModel AnalysisSpec
  ConstSectFacts AnalysisFacts AnalysisFacts2 SuperFacts BalanceFacts MechFacts HistoryFacts AnalysisFacts3 JackSpec.
Open Scope R_scope.
Local Notation length := List.length.
Local Open Scope list_scope.

Section G.
Variable gl : nat -> list (R * R).
Variable ill : nat -> mat -> bool.

Lemma jack_dec b i : {jacked b i} + {~ jacked b i}.
Proof.
  unfold jacked. destruct (prescribed b i); [|right; intros [H _]; apply H; reflexivity].
  destruct (Rlt_dec (restraint b i) 0); [right; intros [_ H]; contradiction|left; split; [discriminate|assumption]].
Qed.
Lemma free_nodal b n kb rf o i : ~ jacked b i -> solved gl b n kb rf o -> (i < 2 * (n + 1))%nat -> reported b o i = nodal_sum n (mef kb rf (o_d o)) i.
Proof.
  intros HS S Hi. rewrite (reported_eq gl b n kb rf o i S Hi). assert (Q := residual_nodal kb rf b n (o_d o) i Hi).
  destruct (Rlt_dec (restraint b i) 0) as [Hr|Hr].
  - unfold spring_force in Q. destruct (Rlt_dec 0 (restraint b i)); lra.
  - assert (E := sv_eq _ _ _ _ _ _ S i Hi). unfold bcv in E. destruct (prescribed b i) eqn:EP; [exfalso; apply HS; split; [congruence|exact Hr]|].
    destruct (Rlt_dec (restraint b i) 0); [lra|]. lra.
Qed.
Lemma jack_reported b n kb rf o i : jacked b i -> solved gl b n kb rf o -> (i < 2 * (n + 1))%nat -> reported b o i = spring_force b i (o_d o i).
Proof.
  intros [_ HR] S Hi. rewrite (reported_eq gl b n kb rf o i S Hi). destruct (Rlt_dec (restraint b i) 0); [contradiction|]. reflexivity.
Qed.

Definition jackf (b : beam) (o : output) (n : nat) (ef : nat -> vec) (i : nat) : R := if jack_dec b i then nodal_sum n ef i - reported b o i else 0.

Lemma nodal_total b n kb rf o W : gauss_rule gl -> members b n sound_member -> loads_on_members b n -> solved gl b n kb rf o -> beam_load b n W ->
  rsum (n + 1) (fun j => nodal_sum n (mef kb rf (o_d o)) (2 * j)) = W.
Proof.
  intros G HM HL S (ls & w & Hls & Hw & ->).
  set (u := fun i => if Nat.even i then 1 else 0).
  assert (Ue : forall j, u (2 * j)%nat = 1) by (intros j; unfold u; rewrite Nat.even_mul; reflexivity).
  assert (Uo : forall j, u (2 * j + 1)%nat = 0) by (intros j; unfold u; rewrite Nat.even_add, Nat.even_mul; reflexivity).
  rewrite (rsum_ext _ _ (fun j => nodal_sum n (mef kb rf (o_d o)) (2 * j) * u (2 * j)%nat + nodal_sum n (mef kb rf (o_d o)) (2 * j + 1) * u (2 * j + 1)%nat)) by (intros j _; rewrite Ue, Uo; ring).
  rewrite <- (rsum_pairs (fun i => nodal_sum n (mef kb rf (o_d o)) i * u i)), virtual_work. apply rsum_ext. intros m Hm.
  destruct (sy_k _ _ _ _ _ (sv_sys _ _ _ _ _ _ S) m Hm) as (mb & Em & _).
  destruct (state_balance gl b (o_d o) m _ mb G Em (HM m mb Hm Em) (member_length _ _ _ Em) (fun ls0 H0 => HL ls0 m H0 Hm) (system_state gl b n kb rf (o_d o) (sv_sys _ _ _ _ _ _ S) m Hm)) as (B & _).
  rewrite <- (B ls (w m) Hls (Hw m Hm)). cbn [rsum].
  replace (2 * m + 0)%nat with (2 * m)%nat by lia. replace (2 * m + 2)%nat with (2 * (m + 1))%nat by lia.
  replace (2 * m + 3)%nat with (2 * (m + 1) + 1)%nat by lia. rewrite !Ue, !Uo. ring.
Qed.
Lemma nodal_moment b n kb rf o W : gauss_rule gl -> members b n (fun mb => sound_member mb /\ mb_type mb <> 4%nat) -> loads_on_members b n -> solved gl b n kb rf o -> beam_moment b n W ->
  rsum (n + 1) (fun j => node_x b j * nodal_sum n (mef kb rf (o_d o)) (2 * j) + nodal_sum n (mef kb rf (o_d o)) (2 * j + 1)) = W.
Proof.
  intros G HM HL S (ls & w & Hls & Hw & ->).
  set (u := fun i => if Nat.even i then node_x b (i / 2) else 1).
  assert (Ue : forall j, u (2 * j)%nat = node_x b j).
  { intros j. unfold u. rewrite Nat.even_mul. cbn [Nat.even orb]. rewrite Nat.mul_comm, Nat.div_mul by lia. reflexivity. }
  assert (Uo : forall j, u (2 * j + 1)%nat = 1) by (intros j; unfold u; rewrite Nat.even_add, Nat.even_mul; reflexivity).
  rewrite (rsum_ext _ _ (fun j => nodal_sum n (mef kb rf (o_d o)) (2 * j) * u (2 * j)%nat + nodal_sum n (mef kb rf (o_d o)) (2 * j + 1) * u (2 * j + 1)%nat)) by (intros j _; rewrite Ue, Uo; ring).
  rewrite <- (rsum_pairs (fun i => nodal_sum n (mef kb rf (o_d o)) i * u i)), virtual_work. apply rsum_ext. intros m Hm.
  destruct (sy_k _ _ _ _ _ (sv_sys _ _ _ _ _ _ S) m Hm) as (mb & Em & _). destruct (HM m mb Hm Em) as [Sm Tm].
  destruct (state_balance gl b (o_d o) m _ mb G Em Sm (member_length _ _ _ Em) (fun ls0 H0 => HL ls0 m H0 Hm) (system_state gl b n kb rf (o_d o) (sv_sys _ _ _ _ _ _ S) m Hm)) as (_ & B & _).
  rewrite <- (B Tm ls (node_x b m) (w m) Hls (Hw m Hm)). cbn [rsum].
  replace (2 * m + 0)%nat with (2 * m)%nat by lia. replace (2 * m + 2)%nat with (2 * (m + 1))%nat by lia.
  replace (2 * m + 3)%nat with (2 * (m + 1) + 1)%nat by lia. rewrite !Ue, !Uo, node_x_S. ring.
Qed.

Lemma jack_add b n kb rf o i : solved gl b n kb rf o -> (i < 2 * (n + 1))%nat -> reported b o i + jackf b o n (mef kb rf (o_d o)) i = nodal_sum n (mef kb rf (o_d o)) i.
Proof. intros S Hi. unfold jackf. destruct (jack_dec b i) as [J|J]; [ring|]. rewrite (free_nodal b n kb rf o i J S Hi). ring. Qed.

Lemma placed a npts check a' o i v : analyze_core gl ill a npts check = (a', Ok o) -> (i < an_ndof a)%nat -> prescribed (an_beam a) i = Some v -> o_d o i = v.
Proof.
  intros H Hi P. destruct (analyze_equilibrium _ _ _ _ _ _ _ H) as (ef & _ & Q). specialize (Q i Hi). rewrite P in Q. exact Q.
Qed.
Lemma jacks a npts check a' o : analyze_core gl ill a npts check = (a', Ok o) ->
  exists ef F, (forall m, (m < an_n a)%nat -> member_state gl (an_beam a) (o_d o) m (ef m)) /\
    (forall i, ~ jacked (an_beam a) i -> F i = 0) /\
    (forall i, (i < an_ndof a)%nat -> reported (an_beam a) o i + F i = nodal_sum (an_n a) ef i) /\
    (forall i, (i < an_ndof a)%nat -> jacked (an_beam a) i -> reported (an_beam a) o i = spring_force (an_beam a) i (o_d o i)) /\
    (gauss_rule gl -> loads_on_members (an_beam a) (an_n a) ->
      (members (an_beam a) (an_n a) sound_member -> forall W, beam_load (an_beam a) (an_n a) W -> rsum (an_n a + 1) (fun j => reported (an_beam a) o (2 * j) + F (2 * j)%nat) = W) /\
      (members (an_beam a) (an_n a) (fun mb => sound_member mb /\ mb_type mb <> 4%nat) -> forall W, beam_moment (an_beam a) (an_n a) W ->
        rsum (an_n a + 1) (fun j => node_x (an_beam a) j * (reported (an_beam a) o (2 * j) + F (2 * j)%nat) + (reported (an_beam a) o (2 * j + 1) + F (2 * j + 1)%nat)) = W)).
Proof.
  intros H. destruct (core_inv _ _ _ _ _ _ _ H) as [(kb & rf & S) _]. set (ef := mef kb rf (o_d o)). exists ef, (jackf (an_beam a) o (an_n a) ef).
  split; [apply system_state, (sv_sys _ _ _ _ _ _ S)|]. split; [intros i J; unfold jackf; destruct (jack_dec _ i); [contradiction|reflexivity]|].
  split; [intros i Hi; apply jack_add; assumption|]. split; [intros i Hi J; apply (jack_reported _ _ kb rf _ _ J S Hi)|]. intros G HL. split.
  - intros HM W HW. rewrite <- (nodal_total _ _ _ _ _ _ G HM HL S HW). apply rsum_ext. intros j Hj. apply jack_add; [exact S|lia].
  - intros HM W HW. rewrite <- (nodal_moment _ _ _ _ _ _ G HM HL S HW). apply rsum_ext. intros j Hj. unfold ef. rewrite !jack_add by (exact S || lia). reflexivity.
Qed.
End G.

(** *** A cantilever whose tip is lifted *)
Definition lift_beam : beam :=
  {| b_lengths := [2]; b_EIs := [RConst 2]; b_GAv := [None]; b_kf := [None];
     b_types := [1%nat]; b_nspans := 1; b_length := 0 + 2; b_terminal := [0; 0 + 2];
     b_R := [-1; -1; 0; 0]; b_D := [None; None; Some 1; Some 0]; b_LM := []; b_version := 1 |}.
Definition lift : analysis := {| an_beam := lift_beam; an_n := 1; an_npts := 100; an_checked := None; an_out := None |}.
Definition lift_ctor : ctor := {| ct_L := [2]; ct_EI := EIAll (RConst 2); ct_R := Some [-1; -1; 0; 0]; ct_LM := None;
  ct_types := [EtNum [1%Z]]; ct_D := Some [None; None; Some 1; Some 0]; ct_sup := None; ct_GAv := GNone; ct_kf := KNone |}.
Lemma lift_init : analysis_init lift_ctor = Ok lift.
Proof. reflexivity. Qed.
Lemma lift_refuted ill : exists o, analysis_init lift_ctor = Ok lift /\ members lift_beam 1 sound_member /\ loads_on_members lift_beam 1 /\
  snd (analyze_core sample_gl ill lift None true) = Ok o /\ jacked lift_beam 2 /\ beam_load lift_beam 1 0 /\ rsum 2 (fun j => reported lift_beam o (2 * j)) = -3.
Proof.
  assert (HM : members lift_beam 1 sound_member).
  { intros m mb Hm E. replace m with 0%nat in E by lia. cbv in E. injection E as <-.
    constructor; cbn; try lra; try lia; try reflexivity; try discriminate; exact Rlt_0_2 || (intros; discriminate). }
  assert (W : well_formed sample_gl lift_beam 1).
  { split; [cbn; lia|]. split; [cbn; lia|]. eexists; split; [reflexivity|]. intros m Hm.
    replace m with 0%nat by lia. do 3 eexists. repeat (split; [reflexivity|]). reflexivity. }
  destruct (well_formed_system _ _ _ W) as (kb & rf & S).
  destruct (core_total sample_gl ill lift true kb rf S) as (o & Ho).
  - cbn. lia.
  - cbn. lia.
  - intros i Hi (C & _). unfold restraint in C. cbn in C. destruct i as [|[|[|[|i]]]]; cbn in C; try lra. destruct i; lra.
  - intros y Hy i Hi. specialize (Hy i Hi). unfold bcv, prescribed, restraint in Hy. cbn [an_beam lift lift_beam b_D b_R] in Hy. cbn in Hi.
    destruct i as [|[|[|[|i]]]]; try lia; cbn in Hy; try exact Hy; destruct (Rlt_dec (-1) 0); (exact Hy || lra).
  - right. destruct (an_assemble_total sample_gl lift_beam 1 kb (sy_k _ _ _ _ _ S)) as (k & EA & _); [cbn; lia|].
    exists k. split; [exact EA|]. unfold check_stability.
    assert (EF : free_dofs (b_R lift_beam) (b_D lift_beam) (seq 0 (2 * (an_n lift + 1))) = Ok []).
    { cbn. unfold Rltb. destruct (Rlt_dec (-1) 0); [|lra]. destruct (Rlt_dec 0 0); [lra|]. reflexivity. }
    change (an_beam lift) with lift_beam. rewrite EF. reflexivity.
  - exists o. split; [reflexivity|]. split; [exact HM|]. split; [|split; [exact Ho|split; [|split]]].
    + intros ls m E Hm. cbv in E. injection E as <-. constructor.
    + split; [discriminate|]. unfold restraint. cbn. lra.
    + exists [], (fun _ => 0). split; [reflexivity|]. split; [|cbn; ring]. intros m Hm. exists []. split; [constructor|reflexivity].
    + destruct (analyze_core sample_gl ill lift None true) as [a' r] eqn:E. cbn in Ho. subst r.
      destruct (jacks sample_gl ill lift None true a' o E) as (ef & F & ST & F0 & AD & JK & _). cbn [lift an_n an_beam] in *.
      assert (D0 : o_d o 0%nat = 0 /\ o_d o 1%nat = 0).
      { destruct (analyze_equilibrium _ _ _ _ _ _ _ E) as (ef' & _ & Q). split; [specialize (Q 0%nat ltac:(cbn; lia))|specialize (Q 1%nat ltac:(cbn; lia))];
        unfold prescribed, restraint in Q; cbn in Q; destruct (Rlt_dec (-1) 0); (exact Q || lra). }
      assert (D2 := placed _ _ _ _ _ _ _ 2%nat 1 E ltac:(cbn; lia) eq_refl). assert (D3 := placed _ _ _ _ _ _ _ 3%nat 0 E ltac:(cbn; lia) eq_refl).
      assert (R2 : reported lift_beam o 2 = 0).
      { rewrite (JK 2%nat); [unfold spring_force, restraint; cbn; destruct (Rlt_dec 0 0); lra|cbn; lia|]. split; [discriminate|]. unfold restraint. cbn. lra. }
      assert (R0 := AD 0%nat ltac:(cbn; lia)). rewrite (F0 0%nat) in R0 by (intros [X _]; apply X; reflexivity).
      cbn [rsum Nat.mul Nat.add]. rewrite R2. cut (ef 0%nat 0%nat = -3). { unfold nodal_sum in R0. cbn in R0. lra. }
      destruct (ST 0%nat ltac:(lia)) as (ls & mb & k & rr & El & Em & Ek & Er & Ef). cbv in El. injection El as <-. cbv in Em. injection Em as <-.
      rewrite Ef. cbn in Ek. injection Ek as <-. cbn in Er. injection Er as <-. unfold end_forces, mulmv, ends. cbn. destruct D0 as [-> ->]. rewrite D2, D3. field.
Qed.
