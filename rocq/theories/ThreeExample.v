(** Two spans on three supports. *)
From Coq Require Import Lia ZArith.
From Verif Require Import Base BaseFacts Linalg SectionModel LoadModel LoadSpec ElementModel ElementSpec ConstSectFacts UtilsModel BeamModel
  AnalysisModel AnalysisSpec AnalysisFacts3 MechFacts ResultsModel ResultsSpec DetFacts2 ExactSpec ExactFacts3 ThreeSpec ThreeFacts.
Open Scope R_scope.

Definition three_ctor : ctor :=
  {| ct_L := [4; 6]; ct_EI := EIAll (RConst 2); ct_R := Some [-1; 0; -1; 0; -1; 0]; ct_LM := Some [Row 1 1 [10]; Row 2 2 [5; 2]];
     ct_types := [EtNum [1%Z]; EtNum [1%Z]]; ct_D := None; ct_sup := None; ct_GAv := GNone; ct_kf := KNone |}.
Definition three_beam : beam :=
  {| b_lengths := [4; 6]; b_EIs := [RConst 2; RConst 2]; b_GAv := [None; None]; b_kf := [None; None];
     b_types := [1%nat; 1%nat]; b_nspans := 2; b_length := 0 + 4 + 6; b_terminal := [0; 0 + 4; 0 + 4 + 6];
     b_R := [-1; 0; -1; 0; -1; 0]; b_D := [None; None; None; None; None; None]; b_LM := [Row 1 1 [10]; Row 2 2 [5; 2]]; b_version := 2 |}.
Definition three : analysis := {| an_beam := three_beam; an_n := 2; an_npts := 100; an_checked := None; an_out := None |}.
Lemma three_init : analysis_init three_ctor = Ok three.
Proof. reflexivity. Qed.
Lemma three_prismatic : members three_beam 2 prismatic.
Proof.
  intros m mb Hm Em. assert (C : m = 0%nat \/ m = 1%nat) by lia.
  destruct C as [-> | ->]; cbv in Em; injection Em as <-; constructor; cbn; try lra; try lia; try reflexivity; try (eexists; split; [reflexivity|lra]); left; reflexivity.
Qed.
Lemma three_loads : exact_loads three_beam 2.
Proof.
  intros m mb ls Hm Em El. injection El as <-. assert (C : m = 0%nat \/ m = 1%nat) by lia. destruct C as [-> | ->]; cbv in Em; injection Em as <-; cbn [loads_of filter map fst snd]; cbn; (constructor; [|constructor]).
  - repeat split; exact I.
  - split; [split; [cbn; lra|exact I]|exact I].
Qed.
Lemma three_sound : members three_beam 2 (fun mb => sound_member mb /\ mb_type mb = 1%nat).
Proof.
  intros m mb Hm E. assert (m = 0 \/ m = 1)%nat as [-> | ->] by lia; cbv in E; injection E as <-; (split; [|reflexivity]).
  all: constructor; cbn; try lra; try lia; try reflexivity; try discriminate; exact Rlt_0_2 || (intros; discriminate).
Qed.
Lemma three_runs ill : exists a' o, analyze_core sample_gl ill three None false = (a', Ok o).
Proof.
  assert (W : well_formed sample_gl three_beam 2) by sample_wf.
  assert (Q : exists o, snd (analyze_core sample_gl ill three None false) = Ok o).
  { apply (analyze_solves sample_gl ill three None gauss2_rule W).
    - intros m mb Hm E. exact (proj1 (three_sound m mb Hm E)).
    - intros (rf & i & _ & Hi & _ & C & _). apply C. cbn in Hi. assert (i = 0 \/ i = 1 \/ i = 2 \/ i = 3 \/ i = 4 \/ i = 5)%nat as [->|[->|[->|[->|[->| ->]]]]] by lia; reflexivity.
    - apply (continuous_stable sample_gl three_beam 2 gauss2_rule three_sound).
      + intros m Hm. assert (m = 0 \/ m = 1)%nat as [-> | ->] by lia; do 2 eexists; split; reflexivity.
      + exists 0%nat, 1%nat. split; [lia|]. split; [lia|]. split; [left; right; cbn; lra|]. right. split; [lia|]. left. right. cbn. lra. }
  destruct Q as (o & E). destruct (analyze_core sample_gl ill three None false) as [a' r]. cbn in E. subst r. exists a', o. reflexivity.
Qed.
Lemma three_result ill : exists a' o e1 e2, analyze_core sample_gl ill three None false = (a', Ok o) /\ member_forces sample_gl three_beam (o_d o) 0 = Ok e1 /\ member_forces sample_gl three_beam (o_d o) 1 = Ok e2 /\
  e1 1%nat = 0 /\ e1 3%nat = - (34/3) /\ e2 1%nat = 34/3 /\ e2 3%nat = 0.
Proof.
  destruct (three_runs ill) as (a' & o & E). assert (F : forall i, (i < 2)%nat -> exists e, member_forces sample_gl three_beam (o_d o) i = Ok e) by (intros i Hi; assert (i = 0 \/ i = 1)%nat as [-> | ->] by lia; eexists; reflexivity).
  destruct (F 0%nat ltac:(lia)) as (e1 & F1). destruct (F 1%nat ltac:(lia)) as (e2 & F2). clear F. exists a', o, e1, e2. split; [exact E|]. split; [exact F1|]. split; [exact F2|].
  destruct (analysis_two_spans sample_gl gauss2_rule ill three None false a' o _ _ _ 2 2 e1 e2 three_prismatic three_loads E eq_refl eq_refl eq_refl eq_refl eq_refl eq_refl eq_refl eq_refl eq_refl eq_refl) as (A & B & C & D); try exact F1; try exact F2.
  - intros i [<-|[<-|[<-|[]]]]; split; reflexivity.
  - intros i [<-|[<-|[<-|[]]]]; (split; [reflexivity|cbn; lra]).
  - cbn. constructor; [exact I|constructor].
  - cbn. constructor; [cbn; lra|constructor].
  - assert (D' : e1 3%nat = - (34/3)) by (rewrite D; cbn; field). split; [exact A|]. split; [exact D'|]. split; [rewrite C, D'; field|exact B].
Qed.
