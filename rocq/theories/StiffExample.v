(** Two beams for C79: the second has larger rigidities, no shear flexibility, a stiffer
    spring under the middle node and a clamp instead of a roller at the end. *)
From Verif Require Import Base BaseFacts Linalg SectionModel LoadModel ElementModel ElementSpec UtilsModel BeamModel AnalysisModel
  AnalysisSpec AnalysisFacts2 AnalysisFacts3 ConstSectFacts MechFacts StiffSpec.
Open Scope R_scope.

Definition prop_ctor (e : R) (G : gav_arg) (s : R) (last : R) : ctor :=
  {| ct_L := [4; 6]; ct_EI := EIAll (RConst e); ct_R := Some [-1; -1; s; 0; -1; last]; ct_LM := None;
     ct_types := [EtNum [1%Z]; EtNum [1%Z]]; ct_D := None; ct_sup := None; ct_GAv := G; ct_kf := KNone |}.
Definition prop_beam (e : R) (g : option rigid) (s : R) (last : R) (v : nat) : beam :=
  {| b_lengths := [4; 6]; b_EIs := [RConst e; RConst e]; b_GAv := [g; g]; b_kf := [None; None];
     b_types := [1%nat; 1%nat]; b_nspans := 2; b_length := 0 + 4 + 6; b_terminal := [0; 0 + 4; 0 + 4 + 6];
     b_R := [-1; -1; s; 0; -1; last]; b_D := [None; None; None; None; None; None]; b_LM := []; b_version := v |}.
Definition prop_an e g s last v : analysis :=
  {| an_beam := prop_beam e g s last v; an_n := 2; an_npts := 100; an_checked := None; an_out := None |}.
Definition weak : analysis := prop_an 2 (Some (RConst 7)) 1 0 2.
Definition strong : analysis := prop_an 5 None 3 (-1) 2.

Lemma weak_init : analysis_init (prop_ctor 2 (GAll (RConst 7)) 1 0) = Ok weak.
Proof. reflexivity. Qed.
Lemma strong_init : analysis_init (prop_ctor 5 GNone 3 (-1)) = Ok strong.
Proof. reflexivity. Qed.

Lemma prop_plain e g s last v lm : 0 < e -> (forall r, g = Some r -> exists c, r = RConst c /\ 0 < c) ->
  members (set_loads (prop_beam e g s last v) lm) 2 (fun mb => plain_member mb /\ mb_type mb = 1%nat).
Proof.
  intros He Hg m mb Hm E. assert (C : (m = 0 \/ m = 1)%nat) by lia. destruct C as [-> | ->]; cbv in E; injection E as <-; (split; [|reflexivity]).
  all: split; [constructor; cbn; try lra; try lia; try reflexivity|split; [exact I|]].
  all: cbn; intros r Hr; destruct (Hg r Hr) as (c & -> & Hc); exact Hc || exact I.
Qed.
Lemma prop_unsettled e g s last v : no_settlement (prop_beam e g s last v).
Proof. intros i. left. unfold prescribed. cbn. destruct i as [|[|[|[|[|[|i]]]]]]; try reflexivity. destruct i; reflexivity. Qed.

Ltac prop_runs := apply analyze_solves;
  [exact gauss2_rule
  |split; [cbn; lia|]; split; [cbn; lia|]; eexists; split; [reflexivity|]; let m := fresh in intros m ?; assert (m = 0 \/ m = 1)%nat as [-> | ->] by (cbn in *; lia); do 3 eexists; repeat (split; [reflexivity|]); reflexivity
  | | |].
Definition two_forces : list (nat * R) := [(1%nat, 5); (0%nat, 2); (1%nat, 3)].

Lemma weak_plain lm : members (set_loads (an_beam weak) lm) 2 (fun mb => plain_member mb /\ mb_type mb = 1%nat).
Proof. apply prop_plain; [lra|]. intros r [= <-]. exists 7. split; [reflexivity|lra]. Qed.
Lemma strong_plain lm : members (set_loads (an_beam strong) lm) 2 (fun mb => plain_member mb /\ mb_type mb = 1%nat).
Proof. apply prop_plain; [lra|]. intros r [=]. Qed.

Lemma weak_runs ill : exists o, run sample_gl ill weak (node_forces two_forces) false = Ok o.
Proof.
  prop_runs.
  - intros m mb Hm E. exact (proj1 (proj1 (weak_plain _ m mb Hm E))).
  - intros (rf & i & _ & Hi & _ & C & _). apply C. cbn in Hi. do 6 (destruct i as [|i]; [reflexivity|]). lia.
  - apply continuous_stable.
    + exact gauss2_rule.
    + intros m mb Hm E. destruct (weak_plain _ m mb Hm E) as [[S _] T]. split; assumption.
    + intros m Hm. assert (m = 0 \/ m = 1)%nat as [-> | ->] by (cbn in Hm; lia); do 2 eexists; split; reflexivity.
    + exists 0%nat, 2%nat. split; [lia|]. split; [cbn; lia|]. split; [left; right; cbn; lra|]. right. split; [lia|]. left. right. cbn. lra.
Qed.
Lemma strong_runs ill : exists o, run sample_gl ill strong (node_forces two_forces) false = Ok o.
Proof.
  prop_runs.
  - intros m mb Hm E. exact (proj1 (proj1 (strong_plain _ m mb Hm E))).
  - intros (rf & i & _ & Hi & _ & C & _). apply C. cbn in Hi. do 6 (destruct i as [|i]; [reflexivity|]). lia.
  - apply continuous_stable.
    + exact gauss2_rule.
    + intros m mb Hm E. destruct (strong_plain _ m mb Hm E) as [[S _] T]. split; assumption.
    + intros m Hm. assert (m = 0 \/ m = 1)%nat as [-> | ->] by (cbn in Hm; lia); do 2 eexists; split; reflexivity.
    + exists 0%nat, 2%nat. split; [lia|]. split; [cbn; lia|]. split; [left; right; cbn; lra|]. right. split; [lia|]. left. right. cbn. lra.
Qed.
Lemma weak_strong : stiffened (an_beam weak) (an_beam strong) 2.
Proof.
  constructor.
  - intros m mb mb' Hm E E'. assert (m = 0 \/ m = 1)%nat as [-> | ->] by lia; cbv in E, E'; injection E as <-; injection E' as <-; constructor; cbn; try reflexivity; try exact I; try lra; auto.
  - intros i Hi [H|H]; [exfalso; apply H; unfold prescribed; cbn; cbn in Hi; do 6 (destruct i as [|i]; [reflexivity|]); lia|].
    unfold restraint in H. cbn in H, Hi. right. unfold restraint. cbn. do 6 (destruct i as [|i]; [lra|]). lia.
  - intros i Hi H. unfold restraint. cbn in *. do 6 (destruct i as [|i]; [first [lra | exfalso; apply H; right; unfold restraint; cbn; lra]|]). lia.
Qed.
