(** Sample programs for C72-C74. *)
From Verif Require Import RenderModel.
From Verif Require Import Base BaseFacts Linalg SectionModel LoadModel FoundationModel ElementModel UtilsModel UtilsSpec
  BeamModel BeamSpec CtorFacts AnalysisModel AnalysisSpec ElementSpec AnalysisFacts AnalysisFacts2 HistoryFacts ResultsModel ResultsSpec ResultsFacts
  SessionModel SessionSpec SessionFacts.
Open Scope R_scope.
Local Notation length := List.length.
Local Open Scope list_scope.

Section S.
Variable gl : nat -> list (R * R).
Variable ill : nat -> mat -> bool.

Lemma ff_any npts : exists br r, snd (analyze gl ill ff (fun _ => []) npts false) = Ok br /\ nth_error (br_mem br) 0 = Some r /\
  length (r_x r) = (effective npts 100 + 3)%nat.
Proof.
  destruct (ff_core gl ill) as (o & Ho). rewrite <- (core_npts gl ill ff npts) in Ho.
  destruct (analyze_total_ok gl ill ff (fun _ => []) npts false o [(0%Z, LUDL 2)] Ho) as (a' & br & E & EP & ED).
  - reflexivity.
  - exact (ff_wf gl).
  - reflexivity.
  - intros i mb Hi E. destruct (ff_member i mb E) as (_ & _ & A & B & _). auto.
  - intros i mb Hi E. cbn in Hi. replace i with 0%nat by lia. cbn. eexists. reflexivity.
  - change (an_npts a' = effective npts 100) in EP.
    destruct (analyze_split _ _ _ _ _ _ _ _ E) as (o' & Ho' & Hv & _).
    destruct (analyze_core_state _ _ _ _ _ _ _ Ho') as (EB & _). rewrite EB in Hv.
    destruct (member_analysis_spec _ _ _ _ _ _ _ Hv) as (ls' & Hls & Hlen & Hs).
    destruct (Hs 0%nat (le_n 1)) as (m & e & r0 & (Hm & _) & Hr). exists br. eexists. split; [rewrite E; reflexivity|]. split; [exact Hr|].
    destruct (ff_member 0 m Hm) as (_ & SM & _ & KF & _).
    assert (HP : (3 < an_npts a')%nat) by (rewrite EP; apply effective_gt; lia).
    assert (HG := analyze_grid _ _ _ _ _ _ _ _ 0%nat _ m E ltac:(lia) Hm (Rlt_le _ _ (sm_L _ SM)) KF Hr).
    rewrite (sg_count _ _ _ _ HG), EP. unfold inside_points. cbn [filter length]. lia.
Qed.

Definition one_object : list call := [NewList [Row 1 1 [2]]; Construct ff_ctor (Some 0%nat)].
Definition two_objects : list call := one_object ++ [Construct ff_ctor (Some 0%nat)].
Definition own_lists : list call := one_object ++ [Construct ff_ctor None].
Local Notation run := (run_calls gl ill).

Lemma one_seen : object (run one_object) 0 {| so_an := ff; so_lm := 0; so_res := None |} /\
  seen (run one_object) {| so_an := ff; so_lm := 0; so_res := None |} = ff.
Proof. split; reflexivity. Qed.

Lemma sharing : exists o, object (run two_objects) 1 o /\ loads_now (run two_objects) o = [Row 1 1 [2]] /\
  (forall k, In k two_objects -> subject k = None) /\
  let st' := run (two_objects ++ [AddHelper 0 (AddPL 1 7 3)]) in
  object st' 1 o /\ loads_now st' o = [Row 1 1 [2]; Row 1 2 [7; 3]] /\ rows_of st' 0 = [Row 1 1 [2]; Row 1 2 [7; 3]].
Proof.
  eexists. split; [reflexivity|]. split; [reflexivity|]. split; [|split; [reflexivity|split; reflexivity]].
  intros k [<-|[<-|[<-|[]]]]; reflexivity.
Qed.

Lemma own_unshared : unshared gl ill own_lists.
Proof.
  unfold own_lists, one_object. cbn [app].
  apply (un_snoc gl ill [NewList [Row 1 1 [2]]; Construct ff_ctor (Some 0%nat)]); [|intros []].
  apply (un_snoc gl ill [NewList [Row 1 1 [2]]]).
  - apply (un_snoc gl ill []); [apply un_nil|intros []].
  - intros (q & o & H & _). unfold object in H. destruct q; discriminate.
Qed.

Lemma one_complete : complete (seen (run one_object) {| so_an := ff; so_lm := 0; so_res := None |}).
Proof. repeat split. Qed.

(** analyze(npts=5), then analyze(). *)
Lemma sticky : let ks := one_object ++ [Analyze 0 (Some 5%nat) false; Analyze 0 None false] in
  exists o br r, object (run ks) 0 o /\ so_res o = Some br /\ nth_error (br_mem br) 0 = Some r /\
    length (r_x r) = 8%nat /\ (documented None + 3)%nat = 103%nat.
Proof.
  cbv zeta. change (one_object ++ [Analyze 0 (Some 5%nat) false; Analyze 0 None false]) with ((one_object ++ [Analyze 0 (Some 5%nat) false]) ++ [Analyze 0 None false]).
  set (o0 := {| so_an := ff; so_lm := 0; so_res := None |}). destruct one_seen as [HO HS]. fold o0 in HO, HS.
  set (ks1 := one_object ++ [Analyze 0 (Some 5%nat) false]).
  assert (H1 : object (run ks1) 0 (after gl ill (run one_object) (Analyze 0 (Some 5%nat) false) 0 o0)) by (unfold ks1; rewrite run_snoc; apply exec_after, HO).
  set (o1 := after _ _ _ _ _ _) in *.
  assert (N1 : an_npts (so_an o1) = 5%nat) by (unfold o1; rewrite after_npts; reflexivity).
  assert (L1 : so_lm o1 = 0%nat) by reflexivity.
  assert (B1 : an_beam (so_an o1) = ff_beam /\ an_n (so_an o1) = 1%nat).
  { unfold o1. cbn [after Nat.eqb so_an]. rewrite analyze_fst_core, HS. destruct (core_fst gl ill ff (Some 5%nat) false) as (-> & -> & _). split; reflexivity. }
  assert (R1 : rows_of (run ks1) 0 = [Row 1 1 [2]]).
  { unfold ks1. rewrite run_snoc. apply exec_lists; [apply good_run|cbn; lia|intros []]. }
  assert (AN : anew (seen (run ks1) o1) 1 = ff).
  { unfold anew, seen. cbn [with_beam an_beam an_n]. destruct B1 as [-> ->]. rewrite L1, R1. reflexivity. }
  destruct (good_run gl ill ks1 0%nat o1 H1) as [_ HH].
  assert (Q := analyze_anew gl ill (seen (run ks1) o1) 1 (fun _ => []) None false (healthy_seen gl ill _ _ HH)). rewrite AN in Q.
  change (an_npts (seen (run ks1) o1)) with (an_npts (so_an o1)) in Q. rewrite N1 in Q. cbn [effective] in Q.
  destruct (ff_any (Some 5%nat)) as (br & r & E1 & E2 & E3). rewrite E1 in Q.
  exists (after gl ill (run ks1) (Analyze 0 None false) 0 o1), br, r. rewrite run_snoc. split; [apply exec_after, H1|].
  rewrite after_res. cbn [Nat.eqb]. rewrite Q. split; [reflexivity|]. split; [exact E2|]. split; [exact E3|reflexivity].
Qed.

(** A rejected span stays in the lists: the next span gets its length. *)
Lemma rejected_span : let bad := AddSpan 0 4 (RConst 3) (EtNum [7%Z]) None None in
  snd (exec gl ill (run one_object) bad) <> Ok tt /\ (forall t, ~ type_code (EtNum [7%Z]) t) /\
  let ks := one_object ++ [bad; AddSpan 0 9 (RConst 5) (EtNum [1%Z]) None None] in
  exists o m, object (run ks) 0 o /\ member_at (an_beam (so_an o)) 1 = Ok m /\ mb_L m = 4 /\
    b_nspans (an_beam (so_an o)) = 3%nat /\ member_at (an_beam (so_an o)) 2 = Err IndexError.
Proof.
  cbv zeta. split; [discriminate|]. split.
  { intros t H. inversion H as [|t' Ht Et]. lia. }
  eexists. eexists. split; [reflexivity|]. split; [reflexivity|]. repeat split.
Qed.

Lemma grown_sample : snd (exec gl ill (run one_object) (AddSpan 0 4 (RConst 3) (EtNum [1%Z]) None None)) = Ok tt.
Proof. reflexivity. Qed.
Lemma grown_described : let ks := one_object ++ [AddSpan 0 4 (RConst 3) (EtNum [1%Z]) None None; SetRestraints 0 [-1; -1; -1; 0; -1; 0]; SetPrescribed 0 [None; None; None; None; None; None]] in
  exists o a, object (run ks) 0 o /\ analysis_init (described (an_beam (seen (run ks) o))) = Ok a.
Proof. cbv zeta. eexists. eexists. split; [reflexivity|]. reflexivity. Qed.
End S.
