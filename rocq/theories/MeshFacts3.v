(** Results of a beam with an extra node, and an instance. *)
From Coquelicot Require Import Coquelicot.
From Coq Require Import Lia Permutation.
From Verif Require Import Base BaseFacts Linalg SectionModel LoadModel LoadSpec ElementModel ElementSpec UtilsModel BeamModel AnalysisModel
  AnalysisSpec AnalysisFacts AnalysisFacts2 AnalysisFacts3 MechFacts ConstSectFacts ResultsSpec DetFacts ExactSpec ExactFacts ExactFacts3 MeshSpec MeshFacts MeshFacts2.
Open Scope R_scope.

Section Mesh.
Variable gl : nat -> list (R * R).
Hypothesis G : gauss_rule gl.

Lemma state_forces b d m f : member_state gl b d m f -> exists e, member_forces gl b d m = Ok e /\ forall p, f p = e p.
Proof.
  intros (ls & mb & k & r & E1 & E2 & E3 & E4 & E5). unfold member_forces. rewrite E1. cbn [rbind]. rewrite E2. cbn [rbind]. rewrite E3. cbn [rbind]. rewrite E4. cbn [rbind].
  eexists. split; [reflexivity|]. exact E5.
Qed.

Lemma inserted_sums n k ef ef' : (k < n)%nat -> (forall m, (m < n)%nat -> m <> k -> eq4 (ef' (new_member k m)) (ef m)) ->
  ef' k 0%nat = ef k 0%nat -> ef' k 1%nat = ef k 1%nat -> ef' (S k) 2%nat = ef k 2%nat -> ef' (S k) 3%nat = ef k 3%nat ->
  forall i, (i < 2 * (n + 1))%nat -> nodal_sum (S n) ef' (new_dof k i) = nodal_sum n ef i.
Proof.
  intros Hk E E0 E1 E2 E3 i Hi. destruct (dof_form i) as (j & r & -> & Hr). unfold new_dof.
  assert (Cr : r = 0%nat \/ r = 1%nat) by lia.
  assert (El : forall q, (q < k)%nat -> eq4 (ef' q) (ef q)).
  { intros q Hq. assert (X := E q ltac:(lia) ltac:(lia)). unfold new_member in X. destruct (Nat.leb_spec q k); [exact X|lia]. }
  assert (Er : forall q, (q < n)%nat -> (k < q)%nat -> eq4 (ef' (S q)) (ef q)).
  { intros q Hn Hq. assert (X := E q ltac:(lia) ltac:(lia)). unfold new_member in X. destruct (Nat.leb_spec q k); [lia|exact X]. }
  destruct (Nat.leb_spec (2 * j + r) (2 * k + 1)).
  - rewrite !nodal_at by exact Hr. f_equal.
    + destruct (Nat.ltb_spec j (S n)), (Nat.ltb_spec j n); try lia. destruct (Nat.eq_dec j k) as [->|]; [destruct Cr; subst r; assumption|apply El; lia].
    + destruct (Nat.leb_spec 1 j); [|reflexivity]. apply El; lia.
  - replace (2 * j + r + 2)%nat with (2 * S j + r)%nat by lia. rewrite !nodal_at by exact Hr. f_equal.
    + destruct (Nat.ltb_spec (S j) (S n)), (Nat.ltb_spec j n); try lia; [|reflexivity]. apply Er; lia.
    + destruct (Nat.leb_spec 1 (S j)), (Nat.leb_spec 1 j); try lia. replace (S j - 1)%nat with j by lia.
      destruct (Nat.eq_dec j (S k)) as [->|]; [replace (S k - 1)%nat with k by lia; destruct Cr; subst r; assumption|].
      destruct j as [|j]; [lia|]. replace (S j - 1)%nat with j by lia. apply Er; lia.
Qed.

Lemma inserted_prismatic b b' n k x : node_inserted b b' n k x -> members b n prismatic -> (forall m, (m < n)%nat -> exists mb, member_at b m = Ok mb) ->
  members b' (S n) prismatic.
Proof.
  intros N HP EX m mb Hm Em. assert (Hk := ni_span _ _ _ _ _ N). destruct (EX k (ni_span _ _ _ _ _ N)) as (mk & Ek). destruct (ni_parts _ _ _ _ _ N mk Ek) as (Hx & P1 & P2).
  destruct (HP k mk (ni_span _ _ _ _ _ N) Ek) as [q1 q2 q3 q4 q5].
  assert (C : m = k \/ m = S k \/ exists q, (q < n)%nat /\ q <> k /\ m = new_member k q).
  { destruct (lt_eq_lt_dec m k) as [[h|h]|h]; [right; right; exists m|left; exact h|].
    - unfold new_member. destruct (Nat.leb_spec m k); [|lia]. repeat split; lia.
    - destruct (Nat.eq_dec m (S k)) as [->|]; [right; left; reflexivity|]. right; right. destruct m as [|m]; [lia|]. exists m. unfold new_member.
      destruct (Nat.leb_spec m k); [lia|]. repeat split; lia. }
  destruct C as [->|[->|(q & Hq & Nq & ->)]].
  - rewrite P1 in Em. inversion Em; subst mb. constructor; cbn; try assumption; [lra|]. destruct (Nat.eqb (mb_type mk) 3); lia.
  - rewrite P2 in Em. inversion Em; subst mb. constructor; cbn; try assumption; [lra|]. destruct (Nat.eqb (mb_type mk) 2); lia.
  - destruct (EX q Hq) as (mq & Eq). rewrite (ni_members _ _ _ _ _ N q mq Hq Nq Eq) in Em. inversion Em; subst mb. exact (HP q mq Hq Eq).
Qed.

Variables (ill ill2 : nat -> mat -> bool) (a a2 : analysis) (k : nat) (x : R) (np np2 : option nat) (ch ch2 : bool) (r r2 : analysis) (o o2 : output).
Hypothesis N : node_inserted (an_beam a) (an_beam a2) (an_n a) k x.
Hypothesis EN : an_n a2 = S (an_n a).
Hypothesis HP : members (an_beam a) (an_n a) prismatic.
Hypothesis HX : exact_loads (an_beam a) (an_n a).
Hypothesis HX2 : exact_loads (an_beam a2) (an_n a2).
Hypothesis H1 : analyze_core gl ill a np ch = (r, Ok o).
Hypothesis H2 : analyze_core gl ill2 a2 np2 ch2 = (r2, Ok o2).

Lemma insertion : (forall i, (i < an_ndof a)%nat -> o_d o2 (new_dof k i) = o_d o i) /\
  (forall m e e', (m < an_n a)%nat -> m <> k -> member_forces gl (an_beam a) (o_d o) m = Ok e -> member_forces gl (an_beam a2) (o_d o2) (new_member k m) = Ok e' -> eq4 e' e) /\
  (forall e e1 e2, member_forces gl (an_beam a) (o_d o) k = Ok e -> member_forces gl (an_beam a2) (o_d o2) k = Ok e1 -> member_forces gl (an_beam a2) (o_d o2) (S k) = Ok e2 ->
     e1 0%nat = e 0%nat /\ e1 1%nat = e 1%nat /\ e2 2%nat = e 2%nat /\ e2 3%nat = e 3%nat /\ moves_at (an_beam a) (o_d o) k e x (o_d o2 (2 * k + 2)%nat) (o_d o2 (2 * k + 3)%nat)).
Proof.
  destruct (analysis_exact gl G ill a np ch r o HP HX H1) as (ef & B & F).
  rewrite EN in HX2. destruct (inserted_bent _ _ _ _ _ _ _ N HP HX2 B) as (D' & ef' & B' & ED & EM & E0 & E1 & E2 & E3 & MV).
  assert (Hk := ni_span _ _ _ _ _ N).
  assert (EX : forall m, (m < an_n a)%nat -> exists mb, member_at (an_beam a) m = Ok mb).
  { intros m Hm. destruct (proj1 B m Hm) as (V & M & mb & _ & _ & _ & _ & _ & Em & _). exists mb. exact Em. }
  assert (HP2 := inserted_prismatic _ _ _ _ _ N HP EX). rewrite <- EN in HP2, HX2, B'.
  destruct (analysis_only gl G ill2 a2 np2 ch2 r2 o2 D' ef' HP2 HX2 H2 B') as (OD & OF). unfold an_ndof in OD. rewrite EN in OD, OF.
  split; [|split].
  - intros i Hi. unfold an_ndof in Hi. rewrite <- OD by (unfold new_dof; destruct (Nat.leb i (2 * k + 1)); lia). apply ED.
  - intros m e e' Hm Nm He He' p Hp. rewrite <- (OF (new_member k m) e' ltac:(unfold new_member; destruct (Nat.leb m k); lia) He' p Hp). rewrite EM by exact Nm. exact (F m e Hm He p Hp).
  - intros e e1 e2 He He1 He2. assert (Fe := F k e Hk He). assert (Fe1 := OF k e1 ltac:(lia) He1). assert (Fe2 := OF (S k) e2 ltac:(lia) He2).
    rewrite <- (Fe1 0%nat), <- (Fe1 1%nat), <- (Fe2 2%nat), <- (Fe2 3%nat), <- !Fe by lia. repeat (split; [assumption|]).
    rewrite <- !OD by lia. destruct MV as (mb & ls & ei & ga & V & M & th & y & A1 & A2 & A3 & A4 & A5 & A6 & A7). exists mb, ls, ei, ga, V, M, th, y.
    repeat (split; [assumption|]). split; [eapply bent_ext; [exact A5|reflexivity|exact Fe]|]. split; [|exact A7].
    destruct A6 as [j1 j2 j3 j4 j5]. constructor; try assumption. intros p Rp.
    assert (p < 4)%nat by (destruct (mb_type mb) as [|[|[|[|[|z]]]]]; cbn in Rp; try contradiction; lia). rewrite <- Fe by assumption. exact (j5 p Rp).
Qed.

Lemma insertion_reactions : settles_supports (an_beam a) -> settles_supports (an_beam a2) ->
  forall i, (i < an_ndof a)%nat -> reported (an_beam a2) o2 (new_dof k i) = reported (an_beam a) o i.
Proof.
  intros S1 S2 i Hi. destruct (analyze_reactions _ _ _ _ _ _ _ H1 S1) as (f & F1 & R1). destruct (analyze_reactions _ _ _ _ _ _ _ H2 S2) as (f2 & F2 & R2).
  unfold an_ndof in *. rewrite R1 by exact Hi. rewrite R2 by (rewrite EN; unfold new_dof; destruct (Nat.leb i (2 * k + 1)); lia). rewrite EN in F2 |- *.
  destruct insertion as (_ & I1 & I2). assert (Hk := ni_span _ _ _ _ _ N).
  destruct (state_forces _ _ _ _ (F1 k Hk)) as (e & Ee & Qe). destruct (state_forces _ _ _ _ (F2 k ltac:(lia))) as (e1 & Ee1 & Qe1). destruct (state_forces _ _ _ _ (F2 (S k) ltac:(lia))) as (e2 & Ee2 & Qe2).
  destruct (I2 e e1 e2 Ee Ee1 Ee2) as (Q0 & Q1 & Q2 & Q3 & _).
  apply inserted_sums; [exact Hk| |rewrite Qe, Qe1; exact Q0|rewrite Qe, Qe1; exact Q1|rewrite Qe, Qe2; exact Q2|rewrite Qe, Qe2; exact Q3|exact Hi].
  intros m Hm Nm p Hp. destruct (state_forces _ _ _ _ (F1 m Hm)) as (em & Em & Qm).
  destruct (state_forces _ _ _ _ (F2 (new_member k m) ltac:(unfold new_member; destruct (Nat.leb m k); lia))) as (em' & Em' & Qm').
  rewrite Qm, Qm'. exact (I1 m em em' Hm Nm Em Em' p Hp).
Qed.
End Mesh.

(** A two-span beam under a UDL, a trapezoidal load and a point load; the same with a node inserted
    within the trapezoid. *)
Definition coarse_rows : list row := [Row 1 1 [10]; Row 2 5 [2; 6; 1; 4]; Row 2 2 [5; 5]].
Definition fine_rows : list row := [Row 1 1 [10]; Row 2 5 [2; 4; 1; 2]; Row 3 5 [4; 6; 0; 2]; Row 3 2 [5; 2]].
Definition coarse : analysis := with_beam sample (set_loads sample_beam coarse_rows).
Definition fine_beam : beam :=
  {| b_lengths := [4; 3; 6 - 3]; b_EIs := [RConst 2; RConst 2; RConst 2]; b_GAv := [None; None; None]; b_kf := [None; None; None];
     b_types := [1%nat; 1%nat; 1%nat]; b_nspans := 3; b_length := 0 + 4 + 3 + (6 - 3); b_terminal := [0; 0 + 4; 0 + 4 + 3; 0 + 4 + 3 + (6 - 3)];
     b_R := [-1; -1; -1; 0; 0; 0; 3; 0]; b_D := [None; None; None; None; None; None; None; None]; b_LM := fine_rows; b_version := 3 |}.
Definition fine : analysis := {| an_beam := fine_beam; an_n := 3; an_npts := 100; an_checked := None; an_out := None |}.
Definition fine_ctor : ctor :=
  {| ct_L := [4; 3; 6 - 3]; ct_EI := EIAll (RConst 2); ct_R := Some [-1; -1; -1; 0; 0; 0; 3; 0]; ct_LM := Some fine_rows;
     ct_types := [EtNum [1%Z]; EtNum [1%Z]; EtNum [1%Z]]; ct_D := None; ct_sup := None; ct_GAv := GNone; ct_kf := KNone |}.
Lemma fine_init : analysis_init fine_ctor = Ok fine.
Proof. reflexivity. Qed.

Ltac three m := let C := fresh in assert (C : (m = 0 \/ m = 1 \/ m = 2)%nat) by lia; destruct C as [->|[->| ->]].
Ltac two m := let C := fresh in assert (C : (m = 0 \/ m = 1)%nat) by lia; destruct C as [->| ->].
Lemma coarse_prismatic : members (an_beam coarse) 2 prismatic.
Proof.
  intros m mb Hm Em. two m; cbv in Em; injection Em as <-; constructor; cbn; try lra; try lia; try reflexivity; try (eexists; split; [reflexivity|lra]); left; reflexivity.
Qed.
Lemma fine_prismatic : members fine_beam 3 prismatic.
Proof.
  intros m mb Hm Em. three m; cbv in Em; injection Em as <-; constructor; cbn; try lra; try lia; try reflexivity; try (eexists; split; [reflexivity|lra]); left; reflexivity.
Qed.
Lemma coarse_loads : exact_loads (an_beam coarse) 2.
Proof.
  intros m mb ls Hm Em El. injection El as <-. two m; cbv in Em; injection Em as <-; cbn; repeat (apply Forall_cons || apply Forall_nil); unfold exact_load, within_member; cbn; repeat split; try lra.
Qed.
Lemma fine_loads : exact_loads fine_beam 3.
Proof.
  intros m mb ls Hm Em El. injection El as <-. three m; cbv in Em; injection Em as <-; cbn; repeat (apply Forall_cons || apply Forall_nil); unfold exact_load, within_member; cbn; repeat split; try lra.
Qed.
Lemma coarse_runs ill : exists o, snd (analyze_core sample_gl ill coarse None false) = Ok o.
Proof. apply (sample_runs ill coarse_rows). sample_wf. Qed.
Lemma fine_runs ill : exists o, snd (analyze_core sample_gl ill fine None false) = Ok o.
Proof.
  apply analyze_solves.
  - exact gauss2_rule.
  - split; [cbn; lia|]. split; [cbn; lia|]. eexists. split; [reflexivity|]. intros m Hm. cbn [an_n fine] in Hm. three m; do 3 eexists; repeat (split; [reflexivity|]); reflexivity.
  - intros m mb Hm Em. apply prismatic_sound. exact (fine_prismatic m mb Hm Em).
  - intros (rf & i & _ & Hi & _ & C & _). apply C. cbn in Hi. do 8 (destruct i as [|i]; [reflexivity|]). lia.
  - apply continuous_stable.
    + exact gauss2_rule.
    + intros m mb Hm Em. split; [apply prismatic_sound; exact (fine_prismatic m mb Hm Em)|]. cbn [an_n fine] in Hm. three m; cbv in Em; injection Em as <-; reflexivity.
    + intros m Hm. cbn [an_n fine] in Hm. three m; do 2 eexists; split; reflexivity.
    + exists 0%nat, 1%nat. split; [lia|]. split; [cbn; lia|]. split; [left; right; cbn; lra|]. right. split; [lia|]. left. right. cbn. lra.
Qed.
Lemma fine_inserted : node_inserted (an_beam coarse) fine_beam 2 1 3.
Proof.
  constructor.
  - lia.
  - intros m mb Hm Nm Em. assert (m = 0%nat) by lia. subst m. exact Em.
  - intros mb Em. cbv in Em. injection Em as <-. split; [cbn; lra|]. split; reflexivity.
  - intros ls Els. injection Els as <-. eexists. split; [reflexivity|]. split.
    + intros m Hm Nm. assert (m = 0%nat) by lia. subst m. reflexivity.
    + intros mb Em. cbv in Em. injection Em as <-. cbn [mb_L].
      change (loads_of _ 1) with [LTrap 2 6 1 (Some 4); LPL 5 5] at 1. change (loads_of _ 1) with [LTrap 2 4 1 (Some 2)]. change (loads_of _ 2) with [LTrap 4 6 0 (Some 2); LPL 5 2].
      constructor.
      * intros t Ht. cbn. destruct (Rlt_dec t 1), (Rlt_dec (1 + 4) t), (Rlt_dec (1 + 2) t); lra.
      * intros t Ht. cbn. destruct (Rlt_dec t 0), (Rlt_dec (0 + 2) t), (Rlt_dec (3 + t) 1), (Rlt_dec (1 + 4) (3 + t)); lra.
      * cbn. unfold moved. cbn. replace (3 + 2) with 5 by ring. apply Permutation_refl.
      * apply Permutation_refl.
      * intros t _. unfold imposed, lsum. cbn. ring.
      * intros t _. unfold imposed, lsum. cbn. ring.
  - intros i Hi. assert (i < 6)%nat by exact Hi. do 6 (destruct i as [|i]; [split; reflexivity|]). lia.
  - intros i [->| ->]; split; reflexivity.
Qed.
Lemma coarse_settles : settles_supports (an_beam coarse).
Proof. apply sample_settles. Qed.
Lemma fine_settles : settles_supports fine_beam.
Proof. intros i H. exfalso. apply H. unfold prescribed. cbn. do 8 (destruct i as [|i]; [reflexivity|]). destruct i; reflexivity. Qed.
