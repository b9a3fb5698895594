(** A beam seen from its other side. *)
From Coquelicot Require Import Coquelicot.
From Coq Require Import Lia Permutation.
From Verif Require Import Base BaseFacts Linalg SectionModel LoadModel LoadSpec ElementModel ElementSpec UtilsModel BeamModel AnalysisModel
  AnalysisSpec AnalysisFacts AnalysisFacts2 AnalysisFacts3 MechFacts ConstSectFacts ResultsSpec ExactSpec ExactFacts ExactFacts3 MeshFacts MeshFacts2 MeshFacts3 MirrorSpec MirrorFacts.
Open Scope R_scope.

Lemma sense_at j r : (r < 2)%nat -> sense (2 * j + r) = match r with O => 1 | S _ => -1 end.
Proof.
  intros Hr. unfold sense. rewrite Nat.even_add, Nat.even_mul. cbn [Nat.even orb]. destruct r as [|[|r]]; [reflexivity|reflexivity|lia].
Qed.
Lemma mirror_at n j r : (r < 2)%nat -> mirror_dof n (2 * j + r) = (2 * (n - j) + r)%nat.
Proof.
  intros Hr. unfold mirror_dof. assert (E1 : ((2 * j + r) / 2 = j)%nat) by (symmetry; apply (Nat.div_unique _ 2 j r); lia).
  assert (E2 : ((2 * j + r) mod 2 = r)%nat) by (symmetry; apply (Nat.mod_unique _ 2 j r); lia). rewrite E1, E2. reflexivity.
Qed.
Lemma mirror_twice n i : (i < 2 * (n + 1))%nat -> mirror_dof n (mirror_dof n i) = i /\ (mirror_dof n i < 2 * (n + 1))%nat /\ sense (mirror_dof n i) = sense i.
Proof.
  intros Hi. destruct (dof_form i) as (j & r & -> & Hr). rewrite mirror_at by exact Hr. rewrite mirror_at by exact Hr. rewrite !sense_at by exact Hr.
  split; [lia|]. split; [lia|reflexivity].
Qed.
Lemma sense_sq i : sense i * sense i = 1.
Proof. unfold sense. destruct (Nat.even i); ring. Qed.

Definition mirror_vec (f : vec) : vec := vec4 (f 2%nat) (- f 3%nat) (f 0%nat) (- f 1%nat).
Lemma mirror_vec_at f p : (p < 4)%nat -> mirror_vec f p = sense p * f (mirror_end p).
Proof. intros Hp. destruct p as [|[|[|[|p]]]]; [..|lia]; unfold mirror_vec, vec4, sense, mirror_end; cbn [Nat.even]; ring. Qed.

Lemma mirror_sums n ef ef' : (forall m, (m < n)%nat -> eq4 (ef' (mirror_span n m)) (mirror_vec (ef m))) ->
  forall i, (i < 2 * (n + 1))%nat -> nodal_sum n ef' (mirror_dof n i) = sense i * nodal_sum n ef i.
Proof.
  intros E i Hi. destruct (dof_form i) as (j & r & -> & Hr). rewrite mirror_at, sense_at, !nodal_at by exact Hr.
  assert (Cr : r = 0%nat \/ r = 1%nat) by lia.
  assert (X1 : (if Nat.ltb (n - j) n then ef' (n - j)%nat r else 0) = match r with O => 1 | S _ => -1 end * (if Nat.leb 1 j then ef (j - 1)%nat (2 + r)%nat else 0)).
  { destruct (Nat.ltb_spec (n - j) n), (Nat.leb_spec 1 j); try lia; [|ring].
    assert (Y := E (j - 1)%nat ltac:(lia) r ltac:(lia)). unfold mirror_span in Y. replace (n - 1 - (j - 1))%nat with (n - j)%nat in Y by lia. rewrite Y.
    destruct Cr; subst r; cbn; ring. }
  assert (X2 : (if Nat.leb 1 (n - j) then ef' (n - j - 1)%nat (2 + r)%nat else 0) = match r with O => 1 | S _ => -1 end * (if Nat.ltb j n then ef j r else 0)).
  { destruct (Nat.leb_spec 1 (n - j)), (Nat.ltb_spec j n); try lia; [|ring].
    assert (Y := E j ltac:(lia) (2 + r)%nat ltac:(lia)). unfold mirror_span in Y. replace (n - 1 - j)%nat with (n - j - 1)%nat in Y by lia. rewrite Y.
    destruct Cr; subst r; cbn; ring. }
  rewrite X1, X2. ring.
Qed.

Lemma mirrored_bent b b' n D ef : mirrored b b' n -> members b n prismatic -> bent_beam b n D ef ->
  bent_beam b' n (fun i => sense i * D (mirror_dof n i)) (fun m => mirror_vec (ef (mirror_span n m))).
Proof.
  intros N HP [B H]. split.
  - intros m Hm. set (q := mirror_span n m). assert (Hq : (q < n)%nat) by (unfold q, mirror_span; lia). assert (Eq : mirror_span n q = m) by (unfold q, mirror_span; lia).
    destruct (B q Hq) as (V & M & mb & ls & ei & ga & th & y & A1 & A2 & A3 & A4 & Bq & Jq). assert (P := HP q mb Hq A1).
    destruct (mi_loads _ _ _ N ls A2) as (ls' & Els' & LM). specialize (LM q mb Hq A1). assert (Em := mi_members _ _ _ N q mb Hq A1). rewrite Eq in LM, Em.
    destruct (bent_mirror (mb_L mb) ei ga _ (imposed (loads_of ls' m)) _ (actions (mb_L mb) (loads_of ls' m)) (ef q) V M th y (pr_L _ P) Bq
      (lm_intensity _ _ _ LM) (lm_forces _ _ _ LM) (lm_moments _ _ _ LM) (lm_bow _ _ _ LM)) as (V' & M' & B').
    exists V', M', (mirror_member mb), ls', ei, ga, (fun t => - th (mb_L mb - t)), (fun t => y (mb_L mb - t)).
    split; [exact Em|]. split; [exact Els'|]. split; [exact A3|]. split; [exact A4|]. split; [exact B'|].
    assert (DE : forall p, (p < 4)%nat -> ends (fun i => sense i * D (mirror_dof n i)) m p = sense p * ends D q (mirror_end p)).
    { intros p Hp. unfold ends. assert (C : exists j r, p = (2 * j + r)%nat /\ (r < 2)%nat /\ (j < 2)%nat).
      { destruct (dof_form p) as (j & r & E & Hr). exists j, r. lia. }
      destruct C as (j & r & -> & Hr & Hj). replace (2 * m + (2 * j + r))%nat with (2 * (m + j) + r)%nat by lia. rewrite mirror_at, !sense_at by exact Hr. f_equal. f_equal.
      unfold q, mirror_span. destruct j as [|[|j]]; [| |lia]; destruct r as [|[|r]]; cbn [mirror_end Nat.mul Nat.add]; lia. }
    destruct Jq as [j1 j2 j3 j4 j5]. assert (T := pr_type _ P). cbn [mirror_member mb_type mb_L].
    assert (RT : forall p, released (mirror_type (mb_type mb)) p -> (p < 4)%nat /\ released (mb_type mb) (mirror_end p)).
    { intros p. destruct (mb_type mb) as [|[|[|[|e]]]]; [lia|intros []|cbn|cbn|lia]; intros ->; cbn; lia. }
    assert (RT' : forall p, (p = 1 \/ p = 3)%nat -> released (mb_type mb) (mirror_end p) -> released (mirror_type (mb_type mb)) p).
    { intros p Hp. destruct (mb_type mb) as [|[|[|[|e]]]]; [lia|intros []|cbn|cbn|lia]; destruct Hp as [-> | ->]; cbn; lia. }
    constructor.
    + rewrite Rminus_0_r, (DE 0%nat) by lia. change (y (mb_L mb) = 1 * ends D q 2%nat). rewrite j2. ring.
    + replace (mb_L mb - mb_L mb) with 0 by ring. rewrite (DE 2%nat) by lia. change (y 0 = 1 * ends D q 0%nat). rewrite j1. ring.
    + intros R. rewrite Rminus_0_r, (DE 1%nat) by lia. change (- th (mb_L mb) = -1 * ends D q 3%nat). rewrite j4; [ring|]. intros R'. apply R, RT'; [lia|exact R'].
    + intros R. replace (mb_L mb - mb_L mb) with 0 by ring. rewrite (DE 3%nat) by lia. change (- th 0 = -1 * ends D q 1%nat). rewrite j3; [ring|]. intros R'. apply R, RT'; [lia|exact R'].
    + intros p Rp. destruct (RT p Rp) as [Hp Rp']. rewrite mirror_vec_at by exact Hp. fold q. rewrite (j5 _ Rp'). ring.
  - intros i Hi. destruct (mirror_twice n i Hi) as (E1 & E2 & E3). set (c := mirror_dof n i) in *. destruct (mi_supports _ _ _ N c E2) as [S1 S2]. rewrite E1 in S1, S2.
    specialize (H c E2). rewrite S2, S1. destruct (prescribed b c) as [v|]; cbn [option_map].
    + rewrite H, E3. reflexivity.
    + destruct (Rlt_dec (restraint b c) 0); [rewrite H; ring|].
      assert (X := mirror_sums n ef (fun m => mirror_vec (ef (mirror_span n m)))). assert (Y : mirror_dof n c = i) by exact E1. rewrite <- Y at 1. rewrite X.
      * rewrite H, E3. unfold spring_force. rewrite S1. destruct (Rlt_dec 0 (restraint b c)); ring.
      * intros m Hm p Hp. replace (mirror_span n (mirror_span n m)) with m by (unfold mirror_span; lia). reflexivity.
      * exact E2.
Qed.

Section Mirror.
Variable gl : nat -> list (R * R).
Hypothesis G : gauss_rule gl.
Variables (ill ill2 : nat -> mat -> bool) (a a2 : analysis) (np np2 : option nat) (ch ch2 : bool) (r r2 : analysis) (o o2 : output).
Hypothesis N : mirrored (an_beam a) (an_beam a2) (an_n a).
Hypothesis EN : an_n a2 = an_n a.
Hypothesis HP : members (an_beam a) (an_n a) prismatic.
Hypothesis HX : exact_loads (an_beam a) (an_n a).
Hypothesis HX2 : exact_loads (an_beam a2) (an_n a2).
Hypothesis H1 : analyze_core gl ill a np ch = (r, Ok o).
Hypothesis H2 : analyze_core gl ill2 a2 np2 ch2 = (r2, Ok o2).

Lemma mirroring : (forall i, (i < an_ndof a)%nat -> o_d o2 (mirror_dof (an_n a) i) = sense i * o_d o i) /\
  (forall m e e' p, (m < an_n a)%nat -> member_forces gl (an_beam a) (o_d o) m = Ok e -> member_forces gl (an_beam a2) (o_d o2) (mirror_span (an_n a) m) = Ok e' ->
     (p < 4)%nat -> e' p = sense p * e (mirror_end p)).
Proof.
  destruct (analysis_exact gl G ill a np ch r o HP HX H1) as (ef & B & F). assert (B' := mirrored_bent _ _ _ _ _ N HP B).
  assert (HP2 : members (an_beam a2) (an_n a2) prismatic).
  { intros m mb Hm Em. rewrite EN in Hm. assert (Hq : (mirror_span (an_n a) m < an_n a)%nat) by (unfold mirror_span; lia).
    destruct (proj1 B _ Hq) as (V & M & mq & _ & _ & _ & _ & _ & Eq & _). assert (Q := mi_members _ _ _ N _ mq Hq Eq).
    replace (mirror_span (an_n a) (mirror_span (an_n a) m)) with m in Q by (unfold mirror_span; lia). rewrite Em in Q. inversion Q; subst mb.
    destruct (HP _ mq Hq Eq) as [q1 q2 q3 q4 q5]. constructor; cbn; try assumption. destruct (mb_type mq) as [|[|[|[|e]]]]; cbn; lia. }
  rewrite <- EN in B'. destruct (analysis_only gl G ill2 a2 np2 ch2 r2 o2 _ _ HP2 HX2 H2 B') as (OD & OF). unfold an_ndof in OD. rewrite EN in OD, OF. split.
  - intros i Hi. destruct (mirror_twice (an_n a) i Hi) as (E1 & E2 & E3). rewrite <- OD by exact E2. rewrite E1, E3. reflexivity.
  - intros m e e' p Hm He He' Hp. rewrite <- (OF (mirror_span (an_n a) m) e' ltac:(unfold mirror_span; lia) He' p Hp).
    replace (mirror_span (an_n a) (mirror_span (an_n a) m)) with m by (unfold mirror_span; lia). rewrite mirror_vec_at by exact Hp. f_equal.
    apply (F m e Hm He). destruct p as [|[|[|p]]]; cbn; lia.
Qed.
Lemma mirroring_reactions : settles_supports (an_beam a) -> settles_supports (an_beam a2) ->
  forall i, (i < an_ndof a)%nat -> reported (an_beam a2) o2 (mirror_dof (an_n a) i) = sense i * reported (an_beam a) o i.
Proof.
  intros S1 S2 i Hi. destruct (analyze_reactions _ _ _ _ _ _ _ H1 S1) as (f & F1 & R1). destruct (analyze_reactions _ _ _ _ _ _ _ H2 S2) as (f2 & F2 & R2).
  unfold an_ndof in *. rewrite R1 by exact Hi. rewrite R2 by (rewrite EN; apply mirror_twice; exact Hi). rewrite EN in F2 |- *.
  destruct mirroring as (_ & I1). apply mirror_sums; [|exact Hi]. intros m Hm p Hp.
  destruct (state_forces gl _ _ _ _ (F1 m Hm)) as (em & Em & Qm). destruct (state_forces gl _ _ _ _ (F2 (mirror_span (an_n a) m) ltac:(unfold mirror_span; lia))) as (em' & Em' & Qm').
  rewrite mirror_vec_at by exact Hp. rewrite Qm, Qm'. exact (I1 m em em' p Hm Em Em' Hp).
Qed.
End Mirror.

(** A two-span beam under unsymmetric loads and an imposed curvature, and its mirror image. *)
Definition east_rows : list row := [Row 1 1 [10]; Row 2 5 [2; 6; 1; 4]; Row 2 4 [7; 2]; Row 1 6 [1; 2]].
Definition west_rows : list row := [Row 2 1 [10]; Row 1 5 [6; 2; 1; 4]; Row 1 4 [-7; 4]; Row 2 6 [9; -2]].
Definition east : analysis := with_beam sample (set_loads sample_beam east_rows).
Definition west_beam : beam :=
  {| b_lengths := [6; 4]; b_EIs := [RConst 2; RConst 2]; b_GAv := [None; None]; b_kf := [None; None];
     b_types := [1%nat; 1%nat]; b_nspans := 2; b_length := 0 + 6 + 4; b_terminal := [0; 0 + 6; 0 + 6 + 4];
     b_R := [3; 0; -1; 0; -1; -1]; b_D := [None; None; None; None; None; None]; b_LM := west_rows; b_version := 2 |}.
Definition west : analysis := {| an_beam := west_beam; an_n := 2; an_npts := 100; an_checked := None; an_out := None |}.
Definition west_ctor : ctor :=
  {| ct_L := [6; 4]; ct_EI := EIAll (RConst 2); ct_R := Some [3; 0; -1; 0; -1; -1]; ct_LM := Some west_rows;
     ct_types := [EtNum [1%Z]; EtNum [1%Z]]; ct_D := None; ct_sup := None; ct_GAv := GNone; ct_kf := KNone |}.
Lemma west_init : analysis_init west_ctor = Ok west.
Proof. reflexivity. Qed.
Lemma east_prismatic : members (an_beam east) 2 prismatic.
Proof.
  intros m mb Hm Em. two m; cbv in Em; injection Em as <-; constructor; cbn; try lra; try lia; try reflexivity; try (eexists; split; [reflexivity|lra]); left; reflexivity.
Qed.
Lemma west_prismatic : members west_beam 2 prismatic.
Proof.
  intros m mb Hm Em. two m; cbv in Em; injection Em as <-; constructor; cbn; try lra; try lia; try reflexivity; try (eexists; split; [reflexivity|lra]); left; reflexivity.
Qed.
Lemma east_loads : exact_loads (an_beam east) 2.
Proof.
  intros m mb ls Hm Em El. injection El as <-. two m; cbv in Em; injection Em as <-; cbn; repeat (apply Forall_cons || apply Forall_nil); unfold exact_load, within_member; cbn; repeat split; try lra; try lia.
Qed.
Lemma west_loads : exact_loads west_beam 2.
Proof.
  intros m mb ls Hm Em El. injection El as <-. two m; cbv in Em; injection Em as <-; cbn; repeat (apply Forall_cons || apply Forall_nil); unfold exact_load, within_member; cbn; repeat split; try lra; try lia.
Qed.
Lemma east_runs ill : exists o, snd (analyze_core sample_gl ill east None false) = Ok o.
Proof. apply (sample_runs ill east_rows). sample_wf. Qed.
Lemma west_runs ill : exists o, snd (analyze_core sample_gl ill west None false) = Ok o.
Proof.
  apply analyze_solves.
  - exact gauss2_rule.
  - split; [cbn; lia|]. split; [cbn; lia|]. eexists. split; [reflexivity|]. intros m Hm. cbn [an_n west] in Hm. two m; do 3 eexists; repeat (split; [reflexivity|]); reflexivity.
  - intros m mb Hm Em. apply prismatic_sound. exact (west_prismatic m mb Hm Em).
  - intros (rf & i & _ & Hi & _ & C & _). apply C. cbn in Hi. do 6 (destruct i as [|i]; [reflexivity|]). lia.
  - apply continuous_stable.
    + exact gauss2_rule.
    + intros m mb Hm Em. split; [apply prismatic_sound; exact (west_prismatic m mb Hm Em)|]. cbn [an_n west] in Hm. two m; cbv in Em; injection Em as <-; reflexivity.
    + intros m Hm. cbn [an_n west] in Hm. two m; do 2 eexists; split; reflexivity.
    + exists 1%nat, 2%nat. split; [cbn; lia|]. split; [cbn; lia|]. split; [left; right; cbn; lra|]. right. split; [lia|]. left. right. cbn. lra.
Qed.
Lemma west_mirrored : mirrored (an_beam east) west_beam 2.
Proof.
  constructor.
  - intros m mb Hm Em. two m; cbv in Em; injection Em as <-; reflexivity.
  - intros ls Els. injection Els as <-. eexists. split; [reflexivity|]. intros m mb Hm Em. two m; cbv in Em; injection Em as <-; cbn [mb_L].
    + change ((R1 + R1) * (R1 + R1)) with 4. change (loads_of _ 0) with [LUDL 10; LIC [1; 2] (Some (RConst 2))]. change (loads_of _ (mirror_span 2 0)) with [LUDL 10; LIC [9; -2] (Some (RConst 2))].
      constructor; [intros t Ht; cbn; ring|apply Permutation_refl|apply Permutation_refl|].
      intros t Ht. unfold imposed, lsum, kappa_imp, polyval. cbn. ring.
    + change ((R1 + R1) * (R1 + (R1 + R1))) with 6. change (loads_of _ 1) with [LTrap 2 6 1 (Some 4); LML 7 2]. change (loads_of _ (mirror_span 2 1)) with [LTrap 6 2 1 (Some 4); LML (-7) 4].
      constructor.
      * intros t Ht. cbn. destruct (Rlt_dec t 1), (Rlt_dec (1 + 4) t), (Rlt_dec (6 - t) 1), (Rlt_dec (1 + 4) (6 - t)); lra.
      * apply Permutation_refl.
      * cbn. replace (6 - 2) with 4 by ring. apply Permutation_refl.
      * intros t Ht. unfold imposed, lsum. cbn. ring.
  - intros i Hi. assert (i < 6)%nat by exact Hi. do 6 (destruct i as [|i]; [split; reflexivity|]). lia.
Qed.
Lemma east_settles : settles_supports (an_beam east).
Proof. apply sample_settles. Qed.
Lemma west_settles : settles_supports west_beam.
Proof. intros i H. exfalso. apply H. unfold prescribed. cbn. do 6 (destruct i as [|i]; [reflexivity|]). destruct i; reflexivity. Qed.
