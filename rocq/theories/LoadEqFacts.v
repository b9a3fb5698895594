(** Facts for C88, part one: what a change of the loads of a member can do to the results. *)
From Coq Require Import Lia ZArith Permutation FunctionalExtensionality.
From Verif Require Import Base BaseFacts Linalg SectionModel FlexModel LoadModel LoadSpec FoundationModel ElementModel UtilsModel BeamModel AnalysisModel AnalysisFacts LinearFacts SuperFacts ResultsModel ResultsFacts CombFacts LoadEqSpec.
Open Scope R_scope.

Lemma foldM_mono {A S} (f g : S -> A -> result S) : forall l s v, (forall s a x, In a l -> f s a = Ok x -> g s a = Ok x) -> foldM f l s = Ok v -> foldM g l s = Ok v.
Proof.
  induction l as [|a l IH]; intros s v H E; [exact E|]. cbn [foldM] in *. apply rbind_ok in E as (y & Ey & E).
  rewrite (H s a y (or_introl eq_refl) Ey). cbn [rbind]. apply IH; [|exact E]. intros s' a' x Ha. apply H. right. exact Ha.
Qed.

Section S.
Variables (gl : nat -> list (R * R)) (ill : nat -> mat -> bool).

Definition same_on (m : member) (l1 l2 : list load) : Prop :=
  (forall v, span_ref gl m l1 = Ok v -> span_ref gl m l2 = Ok v) /\
  (forall f d npts sp r, member_results gl m l1 f d npts sp = Ok r -> member_results gl m l2 f d npts sp = Ok r).
Definition swaps (b : beam) (A B : list row) : Prop := forall p, parsed_loads (set_loads b A) = Ok p ->
  exists q, parsed_loads (set_loads b B) = Ok q /\ forall i m, (i < b_nspans b)%nat -> member_at b i = Ok m -> same_on m (loads_of p i) (loads_of q i).

Section One.
Variables (a : analysis) (A B : list row).
Hypothesis HN : an_n a = b_nspans (an_beam a).
Hypothesis HS : swaps (an_beam a) A B.
Local Notation bA := (set_loads (an_beam a) A).
Local Notation bB := (set_loads (an_beam a) B).

Lemma swap_forces f : an_forces gl bA (an_n a) = Ok f -> an_forces gl bB (an_n a) = Ok f.
Proof.
  unfold an_forces. intros E. apply rbind_ok in E as (p & P & E). destruct (HS p P) as (q & Q & HL). rewrite Q. cbn [rbind].
  refine (foldM_mono _ _ _ _ _ _ E). intros s i x Hi Ex. apply in_seq in Hi. apply rbind_ok in Ex as (m & Em & Ex). apply rbind_ok in Ex as (r & Er & Ex).
  change (member_at bB i) with (member_at bA i). rewrite Em. cbn [rbind]. destruct (HL i m) as [H1 _]; [lia|exact Em|]. rewrite (H1 r Er). exact Ex.
Qed.

Lemma swap_ends d i v : (i < an_n a)%nat -> member_forces gl bA d i = Ok v -> member_forces gl bB d i = Ok v.
Proof.
  intros Hi. unfold member_forces. intros E. apply rbind_ok in E as (p & P & E). destruct (HS p P) as (q & Q & HL). rewrite Q. cbn [rbind].
  apply rbind_ok in E as (m & Em & E). change (member_at bB i) with (member_at bA i). rewrite Em. cbn [rbind]. apply rbind_ok in E as (k & Ek & E). rewrite Ek. cbn [rbind].
  apply rbind_ok in E as (r & Er & E). destruct (HL i m) as [H1 _]; [lia|exact Em|]. rewrite (H1 r Er). exact E.
Qed.

Lemma swap_members d ndof npts sps v : member_analysis gl bA d ndof npts sps = Ok v -> member_analysis gl bB d ndof npts sps = Ok v.
Proof.
  unfold member_analysis. intros E. apply rbind_ok in E as (p & P & E). destruct (HS p P) as (q & Q & HL). rewrite Q. cbn [rbind].
  apply rbind_ok in E as (st & Est & E). change (b_nspans bB) with (b_nspans bA). erewrite foldM_mono; [exact E| |exact Est]. clear E Est.
  intros s i x Hi Ex. apply in_seq in Hi. change (b_nspans bA) with (b_nspans (an_beam a)) in Hi. apply rbind_ok in Ex as (m & Em & Ex).
  change (member_at bB i) with (member_at bA i). rewrite Em. cbn [rbind]. destruct (Nat.ltb _ _); [discriminate|].
  apply rbind_ok in Ex as (f & Ef & Ex). rewrite (swap_ends d i f) by (lia || exact Ef). cbn [rbind].
  apply rbind_ok in Ex as (r & Er & Ex). destruct (HL i m) as [_ H2]; [lia|exact Em|]. rewrite (H2 _ _ _ _ _ Er). exact Ex.
Qed.

Lemma swap_core npts check a1 o : analyze_core gl ill (with_beam a bA) npts check = (a1, Ok o) ->
  analyze_core gl ill (with_beam a bB) npts check = (with_beam a1 bB, Ok o).
Proof.
  unfold analyze_core. cbv zeta.
  set (xA := match npts with Some p => if Nat.ltb 3 p then with_npts (with_beam a bA) p else with_beam a bA | None => with_beam a bA end).
  set (xB := match npts with Some p => if Nat.ltb 3 p then with_npts (with_beam a bB) p else with_beam a bB | None => with_beam a bB end).
  assert (X : xB = with_beam xA bB /\ an_beam xA = bA /\ an_n xA = an_n a).
  { unfold xA, xB. destruct npts as [p|]; [destruct (Nat.ltb 3 p)|]; repeat split; reflexivity. }
  clearbody xA xB. destruct X as (-> & EB & EN). cbn [with_beam an_beam an_n an_checked].
  change (an_ndof (with_beam xA bB)) with (an_ndof xA). rewrite EB, EN.
  destruct (an_forces gl bA (an_n a)) as [f|e] eqn:F; cbn [rbind]; [|discriminate]. rewrite (swap_forces f F). cbn [rbind].
  change (b_R bB) with (b_R bA). change (b_D bB) with (b_D bA). change (b_version bB) with (b_version bA).
  destruct (an_validate _ _ _ _); cbn [rbind]; [|discriminate].
  change (an_assemble gl bB (an_n a)) with (an_assemble gl bA (an_n a)). destruct (an_assemble gl bA (an_n a)) as [k|]; cbn [rbind]; [|discriminate].
  destruct (negb check || opt_eqb (an_checked xA) (b_version bA)).
  - intros E. pose proof (f_equal fst E) as E1. pose proof (f_equal snd E) as E2. cbn [fst snd] in E1, E2. subst a1. apply f_equal2; [reflexivity|exact E2].
  - destruct (check_stability _ _ _ _ _) as [[]|]; [|discriminate]. intros E. pose proof (f_equal fst E) as E1. pose proof (f_equal snd E) as E2. cbn [fst snd] in E1, E2. subst a1. apply f_equal2; [reflexivity|exact E2].
Qed.

Lemma swap_outcome sps npts check a1 r : analyze gl ill (with_beam a bA) sps npts check = (a1, Ok r) ->
  analyze gl ill (with_beam a bB) sps npts check = (with_beam a1 bB, Ok r).
Proof.
  unfold analyze. destruct (analyze_core gl ill (with_beam a bA) npts check) as [x [o|e]] eqn:E; [|discriminate]. rewrite (swap_core _ _ _ _ E).
  intros H. injection H as <- H. apply f_equal. change (an_ndof (with_beam x bB)) with (an_ndof x). cbn [with_beam an_beam an_npts].
  destruct (analyze_core_state _ _ _ _ _ _ _ E) as (EB & _). cbn [with_beam an_beam] in EB. rewrite EB in H.
  unfold beam_results in *. apply rbind_ok in H as (v & Ev & H). rewrite (swap_members _ _ _ _ _ Ev). exact H.
Qed.
End One.
End S.
