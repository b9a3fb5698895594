(** The worked beam: what its analysis returns. *)
From Coq Require Import ZArith Sorted.
From Coquelicot Require Import Coquelicot.
From Verif Require Import Base BaseFacts Linalg LinalgFacts SectionModel LoadModel VehicleModel BridgeModel FoundationModel ElementSpec AnalysisSpec FoundSpec NonlinModel NonlinSpec NonlinFacts NonlinFacts2 NonlinFacts3 NonlinFacts4 NonlinFacts5 NonlinFacts6 NonlinFacts7 NonlinFacts8 NonlinFacts9 NonlinFacts10.
Open Scope R_scope.

Lemma ex_made m : exists a, made a [4; 1] (EIOne (RConst 1)) ex_rs (NList [m; 1000]) None 0 10.
Proof.
  apply (init_ok _ _ (NScalar 1)); try (cbn; lia || exact I || reflexivity); [discriminate|repeat constructor; lra].
Qed.
Lemma ex_made2 : exists a, made a [4; 1] (EIList [RConst 1; RConst 2]) ex_rs (NScalar 1) None 0 10.
Proof.
  apply (init_ok _ _ (NList [1; 2])); try (cbn; lia || exact I || reflexivity); [discriminate|repeat constructor; lra].
Qed.
Section Run.
Variables (m : R) (a : nba).
Hypothesis Hm : 0 < m.
Hypothesis H : made a [4; 1] (EIOne (RConst 1)) ex_rs (NList [m; 1000]) None 0 10.
Let Me := is_meshed _ _ _ _ _ _ _ _ H.
Let Bc := made_bc _ _ _ _ _ _ _ _ H.
Let Ca := ex_caps m a Hm H.
Let Ep := made_EI _ _ _ _ _ _ _ _ H ex_EIpos.
Lemma ex_ratios M : M 0%nat = -1/2 -> M 1%nat = -1 -> M 2%nat = -2 -> ratio a M 0 = 1 / 2 / m /\ ratio a M 1 = 1 / m /\ ratio a M 2 = 2 / 1000.
Proof.
  intros E0 E1 E2. unfold ratio. rewrite (ex_Mp m a H), E0, E1, E2. cbn [nth]. assert (A : forall x, x < 0 -> Rabs x = - x) by (intros x Hx; apply Rabs_left; exact Hx). rewrite !A by lra. repeat split; unfold Rdiv; ring.
Qed.
Lemma ex_elastic rd k : 1 < m -> exists r, nl_analyze rd a ex_load (1/10) k 1 = Ok r /\ nr_collapsed r = false /\ nr_lambda r = 1/10 /\ hinge_nodes (nr_events r) = [] /\ nr_moments r 2%nat = -2.
Proof.
  intros Lm. destruct (ex_force m a H) as (F & EF & F3). destruct (ex_step m a H rd F k F3) as (u & _ & Q). cbv zeta in Q. destruct Q as (M0 & M1 & M2 & Q). unfold nl_analyze. rewrite EF. cbn [rbind]. rewrite Q. set (M := fun j => 0 + extract_moments a u (fun _ _ => 1) j) in *. destruct (ex_ratios M M0 M1 M2) as (R0 & R1 & R2).
  assert (Iv : / m < 1) by (rewrite <- Rinv_1; apply Rinv_lt_contravar; lra). assert (Ip : 0 < / m) by (apply Rinv_0_lt_compat; lra). assert (Sm : forall j, (j < nb_nodes a)%nat -> ratio a M j < 1). { intros j Hj. rewrite (ex_nodes _ _ _ _ _ H) in Hj. destruct j as [|[|[|j]]]; [| | |lia]; unfold Rdiv in *; lra. }
  assert (T := tracks_step a [] plast0 M (1/10) Ca (tracks_nil a)). assert (Up : snd (update_R a M plast0 (1/10)) = false). { destruct (snd (update_R a M plast0 (1/10))) eqn:E; [|reflexivity]. exfalso. apply (update_new a [] plast0 M (1/10) (tracks_nil a)) in E. destruct E as (j & Hj & G & _). specialize (Sm j Hj). lra. }
  rewrite Up. cbn [andb]. assert (Hn : hinge_nodes (pl_events (fst (update_R a M plast0 (1/10)))) = []) by (rewrite <- (tr_hn _ _ _ T), (update_old _ _ _ _ Up); reflexivity). eexists. split; [reflexivity|]. destruct (Nat.ltb 0 k && Nat.eqb (1 mod k) 0)%bool; cbn [finish nr_collapsed nr_lambda nr_events nr_moments ns_p ns_M]; repeat apply conj; try reflexivity; assumption.
Qed.
Lemma ex_hinged rd k : m = 1/2 -> exists r, nl_analyze rd a ex_load (1/10) k 1 = Ok r /\ nr_moments r 1%nat = -1 /\ nr_lambda r = 1/10 /\ apart a (hinge_nodes (nr_events r)) /\ (2 <= length (hinge_nodes (nr_events r)))%nat /\ In 1%nat (hinge_nodes (nr_events r)).
Proof.
  intros Em. destruct (ex_force m a H) as (F & EF & F3). destruct (ex_step m a H rd F k F3) as (u & _ & Q). cbv zeta in Q. destruct Q as (M0 & M1 & M2 & Q). unfold nl_analyze. rewrite EF. cbn [rbind]. rewrite Q. set (M := fun j => 0 + extract_moments a u (fun _ _ => 1) j) in *. destruct (ex_ratios M M0 M1 M2) as (R0 & R1 & R2). rewrite Em in R0, R1.
  assert (T := tracks_step a [] plast0 M (1/10) Ca (tracks_nil a)). set (p := fst (update_R a M plast0 (1/10))) in *. set (b := (snd (update_R a M plast0 (1/10)) && is_mechanism rd a (pl_hinged p))%bool).
  assert (Hi : forall j, (j < nb_nodes a)%nat -> (In j (hinge_nodes (pl_events p)) <-> 1 <= ratio a M j)). { intros j Hj. rewrite <- (tr_hn _ _ _ T), <- mem_in, (tr_hinge _ _ _ T j Hj). cbn [app]. split; [intros (t & [<-|[]] & G); exact G|intros G; exists (1/10, M); split; [left; reflexivity|exact G]]. }
  assert (N3 := ex_nodes _ _ _ _ _ H). assert (I0 : In 0%nat (hinge_nodes (pl_events p))) by (apply Hi; [lia|rewrite R0; lra]). assert (I1 : In 1%nat (hinge_nodes (pl_events p))) by (apply Hi; [lia|rewrite R1; lra]). assert (I2 : ~ In 2%nat (hinge_nodes (pl_events p))) by (rewrite Hi by lia; rewrite R2; lra).
  assert (G : apart a (hinge_nodes (pl_events p)) /\ (2 <= length (hinge_nodes (pl_events p)))%nat).
  { split.
    - assert (E0 : element_h a 0 = 4) by (unfold element_h; rewrite (ex_eL _ _ _ _ _ H); reflexivity). assert (E1 : element_h a 1 = 1) by (unfold element_h; rewrite (ex_eL _ _ _ _ _ H); reflexivity). exists 1. rewrite (ex_elems _ _ _ _ _ H). split; [exists 1%nat; split; [lia|symmetry; exact E1]|]. split; [intros e He; destruct e as [|[|e]]; [| |lia]; lra|].
      assert (W : forall x, In x (hinge_nodes (pl_events p)) -> x = 0%nat \/ x = 1%nat). { intros x Ix. assert (Hx : (x < nb_nodes a)%nat) by (apply (tr_nodes _ _ _ T), mem_in; rewrite (tr_hn _ _ _ T); exact Ix). destruct x as [|[|[|x]]]; [left; reflexivity|right; reflexivity|contradiction|lia]. }
      intros i j Ii Ij Nij. destruct (W i Ii) as [-> | ->], (W j Ij) as [-> | ->]; try congruence; rewrite !(ex_coord _ _ _ _ _ H) by lia; cbn [nth]; unfold Rabs; destruct (Rcase_abs _); lra.
    - assert (Nd : NoDup [0%nat; 1%nat]) by (repeat constructor; cbn; intuition lia). apply (NoDup_incl_length Nd). intros x [<-|[<-|[]]]; assumption. }
  destruct G as (Ga & Gl). exists (if b then finish {| ns_lam := 1 / 10; ns_step := 1; ns_p := p; ns_M := M; ns_u := fun i : nat => 0 + u i; ns_lh := []; ns_mh := [] |} (1 / 10) true else finish (if (Nat.ltb 0 k && Nat.eqb (1 mod k) 0)%bool then {| ns_lam := 1 / 10; ns_step := 1; ns_p := p; ns_M := M; ns_u := fun i : nat => 0 + u i; ns_lh := [1 / 10]; ns_mh := [M] |} else {| ns_lam := 1 / 10; ns_step := 1; ns_p := p; ns_M := M; ns_u := fun i : nat => 0 + u i; ns_lh := []; ns_mh := [] |}) (1 / 10) false). split; [reflexivity|]. destruct b; [|destruct (Nat.ltb 0 k && Nat.eqb (1 mod k) 0)%bool]; cbn [finish nr_moments nr_lambda nr_events ns_p ns_M]; repeat apply conj; try reflexivity; assumption.
Qed.
Lemma ex_collapses rd k : rank_exact rd -> m = 1/2 -> exists r, nl_analyze rd a ex_load (1/10) k 1 = Ok r /\ nr_collapsed r = true /\ apart a (hinge_nodes (nr_events r)) /\ (2 <= length (hinge_nodes (nr_events r)))%nat /\ In 1%nat (hinge_nodes (nr_events r)) /\ ~ In (2 * 1 + 1)%nat (nb_bc a) /\ nr_moments r 1%nat = -1.
Proof.
  intros Rx Em. destruct (ex_hinged rd k Em) as (r & E & M1 & _ & Ap & L & I1). exists r. split; [exact E|]. assert (N : ~ In (2 * 1 + 1)%nat (nb_bc a)) by (rewrite (ex_bc _ _ _ _ _ H); lia). split; [apply (premature rd a _ _ _ _ _ _ _ H Ca ex_load (1/10) 1%nat ex_EIpos k r 1%nat Rx E Ap L I1 N)|]. repeat apply conj; assumption.
Qed.
End Run.

Lemma collapse_false : ~ (forall rd a Ls EI rs Mp My q msz LM lmax k ms r, rank_exact rd -> made a Ls EI rs Mp My q msz -> capacities a ->
  (forall i x, (i < length Ls)%nat -> rigidity EI i x -> 0 < x) -> nl_analyze rd a LM lmax k ms = Ok r -> nr_collapsed r = true ->
  exists u, hinged_motion a (hinge_nodes (nr_events r)) u /\ sways a u).
Proof.
  intros Q. destruct (ex_made (1/2)) as (a & H). assert (Hm : 0 < 1/2) by lra. destruct (ex_collapses _ a Hm H exact_rank 1 exact_rank_ok eq_refl) as (r & E & C & _). destruct (Q _ _ _ _ _ _ _ _ _ _ _ _ _ _ exact_rank_ok H (ex_caps _ _ Hm H) ex_EIpos E C) as (u & [Hu _] & S). apply (ex_still _ _ _ _ _ H u Hu S).
Qed.
Lemma overshoot_false : ~ (forall rd a Ls EI rs Mp My q msz LM lmax k ms r, rank_exact rd -> made a Ls EI rs Mp My q msz -> capacities a ->
  (forall i x, (i < length Ls)%nat -> rigidity EI i x -> 0 < x) -> nl_analyze rd a LM lmax k ms = Ok r -> forall j, (j < nb_nodes a)%nat -> Rabs (nr_moments r j) <= nth j (nb_Mp a) 0).
Proof.
  intros Q. destruct (ex_made (1/2)) as (a & H). assert (Hm : 0 < 1/2) by lra. destruct (ex_collapses _ a Hm H exact_rank 1 exact_rank_ok eq_refl) as (r & E & _ & _ & _ & _ & _ & M1). assert (N3 := ex_nodes _ _ _ _ _ H). assert (X := Q _ _ _ _ _ _ _ _ _ _ _ _ _ _ exact_rank_ok H (ex_caps _ _ Hm H) ex_EIpos E 1%nat ltac:(lia)). rewrite M1, (ex_Mp _ _ H) in X. cbn [nth] in X. revert X. unfold Rabs. destruct (Rcase_abs _); lra.
Qed.
Lemma rigidity_false : ~ (forall a Ls EI rs Mp My q msz, made a Ls EI rs Mp My q msz -> forall e i, (e < nb_elems a)%nat -> (i < length Ls)%nat -> lies_in a e i -> rigidity EI i (nth e (nb_EI a) 0)).
Proof.
  intros Q. destruct ex_made2 as (a & H). assert (N2 := ex_elems _ _ _ _ _ H). assert (C : coord a 1 = start [4; 1] 1) by (rewrite (ex_coord _ _ _ _ _ H) by lia; rewrite ex_start by lia; reflexivity). destruct (junction_EI _ _ _ _ _ _ _ _ H 1%nat 0%nat ltac:(lia) ltac:(cbn; lia) C) as (Li & R0). assert (R1 := Q _ _ _ _ _ _ _ _ H 1%nat 1%nat ltac:(lia) ltac:(cbn; lia) Li). cbn in R0, R1. injection R0 as R0. injection R1 as R1. lra.
Qed.
