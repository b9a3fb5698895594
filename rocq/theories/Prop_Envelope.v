(** Properties C21-C25: envelopes of sets of analyses. *)
From Coq Require Import Permutation.
From Verif Require Import Base SectionModel LoadModel BeamModel AnalysisModel ResultsModel
  EnvelopeModel EnvelopeSpec EnvelopeFacts EnvHeapModel EnvHeapSpec EnvHeapFacts.
Open Scope R_scope.

(** Two analyses on three stations with two reactions, used to show that the hypotheses
    below are met. *)
Definition run1 : bres :=
  {| br_mem := []; br_all := {| r_x := [0; 5; 10]; r_M := [0; 7; -2]; r_V := [0; 3; 0]; r_R := [0;0;0]; r_D := [0;0;0] |};
     br_D := fun _ => 0; br_R := [4; -1]; br_Rs := [] |}.
Definition run2 : bres :=
  {| br_mem := []; br_all := {| r_x := [0; 5; 10]; r_M := [0; -6; 9]; r_V := [0; -2; 1]; r_R := [0;0;0]; r_D := [0;0;0] |};
     br_D := fun _ => 0; br_R := [-3; 8]; br_Rs := [] |}.
Example runs_compatible : compatible 3 2 [run1; run2] /\ compatible 3 2 [run2].
Proof. split; repeat constructor. Qed.

(** C21: on compatible analyses an envelope is produced; it bounds every analysis and zero,
    and is attained. *)
Theorem C21_envelope_extremes : forall n s vr, vr <> [] -> compatible n s vr ->
  exists e, env_init vr = Ok e /\ e_npts e = n /\ e_nsup e = s /\ e_nres e = length vr /\ envelope_of vr e.
Proof. exact c21. Qed.
Print Assumptions C21_envelope_extremes.
Example C21_nonvacuous : exists e, env_init [run1; run2] = Ok e /\ nth 1 (e_Mmax e) 0 = 7 /\ nth 1 (e_Mmin e) 0 = -6 /\ nth 0 (e_Rmaxval e) 0 = 4.
Proof.
  destruct (C21_envelope_extremes 3 2 [run1; run2]) as (e & E & Hn & Hs & _ & [eM _ eR _]); [discriminate|apply runs_compatible|].
  exists e. split; [exact E|]. rewrite Hn in eM. rewrite Hs in eR.
  destruct (eM 1%nat) as [L S]; [repeat constructor|]. destruct (eR 0%nat) as [LR _]; [repeat constructor|].
  split; [|split].
  - apply (largest_unique _ _ _ _ L). split; [lra|]. split; [|right; exists run1; split; [left|]; reflexivity].
    intros a [<-|[<-|[]]]; cbv; lra.
  - apply (smallest_unique _ _ _ _ S). split; [lra|]. split; [|right; exists run2; split; [right; left|]; reflexivity].
    intros a [<-|[<-|[]]]; cbv; lra.
  - apply (largest_unique _ _ _ _ LR). split; [lra|]. split; [|right; exists run1; split; [left|]; reflexivity].
    intros a [<-|[<-|[]]]; cbv; lra.
Qed.

(** C22: coincident effects are those of an analysis that attains the extreme. *)
Theorem C22_coincident_effects : forall vr e, env_init vr = Ok e -> coincident vr e.
Proof. exact c22. Qed.
Print Assumptions C22_coincident_effects.
Example C22_nonvacuous : exists e, env_init [run1; run2] = Ok e /\ nth 1 (e_Mmax e) 0 <> 0 /\ nth 1 (e_VcoMmax e) 0 = 3.
Proof.
  destruct C21_nonvacuous as (e & E & H1 & _). exists e. split; [exact E|]. rewrite H1. split; [lra|].
  pose proof (co_Mmax _ _ (C22_coincident_effects _ _ E)) as C.
  destruct (C21_envelope_extremes 3 2 [run1; run2]) as (e' & E' & Hn & _); [discriminate|apply runs_compatible|].
  rewrite E in E'. injection E' as <-. rewrite Hn in C. specialize (C 1%nat). rewrite H1 in C.
  assert (C0 : companion (M_at 1) (V_at 1) [run1; run2] 7 (nth 1 (e_VcoMmax e) 0)) by (apply C; repeat constructor).
  destruct (C0 ltac:(lra)) as (a & [<-|[<-|[]]] & A1 & A2); [rewrite <- A2; reflexivity|].
  unfold M_at in A1. cbn in A1. lra.
Qed.

(** C23: merging envelopes gives what enveloping all the analyses together gives. *)
Theorem C23_augment_is_concatenation : forall n s A B, A <> [] -> B <> [] -> compatible n s A -> compatible n s B ->
  exists a b m e, env_init A = Ok a /\ env_init B = Ok b /\ augment a b = Ok m /\ env_init (A ++ B) = Ok e /\
    same_extremes m e /\ same_coincidents m e.
Proof. exact c23_augment. Qed.
Print Assumptions C23_augment_is_concatenation.
Theorem C23_combine_is_concatenation : forall n s vs, vs <> [] -> Forall (fun v => v <> [] /\ compatible n s v) vs ->
  exists es em e, Forall2 (fun v x => env_init v = Ok x) vs es /\ combine_env es MEnvelope = Ok em /\
    env_init (concat vs) = Ok e /\ same_extremes em e /\ same_coincidents em e.
Proof. exact c23_combine. Qed.
Print Assumptions C23_combine_is_concatenation.
Example C23_nonvacuous : Forall (fun v => v <> [] /\ compatible 3 2 v) [[run1]; [run2; run1]; [run2]].
Proof. repeat constructor; discriminate. Qed.

(** The order in which envelopes are combined does not change the extremes. *)
Theorem C23_merge_order : forall n s vs ws es fs a b, Forall (fun v => v <> [] /\ compatible n s v) vs ->
  Forall2 (fun v x => env_init v = Ok x) vs es -> Forall2 (fun v x => env_init v = Ok x) ws fs ->
  Permutation es fs -> Permutation vs ws ->
  combine_env es MEnvelope = Ok a -> combine_env fs MEnvelope = Ok b -> same_extremes a b.
Proof. exact c23_order. Qed.
Print Assumptions C23_merge_order.
Example C23_merge_order_nonvacuous : exists e1 e2 a b, env_init [run1] = Ok e1 /\ env_init [run2] = Ok e2 /\
  combine_env [e1; e2] MEnvelope = Ok a /\ combine_env [e2; e1] MEnvelope = Ok b.
Proof.
  destruct (C23_combine_is_concatenation 3 2 [[run1]; [run2]]) as (es & a & _ & F & Ea & _); [discriminate|repeat constructor; discriminate|].
  destruct (C23_combine_is_concatenation 3 2 [[run2]; [run1]]) as (fs & b & _ & G & Eb & _); [discriminate|repeat constructor; discriminate|].
  inversion F as [|? e1 ? ? E1 F1]; subst. inversion F1 as [|? e2 ? ? E2 F2]; subst. inversion F2; subst.
  inversion G as [|? g1 ? ? G1 G2]; subst. inversion G2 as [|? g2 ? ? G3 G4]; subst. inversion G4; subst.
  exists e1, e2, a, b. rewrite E2 in G1. injection G1 as <-. rewrite E1 in G3. injection G3 as <-. auto.
Qed.

(** Algebra of [augment] on arbitrary envelopes, and when it succeeds. *)
Theorem C23_augment_succeeds_iff : forall a b, (exists m, augment a b = Ok m) <-> e_npts a = e_npts b /\ e_nsup a = e_nsup b.
Proof. exact augment_ok_iff. Qed.
Print Assumptions C23_augment_succeeds_iff.
Theorem C23_augment_commutative : forall a b m1 m2, augment a b = Ok m1 -> augment b a = Ok m2 -> same_extremes m1 m2.
Proof. exact augment_comm. Qed.
Print Assumptions C23_augment_commutative.
Theorem C23_augment_idempotent : forall a m, augment a a = Ok m -> same_extremes m a.
Proof. exact augment_idem. Qed.
Print Assumptions C23_augment_idempotent.
Theorem C23_augment_associative : forall a b c ab bc m1 m2,
  augment a b = Ok ab -> augment ab c = Ok m1 -> augment b c = Ok bc -> augment a bc = Ok m2 -> same_extremes m1 m2.
Proof. exact augment_assoc. Qed.
Print Assumptions C23_augment_associative.
Example C23_algebra_nonvacuous : exists a b m, env_init [run1] = Ok a /\ env_init [run2] = Ok b /\ augment a b = Ok m /\ nth 2 (e_Mmax m) 0 = 9.
Proof.
  destruct (C23_augment_is_concatenation 3 2 [run1] [run2]) as (a & b & m & e & E1 & E2 & E3 & E4 & S & _); [discriminate|discriminate|repeat constructor|repeat constructor|].
  exists a, b, m. split; [exact E1|]. split; [exact E2|]. split; [exact E3|].
  destruct S as (_ & _ & _ & _ & -> & _).
  destruct (C21_envelope_extremes 3 2 [run1; run2]) as (e' & E' & Hn & _ & _ & [eM _ _ _]); [discriminate|apply runs_compatible|].
  cbn [app] in E4. rewrite E4 in E'. injection E' as <-. rewrite Hn in eM. destruct (eM 2%nat) as [L _]; [repeat constructor|].
  apply (largest_unique _ _ _ _ L). split; [lra|]. split; [|right; exists run2; split; [right; left|]; reflexivity].
  intros x [<-|[<-|[]]]; cbv; lra.
Qed.

(** Objects: in every program that builds, combines and updates envelopes, each object reads
    as in the value semantics of EnvHeapSpec.v, where only the receiver of [augment]/[sum]
    changes. *)
Theorem C23_objects_are_values : forall ops p, view (h_run ops) p = lookup (s_run ops) p.
Proof. exact run_views. Qed.
Print Assumptions C23_objects_are_values.
(** [combine] (and so [|] and [+]) returns a new object and leaves all others unchanged. *)
Theorem C23_operands_unchanged : forall ops ps md h' r, h_combine (h_run ops) ps md = Ok (h', r) ->
  (exists es e, mapM (view (h_run ops)) ps = Ok es /\ combine_env es md = Ok e /\ view h' r = Ok e) /\
  view (h_run ops) r = Err NameError /\
  (forall p e, view (h_run ops) p = Ok e -> view h' p = Ok e).
Proof. exact combine_operands. Qed.
Print Assumptions C23_operands_unchanged.
Theorem C23_update_is_local : forall ops op p q h', op = augment \/ op = sum_env -> h_merge op (h_run ops) p q = Ok h' ->
  forall x, x <> p -> view h' x = view (h_run ops) x.
Proof. exact merge_local. Qed.
Print Assumptions C23_update_is_local.
Example C23_objects_nonvacuous : exists h' r h'', h_combine (h_run [ENew [run1]; ENew [run2]]) [0%nat; 1%nat] MEnvelope = Ok (h', r) /\
  h_merge sum_env (h_run [ENew [run1]; ENew [run2]]) 0 1 = Ok h''.
Proof.
  destruct C23_merge_order_nonvacuous as (e1 & e2 & a & b & E1 & E2 & Ea & _).
  assert (S : s_run [ENew [run1]; ENew [run2]] = [e1; e2]).
  { unfold s_run. cbn [fold_left s_exec]. rewrite E1, E2. reflexivity. }
  pose proof (combine_inv (h_run [ENew [run1]; ENew [run2]]) _ [0%nat; 1%nat] MEnvelope (run_inv _)) as C.
  rewrite S in C. cbn [mapM lookup nth_error rbind] in C. rewrite Ea in C. destruct C as (h' & C & _).
  assert (N : e_npts e1 = e_npts e2 /\ e_nsup e1 = e_nsup e2).
  { destruct (C21_envelope_extremes 3 2 [run1]) as (x & X & X1 & X2 & _); [discriminate|repeat constructor|].
    destruct (C21_envelope_extremes 3 2 [run2]) as (y & Y & Y1 & Y2 & _); [discriminate|repeat constructor|]. split; congruence. }
  assert (U : exists u, sum_env e1 e2 = Ok u) by (unfold sum_env; rewrite (sizes_eqb e1 e2 (proj1 N) (proj2 N)); eexists; reflexivity).
  destruct U as (u & U).
  destruct (merge_inv sum_env (h_run [ENew [run1]; ENew [run2]]) _ 0 1 u shaped_sum (run_inv _)) as (h'' & M & _).
  { rewrite S. exact U. }
  exists h', (length [e1; e2]), h''. split; [exact C|exact M].
Qed.

(** C24: the sum of envelopes bounds every combination of independent analyses. *)
Theorem C24_sum_bounds_combinations : forall n s vs, vs <> [] -> Forall (fun v => v <> [] /\ compatible n s v) vs ->
  exists es e, Forall2 (fun v x => env_init v = Ok x) vs es /\ combine_env es MSum = Ok e /\
    e_npts e = n /\ e_nsup e = s /\ bounds_sums vs e.
Proof. exact c24. Qed.
Print Assumptions C24_sum_bounds_combinations.
Theorem C24_sum_commutative : forall a b m1 m2, sum_env a b = Ok m1 -> sum_env b a = Ok m2 -> same_extremes m1 m2.
Proof. exact sum_comm. Qed.
Print Assumptions C24_sum_commutative.
Theorem C24_sum_associative : forall a b c ab bc m1 m2,
  sum_env a b = Ok ab -> sum_env ab c = Ok m1 -> sum_env b c = Ok bc -> sum_env a bc = Ok m2 -> same_extremes m1 m2.
Proof. exact sum_assoc. Qed.
Print Assumptions C24_sum_associative.
Example C24_nonvacuous : exists e, (forall x y, env_init [run1] = Ok x -> env_init [run1; run2] = Ok y -> combine_env [x; y] MSum = Ok e) /\
  total (M_at 2) [run1; run2] = 7 /\ 7 <= nth 2 (e_Mmax e) 0.
Proof.
  destruct (C24_sum_bounds_combinations 3 2 [[run1]; [run1; run2]]) as (es & e & F & E & Hn & _ & B); [discriminate|repeat constructor; discriminate|].
  exists e. assert (T : total (M_at 2) [run1; run2] = 7) by (cbv; lra). split; [|split; [exact T|]].
  - intros x y Ex Ey. inversion F as [|? e1 ? ? E1 F1]; subst. inversion F1 as [|? e2 ? ? E2 F2]; subst. inversion F2; subst.
    rewrite Ex in E1. injection E1 as <-. rewrite Ey in E2. injection E2 as <-. exact E.
  - destruct (B [run1; run2]) as [B1 _]; [constructor; [left; reflexivity|]; constructor; [right; left; reflexivity|constructor]|]. rewrite Hn in B1.
    destruct (B1 2%nat) as [[_ M] _]; [repeat constructor|]. rewrite T in M. exact M.
Qed.

(** C25: the extremes of the reactions are those of all inputs whatever their counts; the
    history is zeroed when the count of the last operand differs from that of the first.
    Missing for the full claim: a differing count in the middle of the sequence, for which
    the claim is false (next theorem). *)
Theorem C25_reaction_extremes : forall n s vs, vs <> [] -> Forall (fun v => v <> [] /\ compatible n s v) vs ->
  exists es e, Forall2 (fun v x => env_init v = Ok x) vs es /\ combine_env es MEnvelope = Ok e /\
    e_nsup e = s /\ forall i, (i < s)%nat ->
      largest (R_at i) (concat vs) (nth i (e_Rmaxval e) 0) /\ smallest (R_at i) (concat vs) (nth i (e_Rminval e) 0).
Proof. exact c25_extremes. Qed.
Print Assumptions C25_reaction_extremes.
Theorem C25_history_zeroed_partial : forall e0 es el md m,
  combine_env (e0 :: es ++ [el]) md = Ok m -> e_nres e0 <> e_nres el -> history_zeroed m.
Proof. exact combine_zeroes. Qed.
Print Assumptions C25_history_zeroed_partial.
Example C25_nonvacuous : exists e0 el m, env_init [run1] = Ok e0 /\ env_init [run2; run1] = Ok el /\
  combine_env (e0 :: [] ++ [el]) MEnvelope = Ok m /\ e_nres e0 <> e_nres el.
Proof.
  destruct (C23_combine_is_concatenation 3 2 [[run1]; [run2; run1]]) as (es & a & _ & F & Ea & _); [discriminate|repeat constructor; discriminate|].
  inversion F as [|? e1 ? ? E1 F1]; subst. inversion F1 as [|? e2 ? ? E2 F2]; subst. inversion F2; subst.
  exists e1, e2, a. split; [exact E1|]. split; [exact E2|]. split; [exact Ea|].
  destruct (env_sizes _ _ E1) as (_ & -> & _), (env_sizes _ _ E2) as (_ & -> & _). discriminate.
Qed.
(** Counts 2, 3, 2: the merged history is not zeroed. *)
Theorem C25_history_refuted : exists es e,
  Forall2 (fun v x => env_init v = Ok x) [[one 1; one 1]; [one 1; one 1; one 1]; [one 1; one 1]] es /\
  combine_env es MEnvelope = Ok e /\ ~ history_zeroed e.
Proof. exact c25_refute. Qed.
Print Assumptions C25_history_refuted.
