From Coq Require Import ZArith String.
From Verif Require Import Base BaseFacts Linalg LinalgFacts SectionModel LoadModel VehicleModel ElementModel ElementSpec BeamModel BeamSpec AnalysisModel AnalysisSpec ResultsModel BridgeModel RenderModel InfModel FoundationModel FoundFacts2 EnvelopeModel NonlinModel NonlinSpec ModalModel ModalSpec ModalFacts2 ModalFacts3 RestrSpec.
Local Notation length := List.length.
Open Scope R_scope.

(** ** Vibrations *)
Lemma unusual_rigid b : Forall unusual (b_R b) -> (2 * (b_nspans b + 1) <= length (b_R b))%nat -> rigid_supports b = 0%nat.
Proof.
  intros U L. unfold rigid_supports. rewrite (filter_ext_in _ (fun _ => false)); [induction (seq 0 (2 * (b_nspans b + 1))); [reflexivity|assumption]|].
  intros q Hq. apply in_seq in Hq. unfold restraint. destruct (Req_EM_T (nth q (b_R b) 0) (-1)) as [E|]; [|reflexivity]. exfalso.
  rewrite Forall_forall in U. destruct (U (nth q (b_R b) 0)) as [_ N]; [apply nth_In; lia|exact (N E)].
Qed.

(** ** Plastic analysis *)
Lemma mesh_bc_nil coords span_R sup bc : (forall r, In r span_R -> r <> -1) -> mesh_bc coords span_R sup = Ok bc -> bc = [].
Proof.
  intros U E. unfold mesh_bc in E. apply rbind_ok in E. destruct E as (ls & E & E2). injection E2 as <-.
  assert (G : forall l ls, mapM (fun i => bc_at coords span_R i (nth i sup 0)) l = Ok ls -> concat ls = []).
  { induction l as [|i l IH]; intros ls' H; cbn in H; [injection H as <-; reflexivity|].
    apply rbind_ok in H. destruct H as (v & Hv & H). apply rbind_ok in H. destruct H as (vs & Hvs & H). injection H as <-. cbn.
    rewrite (IH _ Hvs), app_nil_r. unfold bc_at in Hv. apply rbind_ok in Hv. destruct Hv as (r0 & H0 & Hv). apply rbind_ok in Hv. destruct Hv as (r1 & H1 & Hv). injection Hv as <-.
    apply get_ok in H0. apply get_ok in H1. apply nth_error_In in H0. apply nth_error_In in H1.
    destruct (Reqb_spec r0 (-1)) as [Q|]; [destruct (U _ H0 Q)|]. destruct (Reqb_spec r1 (-1)) as [Q|]; [destruct (U _ H1 Q)|]. reflexivity. }
  exact (G _ _ E).
Qed.
Definition lift : vec := fun i => if Nat.even i then 1 else 0.
Lemma lift_ends e q : (q < 4)%nat -> ends lift e q = lift q.
Proof. intros H. unfold ends, lift. rewrite Nat.even_add, Nat.even_mul. cbn. destruct (Nat.even q); reflexivity. Qed.
Lemma lift_free a Re e p : (p < 4)%nat -> end_forces (nb_k a Re e) (ends lift e) p = 0.
Proof.
  intros H. unfold end_forces, mulmv. cbn [rsum]. rewrite !lift_ends by lia. unfold lift, nb_k, nb_ke, nb_k1, nb_k2, k_FF, k_FP, k_PF.
  destruct (Rleb (Re e 1%nat) (Re e 0%nat)); destruct p as [|[|[|[|p]]]]; try lia; cbn; unfold Rdiv; ring.
Qed.
Lemma lift_kernel a Re i : (i < 2 * (nb_elems a + 1))%nat -> mulmv (2 * (nb_elems a + 1)) (nb_assemble a Re) lift i = 0.
Proof.
  intros Hi. unfold nb_assemble. rewrite chain_nodal by exact Hi. unfold nodal_sum. assert (i mod 2 < 2)%nat by (apply Nat.mod_upper_bound; lia).
  rewrite !lift_free by lia. destruct (Nat.ltb i (2 * nb_elems a)), (Nat.leb 2 i); ring.
Qed.
Lemma init_nodes Ls EI rs Mp My q h a : nba_init Ls EI rs Mp My q h = Ok a -> nb_nodes a = S (nb_elems a).
Proof.
  intros E. unfold nba_init in E. repeat (apply rbind_ok in E; destruct E as (? & _ & E)). injection E as <-. unfold nb_nodes, nb_elems. cbn. rewrite !map_length. reflexivity.
Qed.
Lemma init_bc Ls EI rs Mp My q h a : (forall r, In r rs -> r <> -1) -> nba_init Ls EI rs Mp My q h = Ok a -> nb_bc a = [].
Proof.
  intros U E. unfold nba_init in E. apply rbind_ok in E. destruct E as (ei & _ & E). apply rbind_ok in E. destruct E as (bc & Hb & E).
  repeat (apply rbind_ok in E; destruct E as (? & _ & E)). injection E as <-. cbn. exact (mesh_bc_nil _ _ _ _ U Hb).
Qed.
Lemma collapse_at_once rank Ls EI rs Mp My q h a LM lmax re ms r : (forall x, In x rs -> x <> -1) -> 0 < lmax -> (0 < ms)%nat ->
  nba_init Ls EI rs Mp My q h = Ok a -> nl_analyze rank a LM lmax re ms = Ok r ->
  nr_collapsed r = true /\ nr_lambda r = 0 /\ nr_events r = [] /\ (forall j, nr_moments r j = 0).
Proof.
  intros U Hl Hm Hi Hr. unfold nl_analyze in Hr. apply rbind_ok in Hr. destruct Hr as (F & _ & Hr). injection Hr as <-.
  destruct ms as [|ms]; [lia|]. cbn [increments]. destruct (Rltb_spec (ns_lam nlstate0) lmax) as [_|N]; [|cbn in N; lra].
  unfold increment_step. rewrite (init_bc _ _ _ _ _ _ _ _ U Hi). cbn [bc_matrix bc_vector fold_left ns_p nlstate0 ns_lam].
  destruct (solve _ _ _) as [u|] eqn:Es.
  - exfalso. assert (X := proj1 (solve_some_iff _ _ _) (ex_intro _ u Es) lift). unfold nb_dof in X. rewrite (init_nodes _ _ _ _ _ _ _ _ Hi) in X.
    replace (2 * S (nb_elems a))%nat with (2 * (nb_elems a + 1))%nat in X by lia. specialize (X (fun i Hi => lift_kernel a _ i Hi) 0%nat ltac:(lia)). unfold lift in X. cbn in X. lra.
  - cbn. split; [reflexivity|]. split; [ring|]. auto.
Qed.

(** ** Influence lines *)
Lemma where_nil x l : (forall r, In r l -> r <> x) -> where_eq x l = [].
Proof.
  intros H. unfold where_eq. rewrite (filter_ext_in _ (fun _ => false)); [induction (seq 0 (length l)); [reflexivity|assumption]|].
  intros i Hi. apply in_seq in Hi. destruct (Reqb_spec (nth i l 0) x) as [E|]; [|reflexivity]. destruct (H (nth i l 0)); [apply nth_In; lia|exact E].
Qed.
Lemma evens_in {A} (l : list A) x : In x (evens l) -> In x l.
Proof.
  assert (G : forall n l, (length l <= n)%nat -> In x (evens l) -> In x l).
  { induction n as [|n IH]; intros m Hm I; [destruct m; [destruct I|cbn in Hm; lia]|]. destruct m as [|a [|c m]]; [destruct I|exact I|].
    destruct I as [->|I]; [left; reflexivity|]. right; right. apply IH; [cbn in Hm; lia|exact I]. }
  exact (G (length l) l (Nat.le_refl _)).
Qed.
Lemma no_reaction_line gl ill ints s poi eff : il_res s <> [] -> (forall r, In r (b_R (an_beam (il_a s))) -> r <> -1) -> (exists ik, station_index (an_beam (il_a s)) (il_res s) poi = Ok ik) ->
  effect_of eff = EffR -> snd (get_il gl ill ints s poi eff) = Err ValueError.
Proof.
  intros N U (ik & K) E. unfold get_il. destruct (il_res s) as [|r0 l] eqn:R; [destruct (N eq_refl)|]. rewrite <- R in *. cbn [snd rbind]. rewrite K. cbn [rbind]. rewrite E.
  unfold support_index. rewrite where_nil by (intros r I; apply U, evens_in, I). reflexivity.
Qed.
(** A single built-in span whose left support has such a code: the line of the right reaction
    is read from the list position of the left fixing moment. *)
Lemma wrong_support_index b L r0 : 0 < L -> unusual r0 -> b_lengths b = [L] -> b_R b = [r0; -1; -1; -1] -> support_index true b L 0 = Ok 1%nat.
Proof.
  intros H1 [Hr Hn] EL ER. unfold support_index. rewrite EL, ER. cbn [evens].
  assert (W : where_eq (-1) [r0; -1] = [1%nat]).
  { unfold where_eq. cbn. destruct (Reqb_spec r0 (-1)); [contradiction|]. destruct (Reqb_spec (-1) (-1)); [reflexivity|lra]. }
  rewrite W. cbn [cumsum_from mapM get nth_error rbind map].
  assert (A : forall x : R, BridgeModel.argmin [x] = 0%nat) by (intros x; unfold BridgeModel.argmin, row_min; cbn; destruct (Reqb_spec x x); [reflexivity|congruence]). rewrite A. cbn [get nth_error rbind].
  assert (W2 : where_eq (0 + L) [0; 0 + L] = [1%nat]).
  { unfold where_eq. cbn [length seq filter nth]. destruct (Reqb_spec 0 (0 + L)); [lra|]. destruct (Reqb_spec (0 + L) (0 + L)); [|lra]. reflexivity. }
  rewrite W2. cbn [get nth_error rbind mask_from Nat.mul Nat.add].
  destruct (Reqb_spec r0 (-1)); [contradiction|]. destruct (Reqb_spec (-1) (-1)); [|lra]. reflexivity.
Qed.
Lemma mapM_get_nth {A B} (f : A -> list B) k l v : mapM (fun r => get (f r) k) l = Ok v <-> Forall2 (fun r x => nth_error (f r) k = Some x) l v.
Proof.
  split.
  - revert v. induction l as [|r t IH]; intros v G; cbn in G; [injection G as <-; constructor|].
    apply rbind_ok in G. destruct G as (x & Hx & G). apply rbind_ok in G. destruct G as (xs & Hxs & G). injection G as <-. constructor; [apply get_ok, Hx|apply IH, Hxs].
  - intros F. induction F as [|r x t v E F IH]; [reflexivity|]. cbn. unfold get at 1. rewrite E. cbn. rewrite IH. reflexivity.
Qed.
Lemma wrong_line gl ill s L r0 eff pos eta : 0 < L -> unusual r0 -> il_res s <> [] -> b_lengths (an_beam (il_a s)) = [L] -> b_R (an_beam (il_a s)) = [r0; -1; -1; -1] ->
  effect_of eff = EffR -> snd (get_il gl ill true s L eff) = Ok (pos, eta) -> Forall2 (fun r x => nth_error (br_R r) 1 = Some x) (il_res s) eta.
Proof.
  intros H1 Hr N EL ER E G. unfold get_il in G. destruct (il_res s) as [|q0 l] eqn:R; [destruct (N eq_refl)|]. rewrite <- R in *. cbn [snd rbind] in G.
  apply rbind_ok in G. destruct G as (ik & _ & G). rewrite E in G. rewrite (wrong_support_index _ L r0 H1 Hr EL ER) in G. cbn [rbind] in G.
  apply rbind_ok in G. destruct G as (et & G & Q). assert (et = eta) by congruence. subst et. apply mapM_get_nth. exact G.
Qed.

(** ** Schematics *)
Lemma nothing_drawn xs rs : Forall unusual rs -> length rs = (2 * length xs)%nat -> infer_supports xs rs = Ok [].
Proof.
  intros U L. assert (G : forall i, (i < length xs)%nat -> exists v r, get rs (2 * i) = Ok v /\ get rs (2 * i + 1) = Ok r /\ unusual v /\ unusual r).
  { intros i Hi. rewrite Forall_forall in U. exists (nth (2 * i) rs 0), (nth (2 * i + 1) rs 0). unfold get. rewrite !(nth_error_nth' rs 0) by lia. repeat split; try (apply U, nth_In; lia). }
  unfold infer_supports. assert (A : forall is, (forall i, In i is -> (i < length xs)%nat) -> any_fixed rs is = Ok false).
  { induction is as [|i t IH]; intros H; [reflexivity|]. cbn [any_fixed]. destruct (G i (H i (or_introl eq_refl))) as (v & r & -> & _ & [_ Nv] & _). cbn [rbind]. destruct (Reqb_spec v (-1)); [contradiction|]. apply IH. intros j I. apply H. right. exact I. }
  rewrite A by (intros i I; apply in_seq in I; lia). cbn [rbind].
  assert (B : forall is st, (forall i, In i is -> (i < length xs)%nat) -> foldM (support_step xs rs) is st = Ok st).
  { induction is as [|i t IH]; intros [l p] H; [reflexivity|]. cbn [foldM]. unfold support_step at 1. destruct (G i (H i (or_introl eq_refl))) as (v & r & -> & -> & [Lv Nv] & _). cbn [rbind].
    unfold support_kind. destruct (Reqb_spec v (-1)); [contradiction|]. cbn [andb]. destruct (Rltb_spec 0 v); [lra|]. destruct (Reqb_spec v 0); [lra|]. cbn [andb fst snd rbind]. apply IH. intros j I. apply H. right. exact I. }
  rewrite B by (intros i I; apply in_seq in I; lia). reflexivity.
Qed.
