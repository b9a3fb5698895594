(** Analyses of one structure under different loads have results of the same shape. *)
From Coq Require Import Lia.
From Verif Require Import Base BaseFacts Linalg SectionModel FlexModel LoadModel LoadSpec FoundationModel ElementModel UtilsModel BeamModel AnalysisModel AnalysisSpec
  AnalysisFacts2 ResultsModel ResultsSpec ResultsFacts EnvelopeModel EnvelopeSpec EnvelopeFacts LoadCasesModel CombCases.
Open Scope R_scope.
Local Notation length := List.length.

Definition sound_grid (b : beam) : Prop := members b (b_nspans b) (fun mb => 0 < mb_L mb /\ mb_kf mb = None).

Section Shape.
Variable gl : nat -> list (R * R).
Variable ill : nat -> mat -> bool.

Lemma diagram_lengths a sps npts check a' br : analyze gl ill a sps npts check = (a', Ok br) -> (0 < an_npts a')%nat -> sound_grid (an_beam a) ->
  length (r_M (br_all br)) = length (r_x (br_all br)) /\ length (r_V (br_all br)) = length (r_x (br_all br)).
Proof.
  intros E P MM. destruct (analyze_split _ _ _ _ _ _ _ _ E) as (_ & _ & _ & -> & _). cbn [mres_concat r_x r_M r_V].
  assert (L : forall r, In r (br_mem br) -> length (r_M r) = length (r_x r) /\ length (r_V r) = length (r_x r)).
  { intros r Hr. apply In_nth_error in Hr. destruct Hr as (i & Hr).
    destruct (mem_at gl ill a sps npts check a' br E P MM i r Hr) as (_ & _ & _ & _ & (V & M & C) & _). destruct (mc_len _ _ _ _ C) as (A & B & _). auto. }
  induction (br_mem br) as [|r l IH]; [auto|]. destruct (L r (or_introl eq_refl)) as [A B]. destruct IH as [C D]; [intros k Hk; apply L; right; exact Hk|].
  cbn [flat_map]. rewrite !app_length. lia.
Qed.
Lemma reaction_length a sps npts check a' br : analyze gl ill a sps npts check = (a', Ok br) ->
  length (br_R br) = length (filter (fun i => Rltb (restraint (an_beam a) i) 0) (seq 0 (2 * (an_n a + 1)))).
Proof.
  intros E. destruct (analyze_split _ _ _ _ _ _ _ _ E) as (o & Ho & _ & _ & _ & -> & _). destruct (core_inv _ _ _ _ _ _ _ Ho) as ((kb & rf & S) & _).
  rewrite (sv_oR _ _ _ _ _ _ S), map_length. reflexivity.
Qed.
Lemma same_shape a1 sps npts check a1' r1 a2 lm npts2 check2 a2' r2 :
  analyze gl ill a1 sps npts check = (a1', Ok r1) -> analyze gl ill a2 sps npts2 check2 = (a2', Ok r2) ->
  an_beam a2 = set_loads (an_beam a1) lm -> an_n a2 = an_n a1 -> an_npts a2' = an_npts a1' ->
  r_x (br_all r2) = r_x (br_all r1) /\ length (br_R r2) = length (br_R r1).
Proof.
  intros E1 E2 EB EN EP. split.
  - refine (proj2 (shared_stations _ _ _ _ _ _ _ _ _ _ _ _ _ _ _ E2 E1 EP _ _ _)); rewrite EB; reflexivity.
  - rewrite (reaction_length _ _ _ _ _ _ E2), (reaction_length _ _ _ _ _ _ E1), EB, EN. reflexivity.
Qed.

(** A load-case run: every analysis starts from the same model. *)
Lemma add_spans_lengths (P : R -> Prop) xs : forall b b', add_spans b xs = Ok b' ->
  (forall l e t g k, In (l, e, t, g, k) xs -> P l) -> Forall P (b_lengths b) -> Forall P (b_lengths b').
Proof.
  unfold add_spans. induction xs as [|[[[[l e] t] g] k] xs IH]; intros b b' H HX HK; cbn [foldM] in H.
  - injection H as <-. exact HK.
  - apply rbind_ok in H as (b1 & H1 & H). apply (IH b1 b' H); [intros; eapply HX; right; eassumption|]. unfold add_span in H1.
    destruct (check_rigid e l); try discriminate. destruct (match g with Some _ => _ | None => _ end); try discriminate.
    destruct (coerce t) as [n|]; try discriminate. injection H1 as <-. cbn [b_lengths]. apply Forall_app. split; [exact HK|].
    constructor; [|constructor]. eapply HX. left. reflexivity.
Qed.
Lemma zip5_first (Ls : list R) (Es : list rigid) (Ts : list etarg) (Gs : list (option rigid)) (Ks : list (option R)) l e t g k :
  In (l, e, t, g, k) (zip5 Ls Es Ts Gs Ks) -> In l Ls.
Proof.
  revert Es Ts Gs Ks. induction Ls as [|x Ls IH]; intros [|e' Es] [|t' Ts] [|g' Gs] [|k' Ks] H; cbn in H; try contradiction.
  destruct H as [H|H]; [injection H as <- <- <- <- <-; left; reflexivity|]. right. exact (IH _ _ _ _ H).
Qed.
Lemma build_sound b lm a : build_model b lm = Ok a -> Forall (Rlt 0) (b_lengths b) -> sound_grid (an_beam a) /\ an_npts a = 100%nat.
Proof.
  intros Ha HL. destruct (build_beam _ _ _ Ha) as (_ & _ & K & _). revert Ha.
  unfold build_model, analysis_init, beam_init, ctor_R. cbn [build_ctor ct_sup ct_R ct_GAv ct_kf ct_L ct_EI ct_types ct_D ct_LM rbind].
  intros H. apply rbind_ok in H as (bb & H & E). apply rbind_ok in H as (g & Hg & H).
  apply rbind_ok in H as (k & Hk & H). apply rbind_ok in H as (b0 & Hb & H). cbn [rbind] in H.
  destruct (negb (Nat.eqb _ _)); [discriminate|]. apply rbind_ok in H as (d & Hd & H). injection H as <-. injection E as <-.
  destruct (Nat.eqb _ _); [|discriminate]. split; [|reflexivity]. intros i mb Hi Hm. split; [|exact (K i mb Hm)].
  assert (F : Forall (Rlt 0) (b_lengths b0)).
  { apply (add_spans_lengths (Rlt 0) _ _ _ Hb); [|constructor]. intros l e t g' k' Hin. rewrite Forall_forall in HL. apply HL. eapply zip5_first. exact Hin. }
  unfold member_at in Hm. apply rbind_ok in Hm as (e & _ & Hm). apply rbind_ok in Hm as (l & Hl & Hm). apply rbind_ok in Hm as (t & _ & Hm). injection Hm as <-.
  cbn [mb_L]. rewrite Forall_forall in F. apply F. apply get_ok in Hl. eapply nth_error_In. exact Hl.
Qed.
Lemma runs_compat (t : template) (npts : option nat) (ls : list (list row)) vr : Forall (Rlt 0) (b_lengths (t_beam t)) ->
  Forall2 (fun lm r => analyse_loads gl ill t lm npts = Ok r) ls vr -> exists n s, compatible n s vr.
Proof.
  intros HL F. destruct F as [|lm r ls vr E F]; [exists 0%nat, 0%nat; constructor|].
  unfold analyse_loads in E. apply rbind_ok in E as (a & Ha & E). destruct (analyze gl ill a (fun _ => []) npts true) as [a' x] eqn:EA. cbn [snd] in E. subst x.
  assert (ST : forall a a' r, analyze gl ill a (fun _ => []) npts true = (a', Ok r) -> an_npts a = 100%nat -> an_npts a' = match npts with Some p => if Nat.ltb 3 p then p else 100%nat | None => 100%nat end).
  { intros a0 a0' r0 E0 E1. destruct (analyze_split _ _ _ _ _ _ _ _ E0) as (o & Ho & _). destruct (analyze_core_state _ _ _ _ _ _ _ Ho) as (_ & _ & _ & ->). rewrite E1. reflexivity. }
  assert (PP : (0 < match npts with Some p => if Nat.ltb 3 p then p else 100%nat | None => 100%nat end)%nat).
  { destruct npts as [p|]; [|lia]. destruct (Nat.ltb_spec 3 p); lia. }
  destruct (build_sound _ _ _ Ha HL) as [SG N0]. assert (Pa := ST _ _ _ EA N0).
  assert (D := diagram_lengths _ _ _ _ _ _ EA ltac:(lia) SG).
  exists (length (r_x (br_all r))), (length (br_R r)). constructor; [intuition|].
  induction F as [|lm2 r2 ls vr E2 F IH]; constructor; [|exact IH]. clear IH F.
  unfold analyse_loads in E2. rewrite (build_other _ _ _ lm2 Ha) in E2. cbn [rbind] in E2. set (a2 := with_beam a _) in E2.
  destruct (analyze gl ill a2 (fun _ => []) npts true) as [a2' x] eqn:EA2. cbn [snd] in E2. subst x.
  assert (Pa2 := ST _ _ _ EA2 N0). assert (SG2 : sound_grid (an_beam a2)) by exact SG.
  assert (D2 := diagram_lengths _ _ _ _ _ _ EA2 ltac:(lia) SG2).
  destruct (same_shape _ _ _ _ _ _ _ lm2 _ _ _ _ EA EA2 eq_refl eq_refl ltac:(congruence)) as [X RR]. rewrite X in *. intuition.
Qed.
End Shape.
