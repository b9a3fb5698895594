(** What a run of the analysis computes, and when it succeeds. *)
From Verif Require Import Base BaseFacts Linalg LinalgFacts SectionModel FlexModel LoadModel
  FoundationModel ElementModel UtilsModel BeamModel AnalysisModel ElementSpec AnalysisSpec AnalysisFacts.
Open Scope R_scope.

Lemma mulmv_ext N k k' d d' i : (forall j, (j < N)%nat -> k i j = k' i j) -> (forall j, (j < N)%nat -> d j = d' j) ->
  mulmv N k d i = mulmv N k' d' i.
Proof. intros H1 H2. apply rsum_ext. intros j Hj. rewrite H1, H2 by auto. reflexivity. Qed.

Definition conflict (b : beam) (f : vec) (i : nat) : Prop :=
  0 < restraint b i /\ prescribed b i <> None /\ f i <> 0.

Lemma validate_spec b f N : (N <= length (b_R b))%nat -> (N <= length (b_D b))%nat ->
  (an_validate (b_R b) (b_D b) f N = Ok tt /\ (forall i, (i < N)%nat -> ~ conflict b f i)) \/
  (an_validate (b_R b) (b_D b) f N = Err ValueError /\ exists i, (i < N)%nat /\ conflict b f i).
Proof.
  unfold an_validate. induction N as [|N IH]; intros HR HD.
  - left. split; [reflexivity|lia].
  - rewrite seq_snoc, foldM_app. destruct IH as [[E H]|[E (i & Hi & H)]]; [lia|lia| |].
    + rewrite E. cbn [rbind foldM].
      destruct (get_lt (b_R b) N) as (r & Er); [lia|]. destruct (get_lt (b_D b) N) as (d & Ed); [lia|].
      rewrite Er. cbn [rbind].
      assert (Hr : restraint b N = r) by (unfold restraint; apply (get_nth _ _ _ 0 Er)).
      assert (Hd : prescribed b N = d) by (unfold prescribed; apply (get_nth _ _ _ None Ed)).
      unfold Rltb. destruct (Rlt_dec 0 r) as [Hp|Hp].
      * rewrite Ed. cbn [rbind]. destruct d as [v|].
        -- unfold Reqb. destruct (Req_EM_T (f N) 0) as [Hz|Hz].
           ++ left. split; [reflexivity|]. intros i Hi C. destruct (Nat.eq_dec i N) as [->|]; [apply C; exact Hz|].
              apply (H i); [lia|exact C].
           ++ right. split; [reflexivity|]. exists N. split; [lia|]. unfold conflict. rewrite Hr, Hd.
              split; [exact Hp|]. split; [discriminate|exact Hz].
        -- left. split; [reflexivity|]. intros i Hi C. destruct (Nat.eq_dec i N) as [->|]; [destruct C as (_ & C & _); congruence|].
           apply (H i); [lia|exact C].
      * left. split; [reflexivity|]. intros i Hi C. destruct (Nat.eq_dec i N) as [->|]; [destruct C as (C & _); lra|].
        apply (H i); [lia|exact C].
    + right. rewrite E. split; [reflexivity|]. exists i. split; [lia|exact H].
Qed.

Lemma mapM_get_seq (rs : list R) N : (N <= length rs)%nat ->
  exists rv, mapM (get rs) (seq 0 N) = Ok rv /\ forall i, (i < N)%nat -> nth i rv 0 = nth i rs 0.
Proof.
  intros H. exists (map (fun i => nth i rs 0) (seq 0 N)). split.
  - apply mapM_complete. assert (G : forall l, (forall i, In i l -> (i < length rs)%nat) ->
      Forall2 (fun a b => get rs a = Ok b) l (map (fun i => nth i rs 0) l)).
    { induction l as [|x l IH]; intros Hl; cbn; constructor.
      - destruct (get_lt rs x) as (v & Hv); [apply Hl; left; reflexivity|].
        rewrite (get_nth _ _ _ 0 Hv). exact Hv.
      - apply IH. intros i Hi. apply Hl. right. exact Hi. }
    apply G. intros i Hi. apply in_seq in Hi. lia.
  - intros i Hi. rewrite (nth_indep _ 0 (nth 0 rs 0)) by (rewrite map_length, seq_length; exact Hi).
    rewrite (map_nth (fun i => nth i rs 0)), seq_nth by exact Hi. reflexivity.
Qed.

Lemma mapM_get_len (rs : list R) N rv : mapM (get rs) (seq 0 N) = Ok rv -> (N <= length rs)%nat.
Proof.
  intros H. apply mapM_ok in H. destruct N as [|N]; [lia|].
  assert (G : forall l r, Forall2 (fun a b => get rs a = Ok b) l r -> forall i, In i l -> (i < length rs)%nat).
  { induction 1 as [|x y l r Hxy _ IH]; intros i []; auto. subst.
    apply get_ok in Hxy. apply nth_error_Some. congruence. }
  assert (In N (seq 0 (S N))) by (apply in_seq; lia). specialize (G _ _ H N H0). lia.
Qed.

Lemma filter_ext_lt (P Q : nat -> bool) N : (forall i, (i < N)%nat -> P i = Q i) -> filter P (seq 0 N) = filter Q (seq 0 N).
Proof. intros H. apply filter_ext_in. intros i Hi. apply H. apply in_seq in Hi. lia. Qed.

Lemma reactions_closed b N k d f : (N <= length (b_R b))%nat ->
  an_reactions (b_R b) N k d f =
    Ok (map (fun i => mulmv N k d i - f i) (filter (fun i => Rltb (restraint b i) 0) (seq 0 N)),
        map (fun i => - restraint b i * d i) (filter (fun i => Rltb 0 (restraint b i)) (seq 0 N))).
Proof.
  intros H. unfold an_reactions. destruct (mapM_get_seq _ _ H) as (rv & -> & E). cbn [rbind]. do 2 f_equal.
  - f_equal. apply filter_ext_lt. intros i Hi. rewrite E by exact Hi. reflexivity.
  - rewrite (filter_ext_lt (fun i => Rltb 0 (nth i rv 0)) (fun i => Rltb 0 (restraint b i)))
      by (intros i Hi; rewrite E by exact Hi; reflexivity).
    apply map_ext_in. intros i Hi. apply filter_In in Hi as [Hi _]. apply in_seq in Hi.
    rewrite E by lia. reflexivity.
Qed.

Section G.
Variable gl : nat -> list (R * R).
Variable ill : nat -> mat -> bool.

(** Support-compatible motions that need no force. *)
Definition kernel (b : beam) (n : nat) (kb : nat -> mat) (y : vec) : Prop :=
  forall i, (i < 2 * (n + 1))%nat ->
    match bcv b i with Some _ => y i = 0 | None => mulmv (2 * (n + 1)) (Kcl kb b n) y i = 0 end.

Record solved (b : beam) (n : nat) (kb : nat -> mat) (rf : nat -> vec) (o : output) : Prop := {
  sv_sys : system gl b n kb rf;
  sv_R : (2 * (n + 1) <= length (b_R b))%nat;
  sv_D : (2 * (n + 1) <= length (b_D b))%nat;
  sv_valid : forall i, (i < 2 * (n + 1))%nat -> ~ conflict b (fcl rf n) i;
  sv_eq : forall i, (i < 2 * (n + 1))%nat ->
    match bcv b i with
    | Some v => o_d o i = v
    | None => mulmv (2 * (n + 1)) (Kcl kb b n) (o_d o) i = fcl rf n i
    end;
  sv_oR : o_R o = map (fun i => mulmv (2 * (n + 1)) (Kcl kb b n) (o_d o) i - fcl rf n i)
                      (filter (fun i => Rltb (restraint b i) 0) (seq 0 (2 * (n + 1))));
  sv_oRs : o_Rs o = map (fun i => - restraint b i * o_d o i)
                      (filter (fun i => Rltb 0 (restraint b i)) (seq 0 (2 * (n + 1))));
  sv_ker : forall y, kernel b n kb y -> forall i, (i < 2 * (n + 1))%nat -> y i = 0 }.

(** The stability check of the current structure, as analyze runs it. *)
Definition passes (b : beam) (n : nat) : Prop :=
  exists k, an_assemble gl b n = Ok k /\ check_stability ill k (b_R b) (b_D b) (2 * (n + 1)) = Ok tt.

Definition skips (a : analysis) (check : bool) : bool := negb check || opt_eqb (an_checked a) (b_version (an_beam a)).

Lemma an_validate_len rs ds f N : an_validate rs ds f N = Ok tt -> (N <= length rs)%nat.
Proof.
  unfold an_validate. induction N as [|N IH]; intros H; [lia|].
  rewrite seq_snoc, foldM_app in H. apply rbind_ok in H as ([] & H0 & H). specialize (IH H0).
  cbn [foldM] in H. apply rbind_ok in H as (u & H & _). apply rbind_ok in H as (r & H & _).
  apply get_ok in H. assert (N < length rs)%nat by (apply nth_error_Some; congruence). lia.
Qed.

Lemma core_npts a npts check :
  snd (analyze_core gl ill a npts check) = snd (analyze_core gl ill a None check).
Proof.
  unfold analyze_core. destruct npts as [p|]; [|reflexivity]. destruct (Nat.ltb 3 p); [|reflexivity].
  cbv zeta. cbn [an_beam an_n an_checked with_npts]. change (an_ndof (with_npts a p)) with (an_ndof a).
  match goal with |- snd (match ?X with _ => _ end) = _ => destruct X as [[f k]|] end; [|reflexivity].
  match goal with |- snd (match ?X with _ => _ end) = _ => destruct X end; reflexivity.
Qed.

Lemma core_inv a npts check a' o : analyze_core gl ill a npts check = (a', Ok o) ->
  (exists kb rf, solved (an_beam a) (an_n a) kb rf o) /\
  (skips a check = true \/ passes (an_beam a) (an_n a)).
Proof.
  intros H0.
  assert (H : snd (analyze_core gl ill a None check) = Ok o) by (rewrite <- (core_npts a npts), H0; reflexivity).
  clear H0. unfold analyze_core in H. set (b := an_beam a) in *. set (n := an_n a) in *.
  unfold an_ndof in H. fold n in H. set (N := (2 * (n + 1))%nat) in *.
  destruct (an_forces gl b n) as [f|] eqn:EF; cbn [rbind] in H; [|discriminate].
  destruct (an_validate _ _ f N) as [[]|] eqn:EV; cbn [rbind] in H; [|discriminate].
  destruct (an_assemble gl b n) as [k|] eqn:EA; cbn [rbind] in H; [|discriminate].
  fold (skips a check) in H.
  assert (CS : (skips a check = true \/ passes b n) /\
     (do kf <- an_apply_bc (b_R b) (b_D b) N k f;
      do d <- an_solver N (fst kf) (snd kf);
      do r <- an_reactions (b_R b) N k d f;
      Ok {| o_d := d; o_R := fst r; o_Rs := snd r |}) = Ok o).
  { change (negb check || opt_eqb (an_checked a) (b_version b))%bool with (skips a check) in H.
    destruct (skips a check) eqn:ES.
    - split; [left; reflexivity|]. exact H.
    - destruct (check_stability ill k (b_R b) (b_D b) N) as [[]|] eqn:EC; [|discriminate].
      split; [right; exists k; auto|]. exact H. }
  clear H. destruct CS as [CS H]. split; [|exact CS].
  apply rbind_ok in H as ([k' f'] & HB & H). apply rbind_ok in H as (d & HS & H). cbn [fst snd] in HS.
  assert (HRl := an_validate_len _ _ _ _ EV).
  rewrite reactions_closed in H by exact HRl. cbn [rbind fst snd] in H. injection H as <-.
  destruct (an_forces_ok _ _ _ _ EF) as (ls & rf & Hl & Hrf & Ef).
  destruct (an_assemble_ok _ _ _ _ EA) as (kb & Hkb & _ & Ek). fold N in Ek.
  destruct (apply_bc_closed _ _ _ _ _ _ HB) as (HDl & HK & HF).
  unfold an_solver in HS. destruct (solve N k' f') as [d0|] eqn:ES; [|discriminate]. injection HS as ->.
  assert (MM : forall y i, (i < N)%nat -> mulmv N k y i = mulmv N (Kcl kb b n) y i).
  { intros y i Hi. apply mulmv_ext; auto. }
  exists kb, rf. constructor; cbn [o_d o_R o_Rs]; fold N.
  - constructor; [exact Hkb|]. exists ls. auto.
  - exact HRl.
  - exact HDl.
  - destruct (validate_spec b f N HRl HDl) as [[_ HV]|[HV _]]; [|congruence].
    intros i Hi C. apply (HV i Hi). unfold conflict in *. rewrite Ef. exact C.
  - assert (HD := proj1 (constrained_iff _ _ _ _ _ _ d HB) (solve_sound _ _ _ _ ES)).
    intros i Hi. specialize (HD i Hi). destruct (bcv b i); [exact HD|]. rewrite <- MM, <- Ef by exact Hi. exact HD.
  - apply map_ext_in. intros i Hi. apply filter_In in Hi as [Hi _]. apply in_seq in Hi.
    rewrite MM, Ef by lia. reflexivity.
  - reflexivity.
  - intros y Hy. apply (proj1 (solve_some_iff N k' f') (ex_intro _ d ES)).
    apply (proj2 (kernel_iff _ _ _ _ _ _ y HB)). intros i Hi. specialize (Hy i Hi). fold N in Hy.
    destruct (bcv b i); [exact Hy|]. rewrite MM by exact Hi. exact Hy.
Qed.

Lemma core_total a check kb rf :
  system gl (an_beam a) (an_n a) kb rf ->
  (2 * (an_n a + 1) <= length (b_R (an_beam a)))%nat ->
  (2 * (an_n a + 1) <= length (b_D (an_beam a)))%nat ->
  (forall i, (i < 2 * (an_n a + 1))%nat -> ~ conflict (an_beam a) (fcl rf (an_n a)) i) ->
  (forall y, kernel (an_beam a) (an_n a) kb y -> forall i, (i < 2 * (an_n a + 1))%nat -> y i = 0) ->
  (skips a check = true \/ passes (an_beam a) (an_n a)) ->
  exists o, snd (analyze_core gl ill a None check) = Ok o.
Proof.
  set (b := an_beam a). set (n := an_n a). set (N := (2 * (n + 1))%nat).
  intros [Hk (ls & Hl & Hr)] HR HD HV HK HP.
  destruct (an_forces_total gl b n ls rf Hl Hr) as (f & EF & Ef).
  destruct (an_assemble_total gl b n kb Hk HR) as (k & EA & Ek).
  unfold analyze_core. fold b n. unfold an_ndof. fold n. fold N. rewrite EF. cbn [rbind].
  destruct (validate_spec b f N HR HD) as [[-> _]|[_ (i & Hi & C)]].
  2:{ exfalso. apply (HV i Hi). unfold conflict in *. rewrite <- Ef. exact C. }
  cbn [rbind]. rewrite EA. cbn [rbind].
  change (negb check || opt_eqb (an_checked a) (b_version b))%bool with (skips a check).
  assert (X : (if skips a check then Ok tt else check_stability ill k (b_R b) (b_D b) N) = Ok tt).
  { destruct (skips a check); [reflexivity|]. destruct HP as [HP|(k1 & E1 & C1)]; [discriminate|].
    rewrite EA in E1. injection E1 as <-. exact C1. }
  rewrite X. cbn [snd].
  destruct (apply_bc_total b N k f HD HR) as ([k' f'] & HB). rewrite HB. cbn [rbind fst snd].
  unfold an_solver. destruct (proj2 (solve_some_iff N k' f')) as (d & ->).
  - intros y Hy. apply HK. intros i Hi. assert (Z := proj1 (kernel_iff _ _ _ _ _ _ y HB) Hy i Hi).
    destruct (bcv b i); [exact Z|]. rewrite <- Z. apply mulmv_ext; [|auto].
    intros j Hj. symmetry. apply Ek. exact Hi.
  - cbn [rbind]. rewrite reactions_closed by exact HR. eexists; reflexivity.
Qed.

(** A kernel vector makes the analysis fail with ValueError. *)
Lemma core_mechanism a npts check kb rf y i :
  system gl (an_beam a) (an_n a) kb rf ->
  (2 * (an_n a + 1) <= length (b_R (an_beam a)))%nat ->
  (2 * (an_n a + 1) <= length (b_D (an_beam a)))%nat ->
  kernel (an_beam a) (an_n a) kb y -> (i < 2 * (an_n a + 1))%nat -> y i <> 0 ->
  snd (analyze_core gl ill a npts check) = Err ValueError.
Proof.
  rewrite core_npts.
  set (b := an_beam a). set (n := an_n a). set (N := (2 * (n + 1))%nat).
  intros [Hk (ls & Hl & Hr)] HR HD HK Hi Hy.
  destruct (an_forces_total gl b n ls rf Hl Hr) as (f & EF & Ef).
  destruct (an_assemble_total gl b n kb Hk HR) as (k & EA & Ek).
  unfold analyze_core. fold b n. unfold an_ndof. fold n. fold N. rewrite EF. cbn [rbind].
  destruct (validate_spec b f N HR HD) as [[-> _]|[-> _]]; [|reflexivity].
  cbn [rbind]. rewrite EA. cbn [rbind].
  destruct (apply_bc_total b N k f HD HR) as ([k' f'] & HB).
  assert (S0 : solve N k' f' = None).
  { destruct (solve N k' f') as [d|] eqn:ES; [|reflexivity]. exfalso. apply Hy.
    apply (proj1 (solve_some_iff N k' f') (ex_intro _ d ES)); [|exact Hi].
    apply (proj2 (kernel_iff _ _ _ _ _ _ y HB)). intros j Hj. specialize (HK j Hj). fold N in HK.
    destruct (bcv b j); [exact HK|]. rewrite <- HK. apply mulmv_ext; auto. }
  assert (FR : forall l, (forall x, In x l -> (x < N)%nat) -> exists fr, free_dofs (b_R b) (b_D b) l = Ok fr).
  { induction l as [|x l IH]; intros Hx; [eexists; reflexivity|]. cbn [free_dofs].
    assert (x < N)%nat by (apply Hx; left; reflexivity).
    destruct (get_lt (b_R b) x) as (r & ->); [lia|]. destruct (get_lt (b_D b) x) as (d & Ed); [lia|].
    cbn [rbind]. rewrite Ed. destruct IH as (fr & ->); [intros; apply Hx; right; assumption|].
    destruct (Rltb r 0); cbn [rbind]; eexists; reflexivity. }
  assert (CS : check_stability ill k (b_R b) (b_D b) N = Ok tt \/ check_stability ill k (b_R b) (b_D b) N = Err ValueError).
  { unfold check_stability. destruct (FR (seq 0 N)) as (fr & ->). { intros x Hx. apply in_seq in Hx. lia. }
    cbn [rbind]. destruct fr; [left; reflexivity|]. destruct (ill _ _); auto. }
  destruct (negb check || _)%bool; [|destruct CS as [->| ->]]; cbn [snd]; try reflexivity;
    rewrite HB; cbn [rbind fst snd]; unfold an_solver; rewrite S0; reflexivity.
Qed.

(** ** Shape of the solution *)
Lemma solved_unique b n kb rf o d :
  solved b n kb rf o ->
  (forall i, (i < 2 * (n + 1))%nat -> match bcv b i with
     | Some v => d i = v | None => mulmv (2 * (n + 1)) (Kcl kb b n) d i = fcl rf n i end) ->
  forall i, (i < 2 * (n + 1))%nat -> d i = o_d o i.
Proof.
  intros S H. assert (Z : forall i, (i < 2 * (n + 1))%nat -> d i - o_d o i = 0).
  { apply (sv_ker _ _ _ _ _ S (fun i => d i - o_d o i)). intros i Hi.
    assert (A := H i Hi). assert (B := sv_eq _ _ _ _ _ S i Hi).
    destruct (bcv b i); [lra|].
    unfold mulmv in *. rewrite (rsum_ext _ _ (fun j => Kcl kb b n i j * d j + (-1) * (Kcl kb b n i j * o_d o j)))
      by (intros; ring). rewrite rsum_plus, rsum_scal. lra. }
  intros i Hi. specialize (Z i Hi). lra.
Qed.

Lemma system_unique b n kb rf kb' rf' : system gl b n kb rf -> system gl b n kb' rf' ->
  forall m, (m < n)%nat -> kb m = kb' m /\ rf m = rf' m.
Proof.
  intros [H1 (ls & Hl & H2)] [H1' (ls' & Hl' & H2')] m Hm.
  destruct (H1 m Hm) as (mb & E1 & E2), (H1' m Hm) as (mb' & E1' & E2').
  destruct (H2 m Hm) as (mc & E3 & E4), (H2' m Hm) as (mc' & E3' & E4').
  assert (ls = ls') by congruence. subst. split; congruence.
Qed.

(** Filtered lists indexed by rank. *)
Lemma nth_filter_rank (P : nat -> bool) (g : nat -> R) N i : (i < N)%nat -> P i = true ->
  nth (rank P i) (map g (filter P (seq 0 N))) 0 = g i.
Proof.
  intros Hi HP. unfold rank. replace N with (i + (1 + (N - i - 1)))%nat by lia.
  rewrite seq_app, filter_app, map_app. cbn [plus]. rewrite app_nth2 by (rewrite map_length; lia).
  rewrite map_length, Nat.sub_diag. cbn [seq filter]. rewrite HP. reflexivity.
Qed.

Lemma reported_eq b n kb rf o i : solved b n kb rf o -> (i < 2 * (n + 1))%nat ->
  reported b o i = if Rlt_dec (restraint b i) 0
    then mulmv (2 * (n + 1)) (Kcl kb b n) (o_d o) i - fcl rf n i
    else spring_force b i (o_d o i).
Proof.
  intros S Hi. unfold reported, spring_force. destruct (Rlt_dec (restraint b i) 0) as [Hr|Hr].
  - rewrite (sv_oR _ _ _ _ _ S). apply (nth_filter_rank (fun j => Rltb (restraint b j) 0)
      (fun i => mulmv (2 * (n + 1)) (Kcl kb b n) (o_d o) i - fcl rf n i)); [exact Hi|].
    unfold Rltb. destruct (Rlt_dec (restraint b i) 0); [reflexivity|lra].
  - destruct (Rlt_dec 0 (restraint b i)) as [Hp|Hp]; [|reflexivity].
    rewrite (sv_oRs _ _ _ _ _ S). apply (nth_filter_rank (fun j => Rltb 0 (restraint b j))
      (fun i => - restraint b i * o_d o i)); [exact Hi|].
    unfold Rltb. destruct (Rlt_dec 0 (restraint b i)); [reflexivity|lra].
Qed.

(** Member end forces. *)
Definition mef (kb : nat -> mat) (rf : nat -> vec) (d : vec) (m : nat) : vec :=
  fun p => end_forces (kb m) (ends d m) p + rf m p.

Lemma scat_plus p u v i : scat p (fun q => u q + v q) i = scat p u i + scat p v i.
Proof. unfold scat. destruct (_ && _); ring. Qed.

Lemma residual_nodal kb rf b n d i : (i < 2 * (n + 1))%nat ->
  mulmv (2 * (n + 1)) (Kcl kb b n) d i - fcl rf n i = nodal_sum n (mef kb rf d) i - spring_force b i (d i).
Proof.
  intros Hi. rewrite Kcl_mul by exact Hi. rewrite <- scat_nodal by exact Hi. unfold fcl, mef.
  rewrite (rsum_ext n (fun m => scat (2 * m) (fun p => end_forces (kb m) (ends d m) p + rf m p) i)
    (fun m => scat (2 * m) (end_forces (kb m) (ends d m)) i + scat (2 * m) (rf m) i)).
  - rewrite rsum_plus. ring.
  - intros m _. apply scat_plus.
Qed.

Lemma system_state b n kb rf d : system gl b n kb rf ->
  forall m, (m < n)%nat -> member_state gl b d m (mef kb rf d m).
Proof.
  intros [H1 (ls & Hl & H2)] m Hm. destruct (H1 m Hm) as (mb & E1 & E2), (H2 m Hm) as (mb' & E1' & E2').
  replace mb' with mb in * by congruence. exists ls, mb, (kb m), (rf m).
  repeat (split; [assumption|]). intros p. reflexivity.
Qed.

Lemma state_unique b d m e e' : member_state gl b d m e -> member_state gl b d m e' -> forall p, e p = e' p.
Proof.
  intros (ls & mb & kb & r & A & B & C & D & E) (ls' & mb' & kb' & r' & A' & B' & C' & D' & E') p.
  rewrite E, E'. assert (ls = ls') by congruence. assert (mb = mb') by congruence. subst. congruence.
Qed.

Lemma bcv_cases b i : bcv b i = match prescribed b i with
  | Some v => Some v | None => if Rlt_dec (restraint b i) 0 then Some 0 else None end.
Proof. reflexivity. Qed.

Lemma solved_equilibrium b n kb rf o : solved b n kb rf o -> equilibrium gl b n (o_d o).
Proof.
  intros S. exists (mef kb rf (o_d o)). split; [apply system_state, (sv_sys _ _ _ _ _ S)|].
  intros i Hi. assert (E := sv_eq _ _ _ _ _ S i Hi). unfold bcv in E.
  destruct (prescribed b i); [exact E|]. destruct (Rlt_dec (restraint b i) 0); [exact E|].
  assert (Q := residual_nodal kb rf b n (o_d o) i Hi). lra.
Qed.

Lemma nodal_ext n e e' i : (i < 2 * (n + 1))%nat -> (forall m p, (m < n)%nat -> e m p = e' m p) -> nodal_sum n e i = nodal_sum n e' i.
Proof.
  intros Hi H. unfold nodal_sum. assert (Ei : (i = 2 * (i / 2) + i mod 2)%nat) by (apply Nat.div_mod; lia).
  assert ((i mod 2 < 2)%nat) by (apply Nat.mod_upper_bound; lia).
  destruct (Nat.ltb_spec i (2 * n)); destruct (Nat.leb_spec 2 i); rewrite ?H by lia; reflexivity.
Qed.

Lemma equilibrium_solves b n kb rf d : system gl b n kb rf -> equilibrium gl b n d ->
  forall i, (i < 2 * (n + 1))%nat -> match bcv b i with
     | Some v => d i = v | None => mulmv (2 * (n + 1)) (Kcl kb b n) d i = fcl rf n i end.
Proof.
  intros S (ef & H1 & H2) i Hi. specialize (H2 i Hi). unfold bcv. destruct (prescribed b i); [exact H2|].
  destruct (Rlt_dec (restraint b i) 0); [exact H2|].
  assert (Q := residual_nodal kb rf b n d i Hi).
  rewrite (nodal_ext n (mef kb rf d) ef i Hi) in Q; [lra|].
  intros m p Hm. apply (state_unique b d m); [exact (system_state b n kb rf d S m Hm)|exact (H1 m Hm)].
Qed.

(** Virtual work. *)
Lemma virtual_work n ef u :
  rsum (2 * (n + 1)) (fun i => nodal_sum n ef i * u i) = rsum n (fun m => rsum 4 (fun q => ef m q * u (2 * m + q)%nat)).
Proof.
  rewrite (rsum_ext _ _ (fun i => rsum n (fun m => scat (2 * m) (ef m) i * u i))).
  - rewrite rsum_swap. apply rsum_ext. intros m Hm. apply scat_dot. lia.
  - intros i Hi. rewrite <- scat_nodal by exact Hi. rewrite rsum_scal_r. reflexivity.
Qed.
End G.
