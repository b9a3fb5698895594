(** Whole analyses, readings and constructors in other units. *)
From Verif Require Import Base BaseFacts Linalg LinalgFacts SectionModel FlexModel LoadModel FoundationModel ElementModel UtilsModel BeamModel AnalysisModel ElementSpec AnalysisSpec AnalysisFacts AnalysisFacts2 ResultsModel UnitChangeSpec UnitChangeFacts UnitChangeFacts2 UnitChangeFacts3 UnitChangeFacts4.
Open Scope R_scope.

Section U.
Variable u : units.
Hypothesis Hu : proper u.
Variable gl : nat -> list (R * R).
Variable ill : nat -> mat -> bool.
Let Hl : 0 < u_len u := proj1 Hu.
Let Hf : 0 < u_for u := proj2 Hu.
Ltac un := unfold per, frc, mom, rig, len.

Lemma dis_shift i q x : dis u (2 * i + q) x = dis u q x.
Proof. unfold dis. rewrite Nat.even_add, Nat.even_mul. cbn. destruct (Nat.even q); reflexivity. Qed.
Lemma shift_units c r r' : member_units u r r' -> member_units u (shift_x c r) (shift_x (len u c) r').
Proof.
  intros (A & B & C & D & E). unfold member_units, shift_x. cbn [r_x r_M r_V r_R r_D]. repeat apply conj; auto.
  rewrite A, !map_map. apply map_ext. intros x. un. ring.
Qed.

Lemma member_analysis_units b d d' N n sps : plain b -> (forall i, (i < N)%nat -> d' i = dis u i (d i)) ->
  sim (Forall2 (member_units u)) (member_analysis gl b d N n sps) (member_analysis gl (beam_units u b) d' N n (fun i => map (len u) (sps i))).
Proof.
  intros HP HD. unfold member_analysis. rewrite parsed_units by exact Hu. destruct (parsed_loads b) as [ls|] eqn:EL; [|reflexivity]. cbn [rmap rbind].
  apply (sim_bind (fun s s' => Forall2 (member_units u) (fst s) (fst s') /\ snd s' = len u (snd s)) (Forall2 (member_units u))).
  - cbn [beam_units b_nspans]. rewrite <- (map_id_seq (seq 0 (b_nspans b))) at 2. apply sim_foldM.
    + intros i [acc x0] [acc' x0'] _ [HA HX]. cbn [fst snd] in *. rewrite member_at_units. destruct (member_at b i) as [m|] eqn:EM; [|reflexivity]. cbn [rmap rbind].
      destruct (Nat.ltb N (2 * i + 4)) eqn:Z; [reflexivity|]. apply Nat.ltb_ge in Z.
      assert (HD' : forall q, (q < 4)%nat -> d' (2 * i + q)%nat = dis u q (d (2 * i + q)%nat)) by (intros q Hq; rewrite HD by lia; apply dis_shift).
      apply (sim_bind (ends_units u) (fun s s' => Forall2 (member_units u) (fst s) (fst s') /\ snd s' = len u (snd s))); [apply member_forces_units; assumption|].
      intros f f' EF. assert (PM := plain_at b i m HP EM).
      apply (sim_bind (member_units u) (fun s s' => Forall2 (member_units u) (fst s) (fst s') /\ snd s' = len u (snd s))).
      * unfold member_results. cbn [member_units_of mb_kf]. rewrite (proj1 (proj2 PM)). cbn [option_map]. rewrite loads_of_units.
        apply (values_units u Hu gl m (loads_of ls i) f f'); auto. eapply parsed_plain; eassumption.
      * intros r r' ER. cbn [sim fst snd]. split.
        -- apply Forall2_app; [exact HA|]. constructor; [|constructor]. rewrite HX. apply shift_units, ER.
        -- rewrite HX. cbn [member_units_of mb_L]. un. ring.
    + split; [constructor|]. cbn. un. ring.
  - intros s s' [HA _]. exact HA.
Qed.

Lemma core_fst a npts : an_beam (fst (analyze_core gl ill a npts false)) = an_beam a /\ an_n (fst (analyze_core gl ill a npts false)) = an_n a /\
  an_npts (fst (analyze_core gl ill a npts false)) = match npts with Some p => if Nat.ltb 3 p then p else an_npts a | None => an_npts a end.
Proof.
  unfold analyze_core. cbv zeta. cbn [negb orb]. set (a0 := match npts with Some p => if Nat.ltb 3 p then with_npts a p else a | None => a end).
  assert (Q : an_beam a0 = an_beam a /\ an_n a0 = an_n a /\ an_npts a0 = match npts with Some p => if Nat.ltb 3 p then p else an_npts a | None => an_npts a end).
  { unfold a0. destruct npts as [p|]; [destruct (Nat.ltb 3 p)|]; auto. }
  match goal with |- context [match ?X with Ok _ => _ | Err _ => _ end] => destruct X as [[f k]|] end; exact Q.
Qed.

Lemma analyze_units a sps npts : plain (an_beam a) ->
  sim (results_units u (an_beam a) (an_n a)) (snd (analyze gl ill a sps npts false)) (snd (analyze gl ill (analysis_units u a) (fun i => map (len u) (sps i)) npts false)).
Proof.
  intros HP. unfold analyze. assert (E := core_units u Hu gl ill a npts npts HP).
  destruct (core_fst a npts) as (B1 & B2 & B3). destruct (core_fst (analysis_units u a) npts) as (C1 & C2 & C3).
  destruct (analyze_core gl ill a npts false) as [a1 [o|e]], (analyze_core gl ill (analysis_units u a) npts false) as [a2 [o'|e']]; cbn [fst snd] in *; cbn [sim] in E; try contradiction; [|exact E].
  cbn [analysis_units an_beam an_n an_npts] in C1, C2, C3. unfold beam_results, an_ndof. rewrite B1, B2, B3, C1, C2, C3.
  set (np := match npts with Some p => if Nat.ltb 3 p then p else an_npts a | None => an_npts a end).
  apply (sim_bind _ _ _ _ _ _ (member_analysis_units (an_beam a) (o_d o) (o_d o') (2 * (an_n a + 1)) np sps HP (proj1 E))).
  intros v v' EV. cbn [sim]. split; cbn [br_mem]; [|exact EV]. apply out_output; [exact Hu|]. unfold out_of. cbn. destruct o, o'. exact E.
Qed.

Lemma analyze_unchecked a sps npts check r : snd (analyze gl ill a sps npts check) = Ok r -> snd (analyze gl ill a sps npts false) = Ok r.
Proof.
  unfold analyze, analyze_core. cbv zeta. cbn [negb orb]. set (a0 := match npts with Some p => if Nat.ltb 3 p then with_npts a p else a | None => a end).
  match goal with |- context [match ?X with Ok _ => _ | Err _ => _ end] => destruct X as [[f k]|] end; [|intros E; exact E].
  match goal with |- context [if ?s then Ok tt else _] => destruct s end.
  - intros E; exact E.
  - destruct (check_stability _ _ _ _ _); [|discriminate]. cbn [snd]. unfold an_ndof. cbn [with_checked an_beam an_n an_npts].
    match goal with |- context [match ?X with Ok _ => _ | Err _ => _ end] => destruct X end; intros E; exact E.
Qed.

Lemma checked_units a sps npts c c' r r' : plain (an_beam a) ->
  snd (analyze gl ill a sps npts c) = Ok r -> snd (analyze gl ill (analysis_units u a) (fun i => map (len u) (sps i)) npts c') = Ok r' ->
  results_units u (an_beam a) (an_n a) r r'.
Proof.
  intros HP E E'. apply analyze_unchecked in E, E'. assert (G := analyze_units a sps npts HP). rewrite E, E' in G. exact G.
Qed.

(** ** Readings *)
Lemma insert_new_units c p l : insert_new (len u (fst p), c * snd p) (map (fun q => (len u (fst q), c * snd q)) l) = map (fun q => (len u (fst q), c * snd q)) (insert_new p l).
Proof.
  induction l as [|q t IH]; [reflexivity|]. cbn [insert_new map fst snd]. rewrite (len_lt u Hu). destruct (Rltb (fst p) (fst q)); [reflexivity|].
  destruct (Req_EM_T (fst p) (fst q)) as [e|e], (Req_EM_T (len u (fst p)) (len u (fst q))) as [e'|e'].
  - reflexivity.
  - exfalso. apply e'. rewrite e. reflexivity.
  - exfalso. apply e. apply (len_eq u Hu). exact e'.
  - cbn [map]. rewrite IH. reflexivity.
Qed.
Lemma unique_units c xs vs : unique_first (map (len u) xs) (map (Rmult c) vs) = map (fun q => (len u (fst q), c * snd q)) (unique_first xs vs).
Proof.
  unfold unique_first. assert (G : forall l acc, fold_left (fun acc p => insert_new p acc) (map (fun q => (len u (fst q), c * snd q)) l) (map (fun q => (len u (fst q), c * snd q)) acc) =
    map (fun q => (len u (fst q), c * snd q)) (fold_left (fun acc p => insert_new p acc) l acc)).
  { induction l as [|p t IH]; intros acc; [reflexivity|]. cbn [map fold_left]. rewrite insert_new_units. apply IH. }
  rewrite <- (G (combine xs vs) []). cbn [map]. f_equal. revert vs. induction xs as [|x t IH]; intros [|v vs]; try reflexivity. cbn [map combine fst snd]. rewrite IH. reflexivity.
Qed.
Lemma interp_from_units c x t : forall x0 v0, interp_from (len u x) (len u x0) (c * v0) (map (fun q => (len u (fst q), c * snd q)) t) = c * interp_from x x0 v0 t.
Proof.
  induction t as [|[x1 v1] r IH]; intros x0 v0; [reflexivity|]. cbn [map interp_from fst snd]. rewrite (len_lt u Hu). destruct (Rltb x x1); [|apply IH].
  unfold len, Rdiv. replace (u_len u * x1 - u_len u * x0) with (u_len u * (x1 - x0)) by ring. rewrite Rinv_mult. generalize (/ (x1 - x0)). intros i. field. lra.
Qed.
Lemma read_units c x xs vs : read_at (len u x) (map (len u) xs) (map (Rmult c) vs) = c * read_at x xs vs.
Proof.
  unfold read_at. rewrite unique_units. destruct (unique_first xs vs) as [|[x0 v0] t]; [cbn; ring|]. cbn [map interp fst snd]. rewrite (len_lt u Hu). destruct (Rltb x x0); [reflexivity|]. apply interp_from_units.
Qed.

Lemma flat_units {A B} (f : mres -> list A) (f' : mres -> list B) (h : A -> B) rs rs' : Forall2 (fun r r' => f' r' = map h (f r)) rs rs' -> flat_map f' rs' = map h (flat_map f rs).
Proof. intros F. induction F as [|r r' t t' H F IH]; [reflexivity|]. cbn [flat_map]. rewrite H, IH, map_app. reflexivity. Qed.
Lemma F2_mono {A B} (P Q : A -> B -> Prop) l l' : (forall a b, P a b -> Q a b) -> Forall2 P l l' -> Forall2 Q l l'.
Proof. intros H F. induction F; constructor; auto. Qed.

(** The concatenated results of the object, as analyze builds them. *)
Lemma all_concat a sps npts c r : snd (analyze gl ill a sps npts c) = Ok r -> br_all r = mres_concat (br_mem r).
Proof.
  unfold analyze. destruct (analyze_core gl ill a npts c) as [a' [o|e]]; cbn [snd]; [|discriminate]. unfold beam_results. intros E. apply rbind_ok in E as (v & Ev & E). injection E as <-. reflexivity.
Qed.

Lemma readings_units a sps npts c c' r r' : plain (an_beam a) ->
  snd (analyze gl ill a sps npts c) = Ok r -> snd (analyze gl ill (analysis_units u a) (fun i => map (len u) (sps i)) npts c') = Ok r' ->
  (forall x, read_at (len u x) (r_x (br_all r')) (r_M (br_all r')) = mom u (read_at x (r_x (br_all r)) (r_M (br_all r)))) /\
  (forall x, read_at (len u x) (r_x (br_all r')) (r_V (br_all r')) = frc u (read_at x (r_x (br_all r)) (r_V (br_all r)))) /\
  deflection_curve r' = (map (len u) (fst (deflection_curve r)), map (len u) (snd (deflection_curve r))).
Proof.
  intros HP E E'. destruct (checked_units a sps npts c c' r r' HP E E') as [_ F]. rewrite (all_concat _ _ _ _ _ E), (all_concat _ _ _ _ _ E').
  unfold mres_concat, deflection_curve. cbn [r_x r_M r_V fst snd].
  rewrite (flat_units r_x r_x (len u) (br_mem r) (br_mem r')) by (eapply F2_mono; [|exact F]; intros ? ? (A & _); exact A).
  rewrite (flat_units r_M r_M (mom u) (br_mem r) (br_mem r')) by (eapply F2_mono; [|exact F]; intros ? ? (_ & A & _); exact A).
  rewrite (flat_units r_V r_V (frc u) (br_mem r) (br_mem r')) by (eapply F2_mono; [|exact F]; intros ? ? (_ & _ & A & _); exact A).
  rewrite (flat_units (fun m => inner (r_x m)) (fun m => inner (r_x m)) (len u) (br_mem r) (br_mem r')) by (eapply F2_mono; [|exact F]; intros ? ? (A & _); rewrite A; apply inner_map).
  rewrite (flat_units (fun m => inner (r_D m)) (fun m => inner (r_D m)) (len u) (br_mem r) (br_mem r')) by (eapply F2_mono; [|exact F]; intros ? ? (_ & _ & _ & _ & A); exact A).
  repeat apply conj; [| |reflexivity]; intros x; [apply (read_units (u_for u * u_len u))|apply (read_units (u_for u))].
Qed.

(** ** The constructor *)
Lemma from_app {A B} (f : nat -> A -> B) l l' : forall k, from f k (l ++ l') = from f k l ++ from f (k + length l) l'.
Proof. induction l as [|a t IH]; intros k; cbn [from app length]; [rewrite Nat.add_0_r; reflexivity|]. rewrite IH. do 3 f_equal. lia. Qed.
Lemma from_length {A B} (f : nat -> A -> B) l : forall k, length (from f k l) = length l.
Proof. induction l as [|a t IH]; intros k; cbn; [reflexivity|]. rewrite IH. reflexivity. Qed.
Lemma from_ext2 {A B} (f : nat -> A -> B) l k : (forall i, f (2 + i)%nat = f i) -> from f (2 + k) l = from f k l.
Proof. intros H. revert k. induction l as [|a t IH]; intros k; [reflexivity|]. cbn [from]. rewrite H. f_equal. exact (IH (S k)). Qed.
Lemma spring_even i : spring_units u (2 + i) = spring_units u i.
Proof. reflexivity. Qed.
Lemma spring_keep i r : r <= 0 -> spring_units u i r = r.
Proof. intros H. unfold spring_units. destruct (Rlt_dec 0 r); [lra|reflexivity]. Qed.

Lemma support_pair_units s : support_pair (support_units u s) = rmap (from (spring_units u) 0) (support_pair s) /\ forall p, support_pair s = Ok p -> length p = 2%nat.
Proof.
  destruct s as [n|l]; cbn [support_units support_pair].
  - assert (K : forall k p, support_dof k = Some p -> from (spring_units u) 0 p = p /\ length p = 2%nat).
    { intros k p. unfold support_dof. repeat match goal with |- context [if ?c then _ else _] => destruct c end; intros E; try discriminate; injection E as <-; cbn [from length]; rewrite !spring_keep by lra; auto. }
    match goal with |- context [if ?c then _ else _] => destruct c end; [split; [reflexivity|discriminate]|].
    destruct (support_dof _) as [p|] eqn:E; cbn; [|split; [reflexivity|discriminate]]. destruct (K _ _ E) as [K1 K2]. rewrite K1. split; [reflexivity|]. intros p' E'. injection E' as <-. exact K2.
  - rewrite from_length. destruct (Nat.eqb (length l) 2) eqn:Z; cbn; try rewrite Z; (split; [reflexivity|]); intros p E; try discriminate. injection E as <-. apply Nat.eqb_eq, Z.
Qed.
Lemma concat_pairs ps : Forall (fun p : list R => length p = 2%nat) ps -> from (spring_units u) 0 (concat ps) = concat (map (from (spring_units u) 0) ps).
Proof.
  intros F. induction F as [|p t H F IH]; [reflexivity|]. cbn [concat map]. rewrite from_app, H, <- IH. f_equal. apply (from_ext2 (spring_units u) (concat t) 0). apply spring_even.
Qed.

Lemma supports_units sup n : supports_to_R (map (support_units u) sup) (Some n) = rmap (from (spring_units u) 0) (supports_to_R sup (Some n)).
Proof.
  unfold supports_to_R. rewrite map_length. destruct (negb _); [reflexivity|].
  rewrite (mapM_units support_pair support_pair (support_units u) (from (spring_units u) 0)) by (intros s _; apply support_pair_units).
  destruct (mapM support_pair sup) as [ps|] eqn:E; [|reflexivity]. cbn [rmap rbind]. f_equal. symmetry. apply concat_pairs.
  revert ps E. induction sup as [|s t IH]; intros ps E; cbn [mapM] in E; [injection E as <-; constructor|].
  apply rbind_ok in E as (p & Ep & E). apply rbind_ok in E as (q & Eq & E). injection E as <-. constructor; [apply (support_pair_units s), Ep|apply IH, Eq].
Qed.
Lemma from_map_repeat {A B} (f : nat -> A -> B) a b n : (forall i, f i a = b) -> forall k, from f k (repeat a n) = repeat b n.
Proof. intros H. induction n as [|n IH]; intros k; cbn; [reflexivity|]. rewrite H, IH. reflexivity. Qed.
Lemma map_repeat' {A B} (f : A -> B) a n : map f (repeat a n) = repeat (f a) n.
Proof. induction n as [|n IH]; cbn; [reflexivity|]. rewrite IH. reflexivity. Qed.

(** Span data without sections. *)
Definition scalar_rigid (e : rigid) : Prop := match e with RConst _ => True | RSect _ => False end.
Definition span5 := (R * rigid * etarg * option rigid * option R)%type.
Definition span5_units (x : span5) : span5 := match x with (l, e, t, g, k) => (len u l, ei_units u e, t, option_map (ga_units u) g, option_map (fun k => u_for u / u_len u ^ 2 * k) k) end.
Definition span5_plain (x : span5) : Prop := match x with (l, e, t, g, k) => 0 < l /\ whole l e /\ whole_shear l g /\ k = None end.

Lemma check_whole L e : 0 < L -> whole L e -> check_rigid e L = Ok tt.
Proof.
  intros HL W. destruct e as [c|s]; [reflexivity|]. destruct W as (p & P & X0 & X1 & J & K & S0 & SE & _). cbn [check_rigid]. unfold validate_length, sect_length. rewrite P, S0, SE.
  unfold isclose0. replace (L - 0 - L) with 0 by ring. rewrite Rabs_R0. destruct (Rleb_spec 0 (1e-6 * Rmax 1 (Rabs L))) as [|N]; [reflexivity|].
  exfalso. assert (1 <= Rmax 1 (Rabs L)) by apply Rmax_l. lra.
Qed.
Lemma check_shear L g : 0 < L -> whole_shear L g -> match g with Some g0 => check_rigid g0 L | None => Ok tt end = Ok tt.
Proof. intros HL W. destruct g as [g|]; [apply check_whole; assumption|reflexivity]. Qed.
Lemma last_snoc l (x : R) : last (l ++ [x]) 0 = x.
Proof. apply last_last. Qed.
Lemma add_spans_units xs : Forall span5_plain xs -> forall b, b_R b = [] -> b_D b = [] -> b_LM b = [] ->
  add_spans (beam_units u b) (map span5_units xs) = rmap (beam_units u) (add_spans b xs).
Proof.
  unfold add_spans. intros F. induction F as [|x t H F IH]; intros b HR HD HM; [reflexivity|]. destruct x as [[[[l e] ty] g] k]. cbn [map foldM span5_units].
  destruct H as (Hl0 & He & Hg & ->). assert (Hl1 := len_pos u Hu l Hl0). unfold add_span.
  assert (C : check_rigid (ei_units u e) (len u l) = Ok tt) by (apply check_whole; [exact Hl1|]; apply (whole_units u Hu l _ e (rc_pos u Hu) He)).
  assert (G : match option_map (ga_units u) g with Some g0 => check_rigid g0 (len u l) | None => Ok tt end = Ok tt).
  { apply check_shear; [exact Hl1|]. destruct g as [g|]; [|exact I]. apply (whole_units u Hu l _ g Hf Hg). }
  rewrite C, G, (check_whole l e Hl0 He), (check_shear l g Hl0 Hg). destruct (coerce ty) as [et|er]; [|reflexivity]. cbn [rbind]. rewrite <- IH; try assumption. f_equal.
  unfold beam_units. cbn. rewrite !map_app, !app_length, map_length. cbn. f_equal; try reflexivity.
  - un. ring.
  - f_equal. f_equal. rewrite last_map by apply len_0. un. ring.
Qed.
Lemma add_spans_kept xs : forall b b', add_spans b xs = Ok b' -> b_R b' = b_R b /\ b_D b' = b_D b /\ b_LM b' = b_LM b.
Proof.
  unfold add_spans. induction xs as [|[[[[l e] ty] g] k] t IH]; intros b b' E; cbn [foldM] in E; [injection E as <-; auto|].
  apply rbind_ok in E as (b1 & E1 & E). specialize (IH b1 b' E). 
  assert (Q : b_R b1 = b_R b /\ b_D b1 = b_D b /\ b_LM b1 = b_LM b).
  { unfold add_span in E1. destruct (check_rigid e l); [|discriminate]. destruct (match g with Some g0 => check_rigid g0 l | None => Ok tt end); [|discriminate]. destruct (coerce ty); [|discriminate]. injection E1 as <-. auto. }
  destruct IH as (A & B & C), Q as (A' & B' & C'). repeat apply conj; congruence.
Qed.
Lemma zip5_units L : forall E T G K, zip5 (map (len u) L) (map (ei_units u) E) T (map (option_map (ga_units u)) G) (map (option_map (fun k => u_for u / u_len u ^ 2 * k)) K) = map span5_units (zip5 L E T G K).
Proof. induction L as [|l L IH]; intros [|e E] [|t T] [|g G] [|k K]; try reflexivity. cbn [map zip5 span5_units]. rewrite IH. reflexivity. Qed.
Lemma zip5_plain L : forall E T G K, Forall (fun l => 0 < l) L -> (forall l e, In (l, e) (combine L E) -> whole l e) -> (forall l g, In (l, g) (combine L G) -> whole_shear l g) -> Forall (fun k : option R => k = None) K ->
  Forall span5_plain (zip5 L E T G K).
Proof.
  induction L as [|l L IH]; intros [|e E] [|t T] [|g G] [|k K] H1 H2 H3 H4; try constructor; inversion H1; inversion H4; subst.
  - repeat apply conj; auto; [apply H2|apply H3]; left; reflexivity.
  - apply IH; auto; intros; [apply H2|apply H3]; right; assumption.
Qed.
Lemma in_combine_repeat {A B} (l : list A) (e : B) n a b : In (a, b) (combine l (repeat e n)) -> In a l /\ b = e.
Proof. intros I. split; [apply (in_combine_l _ _ _ _ I)|]. apply in_combine_r in I. apply repeat_spec in I. exact I. Qed.
Lemma add_spans_plain xs : Forall span5_plain xs -> forall b b', plain b -> add_spans b xs = Ok b' -> plain b'.
Proof.
  unfold add_spans. intros F. induction F as [|x t H F IH]; intros b b' HP E; cbn [foldM] in E; [injection E as <-; exact HP|].
  apply rbind_ok in E as (b1 & E1 & E). apply (IH b1 b'); [|exact E]. destruct x as [[[[l e] ty] g] k]. destruct H as (A & B & C & D). destruct HP as (P1 & P2 & P3 & P4).
  unfold add_span in E1. destruct (check_rigid e l); [|discriminate]. destruct (match g with Some g0 => check_rigid g0 l | None => Ok tt end); [|discriminate]. destruct (coerce ty); [|discriminate]. injection E1 as <-.
  repeat apply conj; cbn; try (apply Forall_app; split; auto); apply Forall2_app; auto.
Qed.
Lemma F_repeat {A} (P : A -> Prop) a n : P a -> Forall P (repeat a n).
Proof. intros H. induction n; constructor; auto. Qed.

Lemma init_units c : plain_ctor c -> analysis_init (ctor_units u c) = rmap (analysis_units u) (analysis_init c) /\ forall a, analysis_init c = Ok a -> plain (an_beam a).
Proof.
  intros (PL & PE & PG & PK). unfold analysis_init, beam_init, ctor_R. cbn [ctor_units ct_L ct_EI ct_R ct_LM ct_types ct_D ct_sup ct_GAv ct_kf].
  assert (QR : match option_map (map (support_units u)) (ct_sup c) with
    | Some s => match option_map (from (spring_units u) 0) (ct_R c) with Some _ => Err ValueError | None => rbind (supports_to_R s (Some (length (map (len u) (ct_L c)) + 1)%nat)) (fun r => Ok (Some r)) end
    | None => Ok (option_map (from (spring_units u) 0) (ct_R c)) end =
    rmap (option_map (from (spring_units u) 0)) match ct_sup c with
    | Some s => match ct_R c with Some _ => Err ValueError | None => rbind (supports_to_R s (Some (length (ct_L c) + 1)%nat)) (fun r => Ok (Some r)) end
    | None => Ok (ct_R c) end).
  { destruct (ct_sup c) as [s|]; cbn [option_map]; [|reflexivity]. destruct (ct_R c); [reflexivity|]. rewrite map_length. cbn [option_map]. rewrite supports_units. destruct (supports_to_R s _); reflexivity. }
  rewrite QR. clear QR. match goal with |- context [rmap (option_map _) ?X] => destruct X as [oR|] end; [|split; [reflexivity|discriminate]]. cbn [rmap rbind].
  rewrite map_length. set (n := length (ct_L c)).
  assert (QG : broadcast_GAv (match ct_GAv c with GNone => GNone | GAll g => GAll (ga_units u g) | GEach l => GEach (map (option_map (ga_units u)) l) end) n = rmap (map (option_map (ga_units u))) (broadcast_GAv (ct_GAv c) n) /\
    forall gs, broadcast_GAv (ct_GAv c) n = Ok gs -> forall l g, In (l, g) (combine (ct_L c) gs) -> whole_shear l g).
  { unfold broadcast_GAv. destruct (ct_GAv c) as [|g|l]; cbn [rmap].
    - rewrite map_repeat'. split; [reflexivity|]. intros gs E l g IN. injection E as <-. apply in_combine_repeat in IN as [_ ->]. exact I.
    - rewrite map_repeat'. split; [reflexivity|]. intros gs E l g0 IN. injection E as <-. apply in_combine_repeat in IN as [IN ->]. rewrite Forall_forall in PG. exact (PG l IN).
    - rewrite map_length. destruct (negb _); (split; [reflexivity|]); [discriminate|]. intros l0 E. injection E as <-. exact PG. }
  destruct QG as [QG1 QG2]. rewrite QG1. destruct (broadcast_GAv (ct_GAv c) n) as [gs|]; [|split; [reflexivity|discriminate]]. cbn [rmap rbind]. specialize (QG2 gs eq_refl).
  assert (QK : broadcast_kf (match ct_kf c with KNone => KNone | KAll k => KAll (u_for u / u_len u ^ 2 * k) | KEach l => KEach (map (option_map (fun k => u_for u / u_len u ^ 2 * k)) l) end) n = rmap (map (option_map (fun k => u_for u / u_len u ^ 2 * k))) (broadcast_kf (ct_kf c) n) /\
    forall l, broadcast_kf (ct_kf c) n = Ok l -> Forall (fun k : option R => k = None) l).
  { unfold broadcast_kf. destruct (ct_kf c) as [|g|l]; cbn [rmap]; [| contradiction|].
    - rewrite map_repeat'. split; [reflexivity|]. intros l E. injection E as <-. apply F_repeat. reflexivity.
    - rewrite map_length. destruct (negb _); (split; [reflexivity|]); [discriminate|]. intros l0 E. injection E as <-. exact PK. }
  destruct QK as [QK1 QK2]. rewrite QK1. destruct (broadcast_kf (ct_kf c) n) as [ks|]; [|split; [reflexivity|discriminate]]. cbn [rmap rbind]. specialize (QK2 ks eq_refl).
  assert (QB : match (match ct_EI c with EIAll e => EIAll (ei_units u e) | EIEach l => EIEach (map (ei_units u) l) end) with
     | EIAll e => add_spans beam_empty (zip5 (map (len u) (ct_L c)) (repeat e n) (ct_types c) (map (option_map (ga_units u)) gs) (map (option_map (fun k => u_for u / u_len u ^ 2 * k)) ks))
     | EIEach es => if Nat.eqb n (length es) then add_spans beam_empty (zip5 (map (len u) (ct_L c)) es (ct_types c) (map (option_map (ga_units u)) gs) (map (option_map (fun k => u_for u / u_len u ^ 2 * k)) ks)) else Err ValueError end =
    rmap (beam_units u) match ct_EI c with
     | EIAll e => add_spans beam_empty (zip5 (ct_L c) (repeat e n) (ct_types c) gs ks)
     | EIEach es => if Nat.eqb n (length es) then add_spans beam_empty (zip5 (ct_L c) es (ct_types c) gs ks) else Err ValueError end /\
    forall b, match ct_EI c with
     | EIAll e => add_spans beam_empty (zip5 (ct_L c) (repeat e n) (ct_types c) gs ks)
     | EIEach es => if Nat.eqb n (length es) then add_spans beam_empty (zip5 (ct_L c) es (ct_types c) gs ks) else Err ValueError end = Ok b -> plain b /\ b_R b = [] /\ b_D b = [] /\ b_LM b = []).
  { assert (BE : beam_units u beam_empty = beam_empty) by (unfold beam_units, beam_empty; cbn; rewrite !len_0; reflexivity).
    assert (PB : plain beam_empty) by (repeat apply conj; constructor).
    destruct (ct_EI c) as [e|es].
    - assert (FP : Forall span5_plain (zip5 (ct_L c) (repeat e n) (ct_types c) gs ks)) by (apply zip5_plain; auto; intros l e0 IN; apply in_combine_repeat in IN as [IN ->]; rewrite Forall_forall in PE; exact (PE l IN)).
      split.
      + rewrite <- (map_repeat' (ei_units u)), zip5_units. rewrite <- BE at 1. apply add_spans_units; auto.
      + intros b E. split; [eapply add_spans_plain; eassumption|]. exact (add_spans_kept _ _ _ E).
    - rewrite map_length. destruct (Nat.eqb n (length es)); [|split; [reflexivity|discriminate]].
      assert (FP : Forall span5_plain (zip5 (ct_L c) es (ct_types c) gs ks)) by (apply zip5_plain; auto).
      split.
      + rewrite zip5_units. rewrite <- BE at 1. apply add_spans_units; auto.
      + intros b E. split; [eapply add_spans_plain; eassumption|]. exact (add_spans_kept _ _ _ E). }
  destruct QB as [QB1 QB2]. rewrite QB1. match goal with |- context [rmap (beam_units u) ?X] => destruct X as [b|] end; [|split; [reflexivity|discriminate]]. cbn [rmap rbind].
  destruct (QB2 b eq_refl) as (PB & BR & BD & BM). destruct oR as [r|]; cbn [option_map rbind]; [|split; [reflexivity|discriminate]].
  rewrite from_length. destruct (negb (Nat.eqb (length r) (2 * n + 2))); [split; [reflexivity|discriminate]|].
  assert (QD : match option_map (from (fun i => option_map (dis u i)) 0) (ct_D c) with
      | Some d => if negb (Nat.eqb (length d) (length r)) then Err ValueError else Ok d | None => Ok (repeat None (length r)) end =
    rmap (from (fun i => option_map (dis u i)) 0) match ct_D c with Some d => if negb (Nat.eqb (length d) (length r)) then Err ValueError else Ok d | None => Ok (repeat None (length r)) end).
  { destruct (ct_D c) as [d|]; cbn [option_map]; [rewrite from_length; destruct (negb _); reflexivity|]. cbn [rmap]. rewrite (from_map_repeat _ None None) by reflexivity. reflexivity. }
  rewrite QD. match goal with |- context [rmap (from _ 0) ?X] => destruct X as [d|] end; [|split; [reflexivity|discriminate]]. cbn [rmap rbind]. split.
  - f_equal. unfold analysis_units, with_LM, with_D, with_R, beam_units. cbn. f_equal. f_equal. destruct (ct_LM c); reflexivity.
  - intros a E. injection E as <-. exact PB.
Qed.
End U.
