(** Displacements, reactions and end forces of the beam in other units. *)
From Verif Require Import Base BaseFacts Linalg LinalgFacts SectionModel FlexModel LoadModel FoundationModel ElementModel UtilsModel BeamModel AnalysisModel ElementSpec AnalysisSpec AnalysisFacts AnalysisFacts2 ResultsModel UnitChangeSpec UnitChangeFacts UnitChangeFacts2.
Open Scope R_scope.

Section U.
Variable u : units.
Hypothesis Hu : proper u.
Variable gl : nat -> list (R * R).
Variable ill : nat -> mat -> bool.
Let Hl : 0 < u_len u := proj1 Hu.
Let Hf : 0 < u_for u := proj2 Hu.
Ltac un := unfold per, frc, mom, rig, len.

Definition all_act (f f' : vec) : Prop := forall i, f' i = act u i (f i).
Definition all_stf (k k' : mat) : Prop := forall i j, k' i j = stf u i j (k i j).

Lemma even_sub i j : (2 * i <= j)%nat -> Nat.even (j - 2 * i) = Nat.even j.
Proof. intros H. rewrite Nat.even_sub by exact H. rewrite Nat.even_mul. cbn. destruct (Nat.even j); reflexivity. Qed.
Lemma act_sub i j x : (2 * i <= j)%nat -> act u (j - 2 * i) x = act u j x.
Proof. intros H. unfold act. rewrite even_sub by exact H. reflexivity. Qed.
Lemma tw_sub i j : (2 * i <= j)%nat -> tw u (j - 2 * i) = tw u j.
Proof. intros H. unfold tw. rewrite even_sub by exact H. reflexivity. Qed.

Lemma map_id_seq (l : list nat) : map (fun i => i) l = l.
Proof. apply map_id. Qed.

Lemma forces_units b n : plain b -> sim all_act (an_forces gl b n) (an_forces gl (beam_units u b) n).
Proof.
  intros HP. unfold an_forces. rewrite parsed_units by exact Hu. destruct (parsed_loads b) as [ls|] eqn:EL; [|reflexivity]. cbn [rmap rbind].
  rewrite <- (map_id_seq (seq 0 n)) at 2. apply sim_foldM.
  - intros i f f' _ EF. rewrite member_at_units. destruct (member_at b i) as [m|] eqn:EM; [|reflexivity]. cbn [rmap rbind].
    rewrite loads_of_units. apply (sim_bind (ref_units u) all_act); [apply span_ref_units; [exact Hu|eapply plain_at; eassumption|eapply parsed_plain; eassumption]|].
    intros r r' ER j. unfold sub4. destruct (Nat.leb (2 * i) j && Nat.ltb j (2 * i + 4))%bool eqn:Z; [|apply EF].
    apply andb_true_iff in Z as [Z1 Z2]. apply Nat.leb_le in Z1. apply Nat.ltb_lt in Z2. rewrite EF, ER by lia. rewrite act_sub by exact Z1. rewrite !act_tw. ring.
  - intros i. rewrite act_tw. ring.
Qed.

Lemma get_from {A B} (f : nat -> A -> B) l : forall i k, get (from f k l) i = rmap (f (k + i)%nat) (get l i).
Proof.
  unfold get. induction l as [|a t IH]; intros [|i] k; cbn [from nth_error]; try reflexivity.
  - rewrite Nat.add_0_r. reflexivity.
  - rewrite IH. replace (S k + i)%nat with (k + S i)%nat by lia. reflexivity.
Qed.
Lemma nth_from {A B} (f : nat -> A -> B) d d' l : forall i k, (forall j, f j d = d') -> nth i (from f k l) d' = f (k + i)%nat (nth i l d).
Proof.
  induction l as [|a t IH]; intros [|i] k H; cbn [from nth]; try (symmetry; apply H).
  - rewrite Nat.add_0_r. reflexivity.
  - rewrite IH by exact H. replace (S k + i)%nat with (k + S i)%nat by lia. reflexivity.
Qed.
Lemma spring_pos i r : Rltb 0 (spring_units u i r) = Rltb 0 r.
Proof.
  unfold spring_units, Rltb. destruct (Rlt_dec 0 r) as [H|H]; [|destruct (Rlt_dec 0 r); [contradiction|reflexivity]].
  destruct (Rlt_dec 0 (if Nat.even i then per u r else mom u r)) as [_|N]; [reflexivity|]. exfalso. apply N. destruct (Nat.even i); un; unfold Rdiv; repeat apply Rmult_lt_0_compat; try apply Rinv_0_lt_compat; lra.
Qed.
Lemma spring_neg i r : Rltb (spring_units u i r) 0 = Rltb r 0.
Proof.
  assert (P := spring_pos i r). unfold spring_units in *. destruct (Rlt_dec 0 r) as [H|H]; [|reflexivity].
  unfold Rltb in *. destruct (Rlt_dec 0 r); [|contradiction]. destruct (Rlt_dec 0 _) as [Q|Q] in P; [|discriminate].
  destruct (Rlt_dec _ 0) as [A|A]; [lra|]. destruct (Rlt_dec r 0); [lra|reflexivity].
Qed.
Lemma spring_stf i r : 0 < r -> spring_units u i r = stf u i i r.
Proof. intros H. unfold spring_units, stf, tw. destruct (Rlt_dec 0 r); [|contradiction]. destruct (Nat.even i); un; field; lra. Qed.

Lemma assemble_units b n : plain b -> sim all_stf (an_assemble gl b n) (an_assemble gl (beam_units u b) n).
Proof.
  intros HP. unfold an_assemble. apply (sim_bind all_stf all_stf).
  - rewrite <- (map_id_seq (seq 0 n)) at 2. apply sim_foldM.
    + intros i k k' _ EK. rewrite member_at_units. destruct (member_at b i) as [m|] eqn:EM; [|reflexivity]. cbn [rmap rbind].
      apply (sim_bind (stiff_units u) all_stf); [apply span_k_units; [exact Hu|eapply plain_at; eassumption]|].
      intros kb kb' EB p q. unfold add_block. destruct (Nat.leb (2 * i) p && Nat.ltb p (2 * i + 4) && (Nat.leb (2 * i) q && Nat.ltb q (2 * i + 4)))%bool eqn:Z; [|apply EK].
      apply andb_true_iff in Z as [Z Z']. apply andb_true_iff in Z as [Z1 Z2]. apply andb_true_iff in Z' as [Z3 Z4].
      apply Nat.leb_le in Z1, Z3. apply Nat.ltb_lt in Z2, Z4. rewrite EK, EB by lia. unfold stf. rewrite !tw_sub by assumption. ring.
    + intros p q. unfold stf. ring.
  - intros k0 k0' E0. rewrite <- (map_id_seq (seq 0 (2 * (n + 1)))) at 2. apply sim_foldM; [|exact E0].
    intros i k k' _ EK. cbn [beam_units b_R]. rewrite get_from. cbn [plus]. destruct (get (b_R b) i) as [r|]; [|reflexivity]. cbn [rmap rbind]. rewrite spring_pos.
    destruct (Rltb 0 r) eqn:Z; [|exact EK]. apply Rltb_true in Z. intros p q. destruct (Nat.eqb p i && Nat.eqb q i)%bool eqn:Y; [|apply EK].
    apply andb_true_iff in Y as [Y1 Y2]. apply Nat.eqb_eq in Y1, Y2. subst. rewrite EK, spring_stf by exact Z. unfold stf. ring.
Qed.

Lemma act_0 i x : act u i x = 0 <-> x = 0.
Proof.
  rewrite act_tw. assert (T := tw_pos u Hu i). split; [|intros ->; ring]. intros E. apply Rmult_integral in E as [E|E]; [|exact E]. apply Rmult_integral in E as [E|E]; lra.
Qed.
Lemma validate_units b n f f' : all_act f f' -> an_validate (b_R (beam_units u b)) (b_D (beam_units u b)) f' n = an_validate (b_R b) (b_D b) f n.
Proof.
  intros HF. apply sim_eq. symmetry in HF || idtac. unfold an_validate. 
  assert (G : forall t t' : unit, t = t') by (intros [] []; reflexivity).
  apply (sim_mono (fun a b => b = a)); [intros; symmetry; assumption|].
  rewrite <- (map_id_seq (seq 0 n)) at 1. set (h := fun i : nat => i). 
  rewrite <- (map_id_seq (seq 0 n)) at 2. unfold h. rewrite map_id.
  rewrite <- (map_id_seq (seq 0 n)) at 2. apply sim_foldM; [|reflexivity].
  intros i s s' _ _. cbn [beam_units b_R b_D]. rewrite !get_from. cbn [plus]. destruct (get (b_R b) i) as [r|]; [|reflexivity]. cbn [rmap rbind]. rewrite spring_pos.
  destruct (Rltb 0 r); [|reflexivity]. destruct (get (b_D b) i) as [[d|]|]; cbn; try reflexivity.
  assert (Q : Reqb (f' i) 0 = Reqb (f i) 0).
  { unfold Reqb. rewrite HF. destruct (Req_EM_T (f i) 0) as [e|e], (Req_EM_T (act u i (f i)) 0) as [e'|e']; try reflexivity; rewrite act_0 in e'; contradiction. }
  rewrite Q. destruct (Reqb (f i) 0); reflexivity.
Qed.

Lemma bc_value_units b i : bc_value (b_R (beam_units u b)) (b_D (beam_units u b)) i = rmap (option_map (dis u i)) (bc_value (b_R b) (b_D b) i).
Proof.
  unfold bc_value. cbn [beam_units b_R b_D]. rewrite !get_from. cbn [plus]. destruct (get (b_D b) i) as [[d|]|]; cbn; try reflexivity.
  destruct (get (b_R b) i) as [r|]; cbn; [|reflexivity]. rewrite spring_neg. destruct (Rltb r 0); cbn; [|reflexivity]. do 2 f_equal. unfold dis. destruct (Nat.even i); un; ring.
Qed.
Lemma apply_bc_units b N k f k' f' : sim (fun _ _ => True) (an_apply_bc (b_R b) (b_D b) N k f) (an_apply_bc (b_R (beam_units u b)) (b_D (beam_units u b)) N k' f').
Proof.
  unfold an_apply_bc. rewrite <- (map_id_seq (seq 0 N)) at 2. apply sim_foldM; [|exact I].
  intros i s s' _ _. rewrite bc_value_units. destruct (bc_value (b_R b) (b_D b) i) as [[v|]|]; cbn; try reflexivity; exact I.
Qed.
Lemma bcv_units b i : bcv (beam_units u b) i = option_map (dis u i) (bcv b i).
Proof.
  unfold bcv, prescribed, restraint. cbn [beam_units b_R b_D].
  rewrite (nth_from _ None) by reflexivity. rewrite (nth_from _ 0) by (intros; unfold spring_units; destruct (Rlt_dec 0 0); [lra|reflexivity]). cbn [plus].
  destruct (nth i (b_D b) None) as [v|]; [reflexivity|]. cbn [option_map].
  assert (Q := spring_neg i (nth i (b_R b) 0)). unfold Rltb in Q.
  destruct (Rlt_dec (spring_units u i (nth i (b_R b) 0)) 0), (Rlt_dec (nth i (b_R b) 0) 0); try discriminate; [|reflexivity]. cbn. f_equal. unfold dis. destruct (Nat.even i); un; ring.
Qed.

Lemma dis_tw i x : dis u i x = u_len u / tw u i * x.
Proof. unfold dis, tw. destruct (Nat.even i); un; field; lra. Qed.
Lemma dis_0 i x : dis u i x = 0 <-> x = 0.
Proof. unfold dis. destruct (Nat.even i); [|tauto]. un. split; [intros E; apply Rmult_integral in E as [E|E]; lra|intros ->; ring]. Qed.
Lemma dis_inj i x y : dis u i x = dis u i y -> x = y.
Proof. unfold dis. destruct (Nat.even i); [|tauto]. un. intros E. apply Rmult_eq_reg_l in E; lra. Qed.

Lemma mul_units N k k' d d' i : all_stf k k' -> (forall j, (j < N)%nat -> d' j = dis u j (d j)) -> mulmv N k' d' i = act u i (mulmv N k d i).
Proof.
  intros HK HD. unfold mulmv. rewrite act_tw, <- rsum_scal. apply rsum_ext. intros j Hj. rewrite HK, HD by exact Hj. rewrite dis_tw. unfold stf. assert (T := tw_pos u Hu j). field. lra.
Qed.

Definition back (d : vec) : vec := fun i => if Nat.even i then d i / u_len u else d i.
Lemma back_dis d i : d i = dis u i (back d i).
Proof. unfold back, dis. destruct (Nat.even i); [un; field; lra|reflexivity]. Qed.

Lemma solver_units b N k f k' f' k1 f1 k1' f1' : all_stf k k' -> all_act f f' ->
  an_apply_bc (b_R b) (b_D b) N k f = Ok (k1, f1) -> an_apply_bc (b_R (beam_units u b)) (b_D (beam_units u b)) N k' f' = Ok (k1', f1') ->
  sim (fun d d' : vec => forall i, (i < N)%nat -> d' i = dis u i (d i)) (an_solver N k1 f1) (an_solver N k1' f1').
Proof.
  intros HK HF EA EA'.
  assert (C := fun d => constrained_iff b N k f k1 f1 d EA). assert (C' := fun d => constrained_iff (beam_units u b) N k' f' k1' f1' d EA').
  assert (Z := fun y => kernel_iff b N k f k1 f1 y EA). assert (Z' := fun y => kernel_iff (beam_units u b) N k' f' k1' f1' y EA').
  assert (KQ : forall y y', (forall i, y' i = dis u i (y i)) -> ((forall i, (i < N)%nat -> mulmv N k1 y i = 0) <-> (forall i, (i < N)%nat -> mulmv N k1' y' i = 0))).
  { intros y y' Hy. rewrite Z, Z'. split; intros G i Hi; specialize (G i Hi); rewrite bcv_units in *; destruct (bcv b i); cbn [option_map] in *.
    - rewrite Hy. apply dis_0. exact G.
    - rewrite (mul_units N k k' y y') by auto. apply act_0. exact G.
    - rewrite Hy in G. apply dis_0 in G. exact G.
    - rewrite (mul_units N k k' y y') in G by auto. apply act_0 in G. exact G. }
  assert (IFF : (exists x, solve N k1 f1 = Some x) <-> (exists x, solve N k1' f1' = Some x)).
  { rewrite !solve_some_iff. split; intros G y Hy i Hi.
    - assert (Hb := fun i => back_dis y i). rewrite (Hb i). apply dis_0. apply G; [|exact Hi]. apply (KQ (back y) y Hb). exact Hy.
    - apply (dis_0 i). apply (G (fun i => dis u i (y i))); [|exact Hi]. apply (KQ y (fun i => dis u i (y i)) (fun _ => eq_refl)). exact Hy. }
  unfold an_solver. destruct (solve N k1 f1) as [d|] eqn:E1, (solve N k1' f1') as [d'|] eqn:E2.
  - cbn. assert (S1 := proj1 (C d) (solve_sound _ _ _ _ E1)).
    assert (S2 : forall i, (i < N)%nat -> mulmv N k1' (fun j => dis u j (d j)) i = f1' i).
    { apply C'. intros i Hi. specialize (S1 i Hi). rewrite bcv_units. destruct (bcv b i) as [v|]; cbn [option_map]; [rewrite S1; reflexivity|].
      rewrite (mul_units N k k' d) by auto. rewrite S1, HF. reflexivity. }
    intros i Hi. symmetry. apply (solve_unique _ _ _ _ E2 _ S2 i Hi).
  - destruct (proj1 IFF (ex_intro _ d eq_refl)) as [x Ex]. discriminate.
  - destruct (proj2 IFF (ex_intro _ d' eq_refl)) as [x Ex]. discriminate.
  - reflexivity.
Qed.

Lemma mapM_get_from rs N : mapM (get (from (spring_units u) 0 rs)) (seq 0 N) = rmap (from (spring_units u) 0) (mapM (get rs) (seq 0 N)).
Proof.
  assert (G : forall l k, (forall i, nth_error l i = if Nat.ltb i (length l) then Some (k + i)%nat else None) -> mapM (get (from (spring_units u) 0 rs)) l = rmap (from (spring_units u) k) (mapM (get rs) l)).
  { induction l as [|a t IH]; intros k HN; [reflexivity|]. cbn [mapM]. assert (H0 := HN 0%nat). cbn in H0. injection H0 as ->. rewrite Nat.add_0_r. rewrite get_from. cbn [plus].
    destruct (get rs k); [|reflexivity]. cbn [rmap rbind]. rewrite (IH (S k)).
    - destruct (mapM (get rs) t); reflexivity.
    - intros i. specialize (HN (S i)). cbn [nth_error length] in HN. rewrite HN. change (Nat.ltb (S i) (S (length t))) with (Nat.ltb i (length t)). destruct (Nat.ltb i (length t)); [f_equal; lia|reflexivity]. }
  apply G. intros i. rewrite seq_length. destruct (Nat.ltb i N) eqn:Z; [apply Nat.ltb_lt in Z|apply Nat.ltb_ge in Z; apply nth_error_None; rewrite seq_length; exact Z].
  rewrite (nth_error_nth' _ 0%nat) by (rewrite seq_length; exact Z). rewrite seq_nth by exact Z. reflexivity.
Qed.

Definition out_units (b : beam) (N : nat) (o o' : output) : Prop :=
  (forall i, (i < N)%nat -> o_d o' i = dis u i (o_d o i)) /\
  exists F S g h, o_R o = map g F /\ o_R o' = map (fun i => act u i (g i)) F /\ o_Rs o = map h S /\ o_Rs o' = map (fun i => act u i (h i)) S /\
    F = filter (fun i => Rltb (restraint b i) 0) (seq 0 N) /\ S = filter (fun i => Rltb 0 (restraint b i)) (seq 0 N).

Lemma mapM_get_nth (rs : list R) N rv i : mapM (get rs) (seq 0 N) = Ok rv -> (i < N)%nat -> nth i rv 0 = nth i rs 0.
Proof.
  intros E Hi. destruct (mapM_get_seq rs N (mapM_get_len _ _ _ E)) as (rv' & E' & HR). rewrite E in E'. injection E' as ->. apply HR, Hi.
Qed.

Lemma reactions_units b N k k' f f' d d' : all_stf k k' -> all_act f f' -> (forall i, (i < N)%nat -> d' i = dis u i (d i)) ->
  sim (fun r r' => out_units b N {| o_d := d; o_R := fst r; o_Rs := snd r |} {| o_d := d'; o_R := fst r'; o_Rs := snd r' |})
    (an_reactions (b_R b) N k d f) (an_reactions (b_R (beam_units u b)) N k' d' f').
Proof.
  intros HK HF HD. unfold an_reactions. cbn [beam_units b_R]. rewrite mapM_get_from. destruct (mapM (get (b_R b)) (seq 0 N)) as [rv|] eqn:E; [|reflexivity]. cbn [rmap rbind sim].
  split; [exact HD|]. cbn [fst snd o_R o_Rs].
  assert (NF : forall i, nth i (from (spring_units u) 0 rv) 0 = spring_units u i (nth i rv 0)).
  { intros i. rewrite (nth_from _ 0); [reflexivity|]. intros; unfold spring_units; destruct (Rlt_dec 0 0); [lra|reflexivity]. }
  exists (filter (fun i => Rltb (restraint b i) 0) (seq 0 N)), (filter (fun i => Rltb 0 (restraint b i)) (seq 0 N)), (fun i => mulmv N k d i - f i), (fun i => - restraint b i * d i).
  assert (F1 : forall i, (i < N)%nat -> nth i rv 0 = restraint b i) by (intros i Hi; unfold restraint; eapply mapM_get_nth; eassumption).
  repeat apply conj; try reflexivity.
  - f_equal. apply filter_ext_lt. intros i Hi. rewrite F1 by exact Hi. reflexivity.
  - rewrite (filter_ext_lt _ (fun i => Rltb (restraint b i) 0)).
    + apply map_ext_in. intros i Hin. apply filter_In in Hin as [Hin _]. apply in_seq in Hin. rewrite (mul_units N k k' d d') by auto. rewrite HF, !act_tw. ring.
    + intros i Hi. rewrite NF, spring_neg, F1 by exact Hi. reflexivity.
  - rewrite (filter_ext_lt _ (fun i => Rltb 0 (restraint b i))) by (intros i Hi; rewrite F1 by exact Hi; reflexivity).
    apply map_ext_in. intros i Hin. apply filter_In in Hin as [Hin _]. apply in_seq in Hin. rewrite F1 by lia. reflexivity.
  - rewrite (filter_ext_lt _ (fun i => Rltb 0 (restraint b i))).
    + apply map_ext_in. intros i Hin. apply filter_In in Hin as [Hin P]. apply in_seq in Hin. apply Rltb_true in P. rewrite NF, F1 by lia. rewrite HD by lia. rewrite spring_stf by exact P. rewrite act_tw, dis_tw. unfold stf. assert (T := tw_pos u Hu i). field. lra.
    + intros i Hi. rewrite NF, spring_pos, F1 by exact Hi. reflexivity.
Qed.

Lemma core_units a npts npts' : plain (an_beam a) ->
  sim (out_units (an_beam a) (2 * (an_n a + 1))) (snd (analyze_core gl ill a npts false)) (snd (analyze_core gl ill (analysis_units u a) npts' false)).
Proof.
  intros HP. rewrite (core_npts gl ill a npts), (core_npts gl ill _ npts'). unfold analyze_core. cbv zeta. cbn [negb orb]. cbn [analysis_units an_beam an_n]. unfold an_ndof. cbn [analysis_units an_n].
  set (b := an_beam a) in *. set (n := an_n a). set (N := (2 * (n + 1))%nat).
  assert (E1 := forces_units b n HP). destruct (an_forces gl b n) as [f|], (an_forces gl (beam_units u b) n) as [f'|]; cbn in E1; try contradiction; cbn [rbind]; [|exact E1].
  rewrite (validate_units b N f f' E1). destruct (an_validate (b_R b) (b_D b) f N) as [t|]; cbn [rbind]; [|reflexivity].
  assert (E2 := assemble_units b n HP). destruct (an_assemble gl b n) as [k|], (an_assemble gl (beam_units u b) n) as [k'|]; cbn in E2; try contradiction; cbn [rbind]; [|exact E2].
  cbn [snd]. assert (E3 := apply_bc_units b N k f k' f'). 
  destruct (an_apply_bc (b_R b) (b_D b) N k f) as [[k1 f1]|] eqn:A1, (an_apply_bc (b_R (beam_units u b)) (b_D (beam_units u b)) N k' f') as [[k1' f1']|] eqn:A2; cbn in E3; try contradiction; cbn [rbind]; [|exact E3].
  cbn [fst snd]. apply (sim_bind _ _ _ _ _ _ (solver_units b N k f k' f' k1 f1 k1' f1' E2 E1 A1 A2)). intros d d' ED.
  apply (sim_bind _ _ _ _ _ _ (reactions_units b N k k' f f' d d' E2 E1 ED)). intros r r' ER. exact ER.
Qed.

Lemma core_unchecked a npts check o : snd (analyze_core gl ill a npts check) = Ok o -> snd (analyze_core gl ill a npts false) = Ok o.
Proof.
  rewrite (core_npts gl ill a npts), (core_npts gl ill a npts false). unfold analyze_core. cbv zeta. cbn [negb orb].
  match goal with |- context [match ?X with Ok _ => _ | Err _ => _ end] => destruct X as [[f k]|] end; [|intros E; exact E].
  match goal with |- context [match ?X with Ok _ => _ | Err _ => _ end] => destruct X end; [|discriminate]. cbn [snd]. exact (fun E => E).
Qed.

Lemma restraint_units b i : restraint (beam_units u b) i = spring_units u i (restraint b i).
Proof.
  unfold restraint. cbn [beam_units b_R]. rewrite (nth_from _ 0); [reflexivity|]. intros; unfold spring_units; destruct (Rlt_dec 0 0); [lra|reflexivity].
Qed.
Lemma rank_ext P Q i : (forall j, P j = Q j) -> rank P i = rank Q i.
Proof. intros H. unfold rank. f_equal. apply filter_ext. exact H. Qed.

Lemma out_output b n o o' : out_units b (2 * (n + 1)) o o' -> output_units u b n o o'.
Proof.
  intros (HD & F & S & g & h & ER & ER' & ES & ES' & EF & EG). split; [exact HD|]. rewrite ER, ER', ES, ES', !map_length. split; [reflexivity|]. split; [reflexivity|].
  intros i Hi. unfold reported. rewrite !restraint_units.
  assert (P := spring_pos i (restraint b i)). assert (Q := spring_neg i (restraint b i)). unfold Rltb in P, Q.
  destruct (Rlt_dec (restraint b i) 0) as [Hn|Hn], (Rlt_dec (spring_units u i (restraint b i)) 0) as [Hn'|Hn']; try discriminate.
  - rewrite (rank_ext _ (fun j => Rltb (restraint b j) 0)) by (intros j; rewrite restraint_units; apply spring_neg).
    rewrite ER, ER', EF. rewrite !(nth_filter_rank (fun j => Rltb (restraint b j) 0)); auto; unfold Rltb; destruct (Rlt_dec (restraint b i) 0); auto; contradiction.
  - destruct (Rlt_dec 0 (restraint b i)) as [Hp|Hp], (Rlt_dec 0 (spring_units u i (restraint b i))) as [Hp'|Hp']; try discriminate.
    + rewrite (rank_ext _ (fun j => Rltb 0 (restraint b j))) by (intros j; rewrite restraint_units; apply spring_pos).
      rewrite ES, ES', EG. rewrite !(nth_filter_rank (fun j => Rltb 0 (restraint b j))); auto; unfold Rltb; destruct (Rlt_dec 0 (restraint b i)); auto; contradiction.
    + rewrite act_tw. ring.
Qed.

Lemma member_forces_units b d d' i : plain b -> (forall q, (q < 4)%nat -> d' (2 * i + q)%nat = dis u q (d (2 * i + q)%nat)) ->
  sim (ends_units u) (member_forces gl b d i) (member_forces gl (beam_units u b) d' i).
Proof.
  intros HP HD. unfold member_forces. rewrite parsed_units by exact Hu. destruct (parsed_loads b) as [ls|] eqn:EL; [|reflexivity]. cbn [rmap rbind].
  rewrite member_at_units. destruct (member_at b i) as [m|] eqn:EM; [|reflexivity]. cbn [rmap rbind].
  assert (PM := plain_at b i m HP EM).
  apply (sim_bind (stiff_units u) (ends_units u)); [apply span_k_units; assumption|]. intros k k' EK.
  apply (sim_bind (ref_units u) (ends_units u)); [rewrite loads_of_units; apply span_ref_units; [exact Hu|exact PM|eapply parsed_plain; eassumption]|].
  intros r r' ER p Hp. rewrite ER by exact Hp. rewrite !act_tw. rewrite Rmult_plus_distr_l. f_equal. unfold mulmv. rewrite <- rsum_scal. apply rsum_ext. intros q Hq.
  rewrite EK, HD by assumption. rewrite dis_tw. unfold stf. assert (T := tw_pos u Hu q). field. lra.
Qed.
End U.
