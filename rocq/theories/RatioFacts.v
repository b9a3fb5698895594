(** Envelope ratios. *)
From Coq Require Import Lia.
From Verif Require Import Base BaseFacts ResultsModel EnvelopeModel EnvelopeSpec EnvelopeFacts BridgeModel BridgeSpec CritFacts.
Open Scope R_scope.
Local Notation length := List.length.

Lemma init_shaped vr e : env_init vr = Ok e -> shaped e.
Proof. intros H. destruct (env_built _ _ H). constructor; assumption. Qed.
Lemma ratio_spec a b : length a = length b -> ratio_list a b (get_ratio a b).
Proof.
  intros H. unfold get_ratio. split; [rewrite map2_length; lia|]. intros i Hi. rewrite (nth_map2 _ _ _ _ 0 0) by lia. set (x := nth i a 0). set (y := nth i b 0).
  unfold isclose, Rleb. rewrite Rminus_0_r, Rmult_0_l, Rplus_0_r. destruct (Rle_dec (Rabs y) 1e-3) as [C|C]; cbn [negb].
  - left. split; [exact C|apply Rabs_R0].
  - right. split; [lra|]. assert (N : y <> 0) by (intros E; rewrite E, Rabs_R0 in C; lra). rewrite <- Rabs_mult. f_equal. field. exact N.
Qed.
Lemma pairs_spec (a b : list R) : length a = length b -> exists rs, mapM (fun i => do x <- get a i; do y <- get b i; Ok (x, y)) (seq 0 (length b)) = Ok rs /\ map fst rs = a /\ map snd rs = b.
Proof.
  intros H. exists (combine a b). split.
  - apply mapM_complete. revert a H. induction b as [|y b IH] using rev_ind; intros a H; [destruct a; [constructor|discriminate]|].
    destruct (exists_last (l := a)) as (a' & x & ->); [intros ->; rewrite app_length in H; cbn in H; lia|]. rewrite !app_length in *. cbn [length] in *. assert (H' : length a' = length b) by lia.
    rewrite Nat.add_1_r, seq_S. assert (EC : combine (a' ++ [x]) (b ++ [y]) = (combine a' b ++ [(x, y)])%list).
    { clear - H'. revert b H'. induction a' as [|p a' IH]; intros [|q b] H'; try discriminate; [reflexivity|]. cbn. f_equal. apply IH. cbn in H'. lia. }
    rewrite EC. apply Forall2_app.
    + assert (G := IH a' H'). assert (B : forall i, In i (seq 0 (length b)) -> (i < length b)%nat) by (intros i Hi; apply in_seq in Hi; lia). revert G B. generalize (seq 0 (length b)), (combine a' b). intros l m G.
      induction G as [|i p l m E G IH2]; intros B; constructor; [|apply IH2; intros; apply B; right; assumption].
      assert (Hi := B i (or_introl eq_refl)). unfold get in *. rewrite !nth_error_app1 by lia. exact E.
    + constructor; [|constructor]. cbn [Nat.add]. unfold get. rewrite !nth_error_app2 by lia. rewrite H', Nat.sub_diag. reflexivity.
  - clear -H. revert b H. induction a as [|x a IH]; intros [|y b] H; try discriminate; [auto|]. cbn in *. destruct (IH b ltac:(lia)) as [-> ->]. auto.
Qed.
Lemma ratios_spec trial ref : shaped trial -> shaped ref -> e_npts trial = e_npts ref -> e_nsup trial = e_nsup ref -> exists q, envelopes_ratios trial ref = Ok q /\ ratios_of trial ref q.
Proof.
  intros [A1 A2 A3 A4 A5 A6] [B1 B2 B3 B4 B5 B6] EN ES. unfold envelopes_ratios. rewrite EN, ES, !Nat.eqb_refl. cbn [negb orb].
  assert (R1 := ratio_spec (e_Rmaxval trial) (e_Rmaxval ref) ltac:(congruence)). assert (R2 := ratio_spec (e_Rminval trial) (e_Rminval ref) ltac:(congruence)).
  destruct (pairs_spec (get_ratio (e_Rmaxval trial) (e_Rmaxval ref)) (get_ratio (e_Rminval trial) (e_Rminval ref))) as (rs & E & E1 & E2); [rewrite (proj1 R1), (proj1 R2); congruence|].
  rewrite (proj1 R2), B6 in E. rewrite E. cbn [rbind]. eexists. split; [reflexivity|].
  constructor; cbn [rt_x rt_Mmax rt_Mmin rt_Vmax rt_Vmin rt_nsup rt_R]; try reflexivity; try (apply ratio_spec; congruence); [rewrite E1; exact R1|rewrite E2; exact R2].
Qed.
Lemma ratios_rejected trial ref : e_npts trial <> e_npts ref \/ e_nsup trial <> e_nsup ref -> envelopes_ratios trial ref = Err ValueError.
Proof.
  intros H. unfold envelopes_ratios. destruct (Nat.eqb_spec (e_npts ref) (e_npts trial)); [|reflexivity]. destruct (Nat.eqb_spec (e_nsup ref) (e_nsup trial)); [|reflexivity]. destruct H; congruence.
Qed.
(** An effect [l] times as large has the ratio [l]. *)
Lemma ratio_scaled l r q : 0 <= l -> 1e-3 < Rabs r -> ratio_of (l * r) r q -> q = l.
Proof.
  intros H C [[D _]|[_ E]]; [lra|]. rewrite Rabs_mult, (Rabs_right l) in E by lra. apply Rmult_eq_reg_r with (Rabs r); [exact E|lra].
Qed.
