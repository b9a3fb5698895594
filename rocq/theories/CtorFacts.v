(** The beam constructor (C18) and the span lookup (C16). *)
From Coq Require Import Ascii String.
From Verif Require Import Base BaseFacts SectionModel LoadModel ElementModel UtilsModel UtilsSpec UtilsFacts
  FoundationModel BeamModel BeamSpec.
Local Open Scope string_scope.
Open Scope R_scope.

(** ** Member type names *)
Definition big (c : ascii) : Prop := (65 <= nat_of_ascii c <= 90)%nat.
Lemma upper_c_iff c d : big d -> (upper_c c = d <-> (c = d \/ capital c d \/ capital d c)).
Proof.
  unfold big, capital, upper_c. intros Hd. set (n := nat_of_ascii c).
  destruct (Nat.leb 97 n && Nat.leb n 122)%bool eqn:E.
  - apply andb_prop in E as [E1 E2]. apply Nat.leb_le in E1, E2. split.
    + intros <-. right. right. rewrite nat_ascii_embedding by lia. lia.
    + intros [->|[[_ H]|[_ H]]]; [unfold n in *; lia|lia|].
      fold n in H. replace (n - 32)%nat with (nat_of_ascii d) by lia. apply ascii_nat_embedding.
  - split; [tauto|]. intros [H|[[H H']|[H H']]]; [exact H|lia|].
    apply Bool.andb_false_iff in E as [E|E]; apply Nat.leb_gt in E; fold n in H'; lia.
Qed.
Lemma upper_same s w : all_chars big w -> (upper s = w <-> same_letters s w).
Proof.
  revert w. induction s as [|c t IH]; intros [|d w] H; cbn; try (split; [discriminate|tauto]); try (split; auto; fail).
  destruct H as [H1 H2]. rewrite <- (upper_c_iff c d H1), <- (IH w H2). split.
  - intros E. injection E as E1 E2. auto.
  - intros [-> E]. rewrite <- E. reflexivity.
Qed.
Lemma same_solid_big s w : all_chars big w -> same_letters s w -> solid s.
Proof.
  revert w. induction s as [|c t IH]; intros [|d w] H S; cbn in *; try tauto.
  destruct H as [H1 H2], S as [S1 S2]. split; [|apply (IH w); assumption].
  unfold big in H1. intros B. unfold blank_char in B.
  assert (nat_of_ascii c <= 32)%nat by (cbn [In] in B; lia).
  unfold capital in S1. destruct S1 as [->|[S1|S1]]; lia.
Qed.

Lemma coerce_name s t : coerce (EtName s) = Ok t <-> In (upper (strip s), t) type_names.
Proof.
  cbn [coerce]. cbv zeta. unfold type_names. generalize (upper (strip s)). intros key. split.
  - intros H.
    repeat match type of H with context [String.eqb key ?w] => destruct (String.eqb_spec key w); [subst key; injection H as <-; cbn; tauto|] end.
    discriminate.
  - intros H. cbn [In] in H. repeat (destruct H as [H|H]; [injection H as <- <-; reflexivity|]). destruct H.
Qed.
Lemma type_words w t : In (w, t) type_names -> all_chars big w /\ w <> "".
Proof.
  unfold type_names. cbn [In]. intros H.
  repeat (destruct H as [H|H]; [injection H as <- _; (split; [|discriminate]);
    cbn; unfold big; repeat split; cbn; lia|]). destruct H.
Qed.
Lemma coerce_iff e t : coerce e = Ok t <-> type_code e t.
Proof.
  destruct e as [s|l].
  - rewrite coerce_name. split.
    + intros H. apply (tc_name _ _ _ H). destruct (strip_split s) as (pre & post & E & B1 & B2).
      exists pre, (strip s), post. repeat split; auto. apply upper_same; [apply (type_words _ _ H)|reflexivity].
    + intros H. inversion H as [s' w t' HI (pre & core & post & E & B1 & B2 & SL)|]. subst.
      destruct (type_words _ _ HI) as (W & N).
      assert (core <> "") by (intros ->; destruct w; [congruence|exact SL]).
      rewrite strip_core; auto; [|apply (same_solid_big _ w); auto].
      rewrite (proj2 (upper_same core w W) SL). exact HI.
  - split.
    + intros H. destruct l as [|z [|]]; try discriminate. cbn in H.
      destruct (Z.eqb_spec z 1) as [->|]; [injection H as <-; apply (tc_num 1); lia|].
      destruct (Z.eqb_spec z 2) as [->|]; [injection H as <-; apply (tc_num 2); lia|].
      destruct (Z.eqb_spec z 3) as [->|]; [injection H as <-; apply (tc_num 3); lia|].
      destruct (Z.eqb_spec z 4) as [->|]; [injection H as <-; apply (tc_num 4); lia|]. discriminate.
    + intros H. inversion H as [|t' Ht]. subst. assert (t = 1 \/ t = 2 \/ t = 3 \/ t = 4)%nat as [->|[->|[->| ->]]] by lia; reflexivity.
Qed.
Lemma coerce_err e x : coerce e = Err x -> x = ValueError.
Proof.
  destruct e as [s|[|z [|]]]; cbn; try (intros H; injection H as <-; reflexivity).
  - repeat match goal with |- context [if ?b then _ else _] => destruct b end; intros H; try discriminate; injection H as <-; reflexivity.
  - destruct (_ || _)%bool; [discriminate|]. intros H; injection H as <-; reflexivity.
Qed.

Lemma check_rigid_iff e L : check_rigid e L = Ok tt <-> covers e L.
Proof.
  destruct e as [x|s]; cbn; [tauto|]. unfold validate_length. destruct (s_pieces s) as [|p ps] eqn:E.
  - split; [discriminate|]. intros [H _]. congruence.
  - unfold isclose0. destruct (Rleb_spec (Rabs (sect_length s - L)) (1e-6 * Rmax 1 (Rabs L))).
    + split; [split; [discriminate|assumption]|reflexivity].
    + split; [discriminate|]. intros [_ H]. lra.
Qed.
Lemma check_rigid_err e L x : check_rigid e L = Err x -> x = ValueError.
Proof.
  destruct e as [y|s]; cbn; [discriminate|]. unfold validate_length. destruct (s_pieces s); [intros H; injection H as <-; reflexivity|].
  destruct (isclose0 _ _ _); [discriminate|]. intros H; injection H as <-; reflexivity.
Qed.

Definition shear_ok (g : option rigid) (L : R) : Prop := match g with Some e => covers e L | None => True end.

(** Consistent member data. *)
Record laid_out (b : beam) : Prop := {
  lo_n : b_nspans b = List.length (b_lengths b);
  lo_len : b_length b = node_at b (b_nspans b);
  lo_term : b_terminal b = map (node_at b) (seq 0 (b_nspans b + 1)) }.

Lemma rsum_ext_lt n f g : (forall i, (i < n)%nat -> f i = g i) -> rsum n f = rsum n g.
Proof. intros H. apply rsum_ext. exact H. Qed.

Lemma node_at_snoc b b' L i : b_lengths b' = (b_lengths b ++ [L])%list -> (i <= List.length (b_lengths b))%nat -> node_at b' i = node_at b i.
Proof.
  intros E Hi. unfold node_at. apply rsum_ext. intros m Hm. rewrite E, app_nth1 by lia. reflexivity.
Qed.

Lemma add_span_ok b L EI et GAv kf b' : add_span b L EI et GAv kf = (b', Ok tt) ->
  covers EI L /\ shear_ok GAv L /\ exists t, type_code et t /\
  b_lengths b' = (b_lengths b ++ [L])%list /\ b_EIs b' = (b_EIs b ++ [EI])%list /\ b_GAv b' = (b_GAv b ++ [GAv])%list /\
  b_kf b' = (b_kf b ++ [kf])%list /\ b_types b' = (b_types b ++ [t])%list /\ (laid_out b -> laid_out b').
Proof.
  unfold add_span. intros H. destruct (check_rigid EI L) as [[]|] eqn:E1; [|discriminate].
  destruct (match GAv with Some g => check_rigid g L | None => Ok tt end) as [[]|] eqn:E2; [|discriminate].
  destruct (coerce et) as [t|] eqn:E3; [|discriminate]. injection H as <-. cbn.
  split; [apply check_rigid_iff; exact E1|]. split; [destruct GAv; [apply check_rigid_iff; exact E2|exact I]|].
  exists t. split; [apply coerce_iff; exact E3|]. repeat (split; [reflexivity|]).
  intros [H1 H2 H3]. set (b' := {| b_lengths := _ |}).
  assert (EL : b_lengths b' = (b_lengths b ++ [L])%list) by reflexivity.
  assert (EN : b_nspans b' = S (b_nspans b)) by (cbn; rewrite app_length, H1; cbn; lia).
  assert (NA : forall i, (i <= b_nspans b)%nat -> node_at b' i = node_at b i) by (intros i Hi; apply (node_at_snoc _ _ L); [exact EL|lia]).
  assert (NL : node_at b' (S (b_nspans b)) = node_at b (b_nspans b) + L).
  { unfold node_at at 1. cbn [rsum]. fold (node_at b' (b_nspans b)). rewrite NA by lia. rewrite EL, app_nth2 by lia.
    rewrite H1, Nat.sub_diag. reflexivity. }
  assert (LT : last (b_terminal b) 0 = node_at b (b_nspans b)).
  { rewrite H3. replace (b_nspans b + 1)%nat with (S (b_nspans b)) by lia. rewrite seq_S, map_app. apply last_last. }
  constructor.
  - reflexivity.
  - rewrite EN, NL. cbn. rewrite H2. reflexivity.
  - rewrite EN. replace (S (b_nspans b) + 1)%nat with (S (b_nspans b + 1)) by lia. rewrite seq_S, map_app. cbn [map Nat.add].
    replace (b_nspans b + 1)%nat with (S (b_nspans b)) at 2 by lia. rewrite NL. unfold b' at 1. cbn [b_terminal].
    rewrite LT. f_equal. rewrite H3. apply map_ext_in. intros i Hi. apply in_seq in Hi. rewrite NA by lia. reflexivity.
Qed.

Lemma add_span_err b L EI et GAv kf b' e : add_span b L EI et GAv kf = (b', Err e) ->
  e = ValueError /\ ~ (covers EI L /\ shear_ok GAv L /\ exists t, type_code et t).
Proof.
  unfold add_span. intros H. destruct (check_rigid EI L) as [[]|x] eqn:E1.
  - destruct (match GAv with Some g => check_rigid g L | None => Ok tt end) as [[]|x] eqn:E2.
    + destruct (coerce et) as [t|x] eqn:E3; [discriminate|]. injection H as _ <-.
      split; [exact (coerce_err _ _ E3)|]. intros (_ & _ & t & Ht). apply coerce_iff in Ht. congruence.
    + injection H as _ <-. destruct GAv as [g|]; [|discriminate]. split; [exact (check_rigid_err _ _ _ E2)|].
      intros (_ & Hs & _). apply check_rigid_iff in Hs. congruence.
  - injection H as _ <-. split; [exact (check_rigid_err _ _ _ E1)|]. intros (Hc & _). apply check_rigid_iff in Hc. congruence.
Qed.

Lemma add_spans_spec L E T G K b : List.length E = List.length L -> (List.length L <= List.length T)%nat ->
  List.length G = List.length L -> List.length K = List.length L ->
  match add_spans b (zip5 L E T G K) with
  | Ok b' => exists ts, Forall2 type_code (firstn (List.length L) T) ts /\ Forall2 covers E L /\ Forall2 shear_ok G L /\
      b_lengths b' = (b_lengths b ++ L)%list /\ b_EIs b' = (b_EIs b ++ E)%list /\ b_GAv b' = (b_GAv b ++ G)%list /\
      b_kf b' = (b_kf b ++ K)%list /\ b_types b' = (b_types b ++ ts)%list /\ (laid_out b -> laid_out b')
  | Err e => e = ValueError /\
      ~ (exists ts, Forall2 type_code (firstn (List.length L) T) ts /\ Forall2 covers E L /\ Forall2 shear_ok G L)
  end.
Proof.
  revert E T G K b. induction L as [|l L IH]; intros [|e E] T [|g G] [|k K] b HE HT HG HK; try discriminate.
  - cbn. exists []. rewrite !app_nil_r. repeat (split; [constructor || reflexivity|]). auto.
  - destruct T as [|t T]; [cbn in HT; lia|]. cbn [List.length] in *. cbn [zip5]. unfold add_spans. cbn [foldM].
    destruct (add_span b l e t g k) as [b1 [[]|x]] eqn:EA; cbn [rbind].
    + destruct (add_span_ok _ _ _ _ _ _ _ EA) as (C1 & C2 & tt' & C3 & R1 & R2 & R3 & R4 & R5 & R6).
      specialize (IH E T G K b1 ltac:(lia) ltac:(lia) ltac:(lia) ltac:(lia)). unfold add_spans in IH.
      destruct (foldM _ (zip5 L E T G K) b1) as [b2|x].
      * destruct IH as (ts & F1 & F2 & F3 & Q1 & Q2 & Q3 & Q4 & Q5 & Q6). exists (tt' :: ts). cbn [firstn].
        rewrite Q1, Q2, Q3, Q4, Q5, R1, R2, R3, R4, R5, <- !app_assoc. repeat (split; [try constructor; auto|]). auto.
      * destruct IH as (-> & N). split; [reflexivity|]. intros (ts & F1 & F2 & F3). apply N. cbn [firstn] in F1.
        inversion F1; inversion F2; inversion F3; subst. eauto.
    + destruct (add_span_err _ _ _ _ _ _ _ _ EA) as (-> & N). split; [reflexivity|]. intros (ts & F1 & F2 & F3).
      apply N. cbn [firstn] in F1. inversion F1; inversion F2; inversion F3; subst. eauto.
Qed.

Lemma laid_out_empty : laid_out beam_empty.
Proof. constructor; reflexivity. Qed.

Lemma ctor_R_spec c : match ctor_R c with
  | Ok (Some r) => restraints_are c r
  | Ok None => forall r, ~ restraints_are c r
  | Err e => e = ValueError /\ forall r, ~ restraints_are c r
  end.
Proof.
  unfold ctor_R, restraints_are. destruct (ct_sup c) as [s|]; destruct (ct_R c) as [r|].
  - split; [reflexivity|]. auto.
  - destruct (supports_to_R s _) as [r|e] eqn:E; cbn [rbind].
    + apply supports_iff in E. exact E.
    + split; [exact (supports_err _ _ _ E)|]. intros r H. assert (X := proj2 (supports_iff s (Some (List.length (ct_L c) + 1)%nat) r) H). congruence.
  - reflexivity.
  - intros r [].
Qed.

Lemma restraints_fun c r r' : restraints_are c r -> restraints_are c r' -> r = r'.
Proof.
  unfold restraints_are. destruct (ct_sup c) as [s|]; destruct (ct_R c) as [r0|]; try tauto; [|congruence].
  intros H1 H2. assert (X := proj2 (supports_iff s (Some (List.length (ct_L c) + 1)%nat) r) H1).
  assert (Y := proj2 (supports_iff s (Some (List.length (ct_L c) + 1)%nat) r') H2). congruence.
Qed.

(** The constructor on argument lists with at least one member type per span. *)
Lemma ctor_spec c : (List.length (ct_L c) <= List.length (ct_types c))%nat ->
  match beam_init c with
  | Ok b => exists r ts, valid_args c r ts /\
      b_lengths b = ct_L c /\ b_EIs b = ei_list c /\ b_GAv b = gav_list c /\ b_kf b = kf_list c /\ b_types b = ts /\
      b_R b = r /\ b_D b = match ct_D c with Some d => d | None => repeat None (List.length r) end /\
      b_LM b = match ct_LM c with Some l => l | None => [] end /\ laid_out b
  | Err e => e = ValueError /\ forall r ts, ~ valid_args c r ts
  end.
Proof.
  intros HT. unfold beam_init. assert (HR := ctor_R_spec c). destruct (ctor_R c) as [oR|e]; cbn [rbind].
  2:{ destruct HR as [-> N]. split; [reflexivity|]. intros r ts V. exact (N r (va_R _ _ _ V)). }
  assert (BG : broadcast_GAv (ct_GAv c) (List.length (ct_L c)) =
     if Nat.eqb (List.length (gav_list c)) (List.length (ct_L c)) then Ok (gav_list c) else Err ValueError).
  { unfold broadcast_GAv, gav_list. destruct (ct_GAv c); rewrite ?repeat_length, ?Nat.eqb_refl; try reflexivity.
    destruct (Nat.eqb (List.length l) (List.length (ct_L c))); reflexivity. }
  assert (BK : broadcast_kf (ct_kf c) (List.length (ct_L c)) =
     if Nat.eqb (List.length (kf_list c)) (List.length (ct_L c)) then Ok (kf_list c) else Err ValueError).
  { unfold broadcast_kf, kf_list. destruct (ct_kf c); rewrite ?repeat_length, ?Nat.eqb_refl; try reflexivity.
    destruct (Nat.eqb (List.length l) (List.length (ct_L c))); reflexivity. }
  rewrite BG, BK. clear BG BK.
  destruct (Nat.eqb_spec (List.length (gav_list c)) (List.length (ct_L c))) as [EG|EG]; cbn [rbind].
  2:{ split; [reflexivity|]. intros r ts V. exact (EG (va_GAv _ _ _ V)). }
  destruct (Nat.eqb_spec (List.length (kf_list c)) (List.length (ct_L c))) as [EK|EK]; cbn [rbind].
  2:{ split; [reflexivity|]. intros r ts V. exact (EK (va_kf _ _ _ V)). }
  assert (BE : match ct_EI c with
     | EIAll e => add_spans beam_empty (zip5 (ct_L c) (repeat e (List.length (ct_L c))) (ct_types c) (gav_list c) (kf_list c))
     | EIEach es => if Nat.eqb (List.length (ct_L c)) (List.length es)
                    then add_spans beam_empty (zip5 (ct_L c) es (ct_types c) (gav_list c) (kf_list c)) else Err ValueError end
     = if Nat.eqb (List.length (ei_list c)) (List.length (ct_L c))
       then add_spans beam_empty (zip5 (ct_L c) (ei_list c) (ct_types c) (gav_list c) (kf_list c)) else Err ValueError).
  { unfold ei_list. destruct (ct_EI c); [rewrite repeat_length, Nat.eqb_refl; reflexivity|]. rewrite Nat.eqb_sym. reflexivity. }
  rewrite BE. clear BE.
  destruct (Nat.eqb_spec (List.length (ei_list c)) (List.length (ct_L c))) as [EE|EE]; cbn [rbind].
  2:{ split; [reflexivity|]. intros r ts V. exact (EE (va_EI _ _ _ V)). }
  assert (AS := add_spans_spec (ct_L c) (ei_list c) (ct_types c) (gav_list c) (kf_list c) beam_empty EE HT EG EK).
  destruct (add_spans _ _) as [b|e]; cbn [rbind].
  2:{ destruct AS as [-> N]. split; [reflexivity|]. intros r ts V. apply N. exists ts.
      split; [exact (va_types _ _ _ V)|]. split; [exact (va_sections _ _ _ V)|exact (va_shear _ _ _ V)]. }
  destruct AS as (ts & F1 & F2 & F3 & Q1 & Q2 & Q3 & Q4 & Q5 & Q6).
  destruct oR as [r|]; cbn [rbind].
  2:{ split; [reflexivity|]. intros r ts' V. exact (HR r (va_R _ _ _ V)). }
  destruct (Nat.eqb_spec (List.length r) (2 * List.length (ct_L c) + 2)) as [EL|EL]; cbn [negb].
  2:{ split; [reflexivity|]. intros r' ts' V. apply EL. rewrite (restraints_fun _ _ _ HR (va_R _ _ _ V)).
      rewrite (va_Rlen _ _ _ V). lia. }
  assert (X : forall d, (match ct_D c with Some d => List.length d = List.length r | None => True end) ->
     d = match ct_D c with Some d => d | None => repeat None (List.length r) end ->
     exists r ts, valid_args c r ts /\ 
      b_lengths b = ct_L c /\ b_EIs b = ei_list c /\ b_GAv b = gav_list c /\ b_kf b = kf_list c /\ b_types b = ts /\
      r = r /\ d = match ct_D c with Some d => d | None => repeat None (List.length r) end /\
      laid_out b).
  { intros d Hd Ed. exists r, ts. split; [constructor; auto; lia|]. repeat (split; [assumption || reflexivity|]). apply Q6, laid_out_empty. }
  destruct (ct_D c) as [d|] eqn:ED; cbn [rbind].
  - destruct (Nat.eqb_spec (List.length d) (List.length r)) as [Ed|Ed]; cbn [negb rbind].
    + exists r, ts. split; [constructor; auto; [lia|rewrite ED; exact Ed]|]. cbn.
      repeat (split; [assumption || reflexivity|]). destruct (Q6 laid_out_empty). constructor; assumption.
    + split; [reflexivity|]. intros r' ts' V. apply Ed. assert (Y := va_D _ _ _ V). rewrite ED in Y.
      rewrite Y. f_equal. exact (restraints_fun _ _ _ (va_R _ _ _ V) HR).
  - exists r, ts. split; [constructor; auto; [lia|rewrite ED; exact I]|]. cbn.
    repeat (split; [assumption || reflexivity|]). destruct (Q6 laid_out_empty). constructor; assumption.
Qed.

(** Any type list: the layout is consistent. *)
Lemma add_spans_laid xs b b' : add_spans b xs = Ok b' -> laid_out b -> laid_out b'.
Proof.
  revert b. induction xs as [|[[[[l e] t] g] k] xs IH]; intros b H HB; [injection H as <-; exact HB|].
  unfold add_spans in H. cbn [foldM] in H. apply rbind_ok in H as (b1 & H1 & H2).
  destruct (add_span b l e t g k) as [b2 [[]|x]] eqn:EA; [|discriminate]. injection H1 as <-.
  apply (IH b2 H2). destruct (add_span_ok _ _ _ _ _ _ _ EA) as (_ & _ & _ & _ & _ & _ & _ & _ & _ & H). auto.
Qed.
Lemma ctor_laid c b : beam_init c = Ok b -> laid_out b.
Proof.
  unfold beam_init. intros H. apply rbind_ok in H as (oR & _ & H). apply rbind_ok in H as (gl & _ & H).
  apply rbind_ok in H as (kl & _ & H). apply rbind_ok in H as (b0 & H0 & H). apply rbind_ok in H as (r & _ & H).
  destruct (negb _); [discriminate|]. apply rbind_ok in H as (d & _ & H). injection H as <-.
  assert (laid_out b0) as [A B C].
  { destruct (ct_EI c) as [e|es].
    - exact (add_spans_laid _ _ _ H0 laid_out_empty).
    - destruct (Nat.eqb _ _); [|discriminate]. exact (add_spans_laid _ _ _ H0 laid_out_empty). }
  constructor; assumption.
Qed.

(** ** Span lookup *)
Lemma node_at_S b i : node_at b (S i) = node_at b i + nth i (b_lengths b) 0.
Proof. reflexivity. Qed.

Lemma node_at_mono b i j : (forall m, (m < List.length (b_lengths b))%nat -> 0 < nth m (b_lengths b) 0) ->
  (i <= j <= List.length (b_lengths b))%nat -> node_at b i <= node_at b j.
Proof.
  intros H [Hij Hj]. induction j as [|j IH].
  - replace i with 0%nat by lia. lra.
  - destruct (Nat.eq_dec i (S j)) as [->|]; [lra|]. rewrite node_at_S. specialize (H j ltac:(lia)).
    assert (node_at b i <= node_at b j) by (apply IH; lia). lra.
Qed.

Lemma first_beyond_spec b k : forall s n pos, (forall i, (s <= i < s + n)%nat -> (k + Z.of_nat (i - s) >= 0)%Z) ->
  match first_beyond (map (node_at b) (seq s n)) k pos with
  | Some z => exists j, (s <= j < s + n)%nat /\ z = (k + Z.of_nat (j - s) - 1)%Z /\ pos < node_at b j /\
       forall i, (s <= i < j)%nat -> node_at b i <= pos
  | None => forall i, (s <= i < s + n)%nat -> node_at b i <= pos
  end.
Proof.
  intros s n pos _. revert s k. induction n as [|n IH]; intros s k; cbn [seq map first_beyond]; [intros; lia|].
  destruct (Rltb_spec pos (node_at b s)) as [Hlt|Hge].
  - exists s. split; [lia|]. split; [lia|]. split; [exact Hlt|]. intros; lia.
  - specialize (IH (S s) (k + 1)%Z). destruct (first_beyond _ (k + 1) pos) as [z|].
    + destruct IH as (j & Hj & -> & Hp & Hb). exists j. split; [lia|]. split; [lia|]. split; [exact Hp|].
      intros i Hi. destruct (Nat.eq_dec i s) as [->|]; [lra|apply Hb; lia].
    + intros i Hi. destruct (Nat.eq_dec i s) as [->|]; [lra|apply IH; lia].
Qed.

Lemma lookup_spec b pos : laid_out b -> (1 <= b_nspans b)%nat ->
  (forall m, (m < b_nspans b)%nat -> 0 < nth m (b_lengths b) 0) ->
  (0 <= pos <= node_at b (b_nspans b) ->
     exists i x, get_local_span_coords b pos = Ok (Z.of_nat i, x) /\ (i < b_nspans b)%nat /\
       pos = node_at b i + x /\ 0 <= x /\
       (x < nth i (b_lengths b) 0 \/ x = nth i (b_lengths b) 0 /\ i = (b_nspans b - 1)%nat)) /\
  (pos < 0 \/ node_at b (b_nspans b) < pos -> get_local_span_coords b pos = Ok ((-1)%Z, 0)).
Proof.
  intros [H1 H2 H3] Hn HL. unfold get_local_span_coords. rewrite H2. split.
  - intros [P0 P1].
    replace (Rltb pos 0 || Rltb (node_at b (b_nspans b)) pos)%bool with false
      by (symmetry; apply Bool.orb_false_iff; split; [destruct (Rltb_spec pos 0)|destruct (Rltb_spec (node_at b (b_nspans b)) pos)]; auto; lra).
    rewrite H3. assert (F := first_beyond_spec b 0 0 (b_nspans b + 1) pos ltac:(intros; lia)).
    rewrite map_length, seq_length.
    assert (G : forall i, (i < b_nspans b + 1)%nat -> 
       (do j <- py_index (b_nspans b + 1) (Z.of_nat i); do t <- get (map (node_at b) (seq 0 (b_nspans b + 1))) j; Ok (Z.of_nat i, pos - t))
       = Ok (Z.of_nat i, pos - node_at b i)).
    { intros i Hi. unfold py_index. destruct (Z.leb_spec 0 (Z.of_nat i)); [|lia].
      destruct (Z.ltb_spec (Z.of_nat i) (Z.of_nat (b_nspans b + 1))); [|lia]. cbn [rbind]. rewrite Nat2Z.id.
      unfold get. rewrite nth_error_map, (nth_error_nth' (seq 0 (b_nspans b + 1)) 0%nat) by (rewrite seq_length; lia).
      rewrite seq_nth by lia. reflexivity. }
    destruct (first_beyond _ 0 pos) as [z|].
    + destruct F as (j & Hj & -> & Hp & Hb). assert (j <> 0)%nat.
      { intros ->. unfold node_at in Hp. cbn in Hp. lra. }
      replace (0 + Z.of_nat (j - 0) - 1)%Z with (Z.of_nat (j - 1)) by lia. rewrite G by lia.
      exists (j - 1)%nat, (pos - node_at b (j - 1)). specialize (Hb (j - 1)%nat ltac:(lia)).
      split; [reflexivity|]. split; [lia|]. split; [ring|]. split; [lra|]. left.
      replace j with (S (j - 1)) in Hp by lia. rewrite node_at_S in Hp. lra.
    + replace (Z.of_nat (b_nspans b) - 1)%Z with (Z.of_nat (b_nspans b - 1)) by lia. rewrite G by lia.
      exists (b_nspans b - 1)%nat, (pos - node_at b (b_nspans b - 1)).
      assert (F1 := F (b_nspans b) ltac:(lia)). assert (F2 := F (b_nspans b - 1)%nat ltac:(lia)).
      split; [reflexivity|]. split; [lia|]. split; [ring|]. split; [lra|]. right. split; [|reflexivity].
      assert (pos = node_at b (b_nspans b)) by lra. rewrite H.
      replace (b_nspans b) with (S (b_nspans b - 1)) at 1 by lia. rewrite node_at_S. ring.
  - intros HP. replace (Rltb pos 0 || Rltb (node_at b (b_nspans b)) pos)%bool with true; [reflexivity|].
    symmetry. apply Bool.orb_true_iff. destruct HP; [left|right];
    [destruct (Rltb_spec pos 0)|destruct (Rltb_spec (node_at b (b_nspans b)) pos)]; auto; lra.
Qed.
