(** Facts about envelopes of response matrices, factors, targets and segment loads. *)
From Coq Require Import Lia Sorting Permutation Ascii String DecimalString DecimalNat.
From Verif Require Import Base BaseFacts SectionModel LoadModel LoadSpec FoundationModel UtilsModel BeamModel AnalysisModel AnalysisSpec
  ResultsModel ResultsSpec ResultsFacts LoadCasesModel LoadCasesSpec.
Open Scope R_scope.
Local Notation length := List.length.
Local Open Scope list_scope.

(** ** Smallest and largest sums *)
Lemma lsum_perm l l' : Permutation l l' -> lsum l = lsum l'.
Proof. unfold lsum. induction 1; cbn; lra. Qed.
Lemma lsum_opp l : lsum (map Ropp l) = - lsum l.
Proof. unfold lsum. induction l as [|x l IH]; cbn; lra. Qed.
Lemma firstn_least l : increasing l -> forall s rest, Permutation (s ++ rest) l -> lsum (firstn (length s) l) <= lsum s.
Proof.
  induction l as [|x t IH]; intros Hs s rest P.
  - apply Permutation_sym, Permutation_nil in P. destruct s; [unfold lsum; cbn; lra|discriminate].
  - inversion_clear Hs as [|? ? S F]. destruct s as [|y s]; [unfold lsum; cbn; lra|].
    assert (Hx : In x ((y :: s) ++ rest)) by (apply (Permutation_in _ (Permutation_sym P)); left; reflexivity).
    apply in_app_or in Hx. destruct Hx as [Hx|Hx].
    + apply in_split in Hx. destruct Hx as (s1 & s2 & E).
      assert (PS : Permutation (y :: s) (x :: s1 ++ s2)) by (rewrite E; symmetry; apply Permutation_middle).
      rewrite (lsum_perm _ _ PS), (Permutation_length PS). cbn [length firstn].
      assert (PT : Permutation ((s1 ++ s2) ++ rest) t).
      { apply (Permutation_cons_inv (a := x)). rewrite <- P. change (x :: (s1 ++ s2) ++ rest) with ((x :: s1 ++ s2) ++ rest).
        apply Permutation_app_tail. symmetry. exact PS. }
      specialize (IH S _ _ PT). unfold lsum in *. cbn. lra.
    + apply in_split in Hx. destruct Hx as (r1 & r2 & ->).
      assert (PT : Permutation ((y :: s) ++ r1 ++ r2) t).
      { apply (Permutation_cons_inv (a := x)). rewrite <- P. rewrite app_assoc. etransitivity; [apply Permutation_middle|].
        rewrite <- app_assoc. reflexivity. }
      assert (Ey : x <= y).
      { rewrite Forall_forall in F. apply F, (Permutation_in _ PT). left. reflexivity. }
      assert (PT' : Permutation (s ++ y :: r1 ++ r2) t).
      { rewrite <- PT. cbn. symmetry. apply Permutation_middle. }
      specialize (IH S _ _ PT'). cbn [length firstn]. unfold lsum in *. cbn. lra.
Qed.
Lemma increasing_rev_opp l : increasing l -> increasing (rev (map Ropp l)).
Proof.
  induction 1 as [|x l S IH F]; cbn; [constructor|]. apply sorted_app; [exact IH|].
  intros y Hy. apply in_rev, in_map_iff in Hy. destruct Hy as (z & <- & Hz). rewrite Forall_forall in F. specialize (F z Hz). lra.
Qed.
Lemma lastn_most l : increasing l -> forall s rest, Permutation (s ++ rest) l -> lsum s <= lsum (skipn (length l - length s) l).
Proof.
  intros Hs s rest P.
  assert (Q : Permutation (map Ropp s ++ map Ropp rest) (rev (map Ropp l))).
  { rewrite <- map_app, <- Permutation_rev. apply Permutation_map, P. }
  pose proof (firstn_least _ (increasing_rev_opp l Hs) _ _ Q) as X. rewrite map_length in X.
  rewrite firstn_rev, map_length, skipn_map, <- map_rev in X. rewrite !lsum_opp in X.
  rewrite (lsum_perm (rev _) _ (Permutation_sym (Permutation_rev _))) in X. lra.
Qed.
Lemma sub_perm (N : nat) js : cases_of N js -> exists rest, Permutation (js ++ rest) (seq 0 N).
Proof.
  intros [D I]. assert (forall l : list nat, (forall j, In j js -> In j l) -> exists rest, Permutation (js ++ rest) l) as X.
  { clear I. induction D as [|j js Nj D IH]; intros l Hl; [exists l; reflexivity|].
    destruct (in_split _ _ (Hl j (or_introl eq_refl))) as (l1 & l2 & ->).
    destruct (IH (l1 ++ l2)) as (rest & P).
    - intros i Hi. specialize (Hl i (or_intror Hi)). apply in_app_or in Hl. apply in_or_app.
      destruct Hl as [Hl|[E|Hl]]; auto. subst i. contradiction.
    - exists rest. cbn. rewrite P. apply Permutation_middle. }
  apply X. intros j Hj. apply in_seq. specialize (I j Hj). lia.
Qed.
Lemma NoDup_skipn {A} n (l : list A) : NoDup l -> NoDup (skipn n l).
Proof. revert l. induction n as [|n IH]; intros [|x l] H; cbn; try assumption. inversion_clear H. auto. Qed.
Lemma NoDup_firstn {A} n (l : list A) : NoDup l -> NoDup (firstn n l).
Proof.
  revert l. induction n as [|n IH]; intros [|x l] H; cbn; try constructor; inversion_clear H.
  - intros X. assert (Y : In x l) by (rewrite <- (firstn_skipn n l); apply in_or_app; left; exact X). contradiction.
  - auto.
Qed.
Lemma In_firstn {A} n (l : list A) x : In x (firstn n l) -> In x l.
Proof. intros H. rewrite <- (firstn_skipn n l). apply in_or_app. auto. Qed.
Lemma In_skipn {A} n (l : list A) x : In x (skipn n l) -> In x l.
Proof. intros H. rewrite <- (firstn_skipn n l). apply in_or_app. auto. Qed.

Lemma column_nth B k j : nth j (column B k) 0 = nth k (nth j B []) 0.
Proof.
  unfold column. destruct (Nat.lt_ge_cases j (length B)) as [H|H].
  - rewrite (nth_indep _ 0 ((fun r => nth k r 0) [])) by (rewrite map_length; exact H). rewrite (map_nth (fun r => nth k r 0)). reflexivity.
  - rewrite !(nth_overflow _ _ H), nth_overflow by (rewrite map_length; exact H). destruct k; reflexivity.
Qed.
Lemma effect_map B js k : effect B js k = lsum (map (fun j => nth j (column B k) 0) js).
Proof. unfold effect. f_equal. apply map_ext. intros j. symmetry. apply column_nth. Qed.

Section Order.
Variables (B : list (list R)) (k n : nat) (o : list nat).
Hypothesis Po : Permutation o (seq 0 (length B)).
Hypothesis So : increasing (map (fun j => nth j (column B k) 0) o).
Hypothesis Hn : (n <= length B)%nat.
Lemma order_len : length o = length B.
Proof. rewrite (Permutation_length Po). apply seq_length. Qed.
Lemma order_cases : cases_of (length B) o.
Proof.
  split; [apply (Permutation_NoDup (Permutation_sym Po)), seq_NoDup|].
  intros j Hj. apply (Permutation_in _ Po), in_seq in Hj. lia.
Qed.
Lemma order_low : cases_of (length B) (firstn n o) /\ length (firstn n o) = n /\
  forall js, cases_of (length B) js -> length js = n -> effect B (firstn n o) k <= effect B js k.
Proof.
  destruct order_cases as [D I]. split; [split; [apply NoDup_firstn, D|intros j Hj; apply I, (In_firstn _ _ _ Hj)]|].
  split; [rewrite firstn_length, order_len; lia|]. intros js Hj L. destruct (sub_perm _ _ Hj) as (rest & P).
  rewrite !effect_map. rewrite <- firstn_map. set (v := fun j => nth j (column B k) 0) in *.
  assert (P' : Permutation (map v js ++ map v rest) (map v o)) by (rewrite <- map_app; apply Permutation_map; rewrite P; symmetry; exact Po).
  pose proof (firstn_least _ So _ _ P') as X. rewrite map_length, L in X. exact X.
Qed.
Lemma order_high : cases_of (length B) (skipn (length o - n) o) /\ length (skipn (length o - n) o) = n /\
  forall js, cases_of (length B) js -> length js = n -> effect B js k <= effect B (skipn (length o - n) o) k.
Proof.
  destruct order_cases as [D I]. split; [split; [apply NoDup_skipn, D|intros j Hj; apply I, (In_skipn _ _ _ Hj)]|].
  split; [rewrite skipn_length, order_len; lia|]. intros js Hj L. destruct (sub_perm _ _ Hj) as (rest & P).
  rewrite !effect_map. rewrite <- skipn_map. set (v := fun j => nth j (column B k) 0) in *.
  assert (P' : Permutation (map v js ++ map v rest) (map v o)) by (rewrite <- map_app; apply Permutation_map; rewrite P; symmetry; exact Po).
  pose proof (lastn_most _ So _ _ P') as X. rewrite !map_length, L in X. exact X.
Qed.
End Order.

Lemma nth_map_seq {A} (f : nat -> A) n k d : (k < n)%nat -> nth k (map f (seq 0 n)) d = f k.
Proof.
  intros H. rewrite (nth_indep _ d (f 0%nat)) by (rewrite map_length, seq_length; exact H).
  rewrite map_nth, seq_nth by exact H. reflexivity.
Qed.
Lemma map_combine_seq {A C} (f : nat * A -> C) (g : nat -> A) n :
  map f (combine (seq 0 n) (map g (seq 0 n))) = map (fun k => f (k, g k)) (seq 0 n).
Proof.
  generalize 0%nat. induction n as [|n IH]; intros s; cbn; [reflexivity|]. f_equal. apply IH.
Qed.

Lemma additive_spec argsort B n neg pos ineg ipos : sorts argsort ->
  additive_envelope argsort B n = Ok (neg, pos, ineg, ipos) ->
  length neg = cols B /\ length pos = cols B /\ length ineg = cols B /\ length ipos = cols B /\
  forall k, (k < cols B)%nat ->
    (cases_of (length B) (nth k ineg []) /\ length (nth k ineg []) = n /\ effect B (nth k ineg []) k = nth k neg 0) /\
    (cases_of (length B) (nth k ipos []) /\ length (nth k ipos []) = n /\ effect B (nth k ipos []) k = nth k pos 0) /\
    forall js, cases_of (length B) js -> length js = n -> nth k neg 0 <= effect B js k <= nth k pos 0.
Proof.
  intros Hs. unfold additive_envelope. destruct (negb (rect B)); [discriminate|]. destruct (Nat.ltb_spec n 1); [discriminate|].
  destruct (Nat.ltb_spec (length B) n); [discriminate|]. intros E. injection E as <- <- <- <-.
  rewrite !map_map, !map_combine_seq, !map_length, !seq_length. cbn [fst snd].
  repeat (split; [reflexivity|]). intros k Hk. rewrite !nth_map_seq by exact Hk.
  destruct (Hs (column B k)) as [P S]. unfold column in P at 2. rewrite map_length in P.
  set (o := argsort (column B k)) in *.
  destruct (order_low B k n o P S ltac:(lia)) as (a1 & a2 & a3), (order_high B k n o P S ltac:(lia)) as (b1 & b2 & b3).
  split; [split; [exact a1|split; [exact a2|reflexivity]]|]. split; [split; [exact b1|split; [exact b2|reflexivity]]|].
  intros js Hj L. split; [exact (a3 js Hj L)|exact (b3 js Hj L)].
Qed.
Lemma additive_total argsort B n : (exists e, additive_envelope argsort B n = Ok e) <->
  rect B = true /\ (1 <= n <= length B)%nat.
Proof.
  unfold additive_envelope. destruct (rect B); cbn [negb].
  - destruct (Nat.ltb_spec n 1); [split; [intros (e & E); discriminate|intros (_ & X); lia]|].
    destruct (Nat.ltb_spec (length B) n); [split; [intros (e & E); discriminate|intros (_ & X); lia]|].
    split; [intros _; split; [reflexivity|lia]|intros _; eexists; reflexivity].
  - split; [intros (e & E); discriminate|intros (X & _); discriminate].
Qed.

(** A sort meeting the contract: selection of indices by insertion. *)
Fixpoint insert_idx (l : list R) (i : nat) (o : list nat) : list nat :=
  match o with
  | [] => [i]
  | j :: t => if Rle_dec (nth i l 0) (nth j l 0) then i :: o else j :: insert_idx l i t
  end.
Definition insertion_argsort (l : list R) : list nat := fold_right (insert_idx l) [] (seq 0 (length l)).
Lemma insert_idx_perm l i o : Permutation (insert_idx l i o) (i :: o).
Proof. induction o as [|j o IH]; cbn; [reflexivity|]. destruct (Rle_dec _ _); [reflexivity|]. rewrite IH. apply perm_swap. Qed.
Lemma insert_idx_sorted l i o : increasing (map (fun j => nth j l 0) o) -> increasing (map (fun j => nth j l 0) (insert_idx l i o)).
Proof.
  unfold increasing. induction o as [|j o IH]; cbn; intros H; [repeat constructor|]. inversion_clear H as [|? ? S F].
  destruct (Rle_dec _ _) as [L|L]; cbn.
  - constructor; [constructor; assumption|]. constructor; [exact L|]. eapply Forall_impl; [|exact F]. cbn. intros; lra.
  - constructor; [apply IH, S|]. apply (Permutation_Forall (Permutation_sym (Permutation_map _ (insert_idx_perm l i o)))). cbn. constructor; [lra|exact F].
Qed.
Lemma insertion_sorts : sorts insertion_argsort.
Proof.
  intros l. unfold insertion_argsort. generalize (seq 0 (length l)) as is. induction is as [|i is [IH1 IH2]]; cbn [fold_right].
  - split; [reflexivity|constructor].
  - split; [rewrite insert_idx_perm; constructor; exact IH1|apply insert_idx_sorted, IH2].
Qed.

(** ** Sign-selective envelope *)
Lemma lsum_nonpos l : Forall (fun x => x <= 0) l -> lsum l <= 0.
Proof. unfold lsum. induction 1; cbn; lra. Qed.
Lemma lsum_filter_le (v : nat -> R) P l : (forall j, P j = false -> 0 <= v j) -> lsum (map v (filter P l)) <= lsum (map v l).
Proof. unfold lsum. intros H. induction l as [|j l IH]; cbn; [lra|]. destruct (P j) eqn:E; cbn; [lra|]. specialize (H j E). lra. Qed.
Lemma perm_filter' {A} (P : A -> bool) l l' : Permutation l l' -> Permutation (filter P l) (filter P l').
Proof.
  induction 1; cbn; [constructor| | |etransitivity; eassumption].
  - destruct (P x); [constructor|]; assumption.
  - destruct (P x), (P y); try reflexivity. apply perm_swap.
Qed.
Lemma low_sum (v : nat -> R) P N js : cases_of N js -> (forall j, P j = true -> v j <= 0) -> (forall j, P j = false -> 0 <= v j) ->
  lsum (map v (filter P (seq 0 N))) <= lsum (map v js).
Proof.
  intros Hj H1 H2. destruct (sub_perm _ _ Hj) as (rest & Pm).
  rewrite <- (lsum_perm _ _ (Permutation_map v (perm_filter' P _ _ Pm))), filter_app, map_app, lsum_app.
  pose proof (lsum_filter_le v P js H2). assert (lsum (map v (filter P rest)) <= 0); [|lra].
  apply lsum_nonpos, Forall_forall. intros x Hx. apply in_map_iff in Hx. destruct Hx as (j & <- & Hx). apply filter_In in Hx. apply H1, Hx.
Qed.
Lemma high_sum (v : nat -> R) P N js : cases_of N js -> (forall j, P j = true -> 0 <= v j) -> (forall j, P j = false -> v j <= 0) ->
  lsum (map v js) <= lsum (map v (filter P (seq 0 N))).
Proof.
  intros Hj H1 H2. pose proof (low_sum (fun j => - v j) P N js Hj) as X.
  rewrite <- !(map_map v Ropp), !lsum_opp in X.
  assert (Y : - lsum (map v (filter P (seq 0 N))) <= - lsum (map v js)); [|lra].
  apply X; intros j H; [specialize (H1 j H)|specialize (H2 j H)]; lra.
Qed.
Lemma filter_cases P N : cases_of N (filter P (seq 0 N)).
Proof. split; [apply NoDup_filter, seq_NoDup|]. intros j Hj. apply filter_In in Hj. destruct Hj as [Hj _]. apply in_seq in Hj. lia. Qed.
Lemma sum_where (v : nat -> R) (P : nat -> bool) l : lsum (map (fun j => if P j then v j else 0) l) = lsum (map v (filter P l)).
Proof. unfold lsum. induction l as [|j l IH]; cbn; [reflexivity|]. destruct (P j); cbn; lra. Qed.
Lemma column_seq B k : column B k = map (fun j => nth k (nth j B []) 0) (seq 0 (length B)).
Proof.
  apply (nth_ext _ _ 0 0); [unfold column; rewrite !map_length, seq_length; reflexivity|].
  intros j Hj. unfold column in Hj. rewrite map_length in Hj. rewrite column_nth, nth_map_seq by exact Hj. reflexivity.
Qed.

(** Masks. *)
Lemma lor_fold l z : fold_left Z.lor l z = Z.lor z (fold_right Z.lor 0%Z l).
Proof. revert z. induction l as [|x l IH]; intros z; cbn; [rewrite Z.lor_0_r; reflexivity|]. rewrite IH, Z.lor_assoc. reflexivity. Qed.
Definition bneg (B : list (list R)) (k j : nat) := Rltb (nth k (nth j B []) 0) 0.
Definition bpos (B : list (list R)) (k j : nat) := Rltb 0 (nth k (nth j B []) 0).
Lemma mask_fold B k (ps : list Z) : forall (is : list nat) (m0 : Z * Z), (forall i, In i is -> (i < length ps)%nat) ->
  fold_left (fun m p => let b := nth k (nth (fst p) B []) 0 in
      if Rltb b 0 then (Z.lor (fst m) (snd p), snd m) else if Rltb 0 b then (fst m, Z.lor (snd m) (snd p)) else m)
    (map (fun i => (i, nth i ps 0%Z)) is) m0 =
  (Z.lor (fst m0) (mask_of ps (filter (bneg B k) is)), Z.lor (snd m0) (mask_of ps (filter (bpos B k) is))).
Proof.
  induction is as [|i is IH]; intros [m1 m2] Hi; cbn [map fold_left filter fst snd].
  - unfold mask_of. cbn. rewrite !Z.lor_0_r. reflexivity.
  - rewrite IH by (intros j Hj; apply Hi; right; exact Hj). unfold bneg, bpos. cbv zeta.
    set (b := nth k (nth i B []) 0). unfold Rltb. destruct (Rlt_dec b 0) as [L|L]; destruct (Rlt_dec 0 b) as [U|U]; try lra; cbn [fst snd].
    + unfold mask_of at 3. cbn [map fold_right]. rewrite Z.lor_assoc. reflexivity.
    + unfold mask_of at 4. cbn [map fold_right]. rewrite Z.lor_assoc. reflexivity.
    + reflexivity.
Qed.
Lemma combine_nth_seq {A} (l : list A) d : combine (seq 0 (length l)) l = map (fun i => (i, nth i l d)) (seq 0 (length l)).
Proof.
  apply (nth_ext _ _ (0%nat, d) (0%nat, d)); [rewrite combine_length, map_length, seq_length; lia|].
  intros j Hj. rewrite combine_length, seq_length in Hj. rewrite combine_nth by apply seq_length. rewrite nth_map_seq, seq_nth by lia. reflexivity.
Qed.
Lemma default_mask_bits N js : cases_of N js -> forall j, Z.testbit (mask_of (default_masks N) js) (Z.of_nat j) = true <-> In j js.
Proof.
  intros [D I] j. clear D. induction js as [|i js IH]; unfold mask_of; cbn [map fold_right].
  - rewrite Z.bits_0. split; [discriminate|intros []].
  - rewrite Z.lor_spec, Bool.orb_true_iff. fold (mask_of (default_masks N) js). rewrite IH by (intros a Ha; apply I; right; exact Ha).
    unfold default_masks. rewrite nth_map_seq by (apply I; left; reflexivity).
    rewrite Z.pow2_bits_eqb by lia. rewrite Z.eqb_eq. cbn [In]. split; intros [H|H]; auto; left; lia.
Qed.
Lemma shift_pow i : Z.shiftl 1 (Z.of_nat i) = (2 ^ Z.of_nat i)%Z.
Proof. rewrite Z.shiftl_mul_pow2 by lia. ring. Qed.

Lemma selective_spec B pos neg posv mneg mpos : sign_selective B pos = Ok (neg, posv, mneg, mpos) ->
  length neg = cols B /\ length posv = cols B /\ length mneg = cols B /\ length mpos = cols B /\
  forall k, (k < cols B)%nat ->
    let ps := match pos with Some l => l | None => default_masks (length B) end in
    exists lo hi, cases_of (length B) lo /\ cases_of (length B) hi /\
      effect B lo k = nth k neg 0 /\ effect B hi k = nth k posv 0 /\
      nth k mneg 0%Z = mask_of ps lo /\ nth k mpos 0%Z = mask_of ps hi /\
      (forall js, cases_of (length B) js -> nth k neg 0 <= effect B js k <= nth k posv 0).
Proof.
  unfold sign_selective. destruct (negb (rect B)); [discriminate|]. intros H. apply rbind_ok in H as (ps & Hps & H).
  assert (L : length ps = length B /\ ps = match pos with Some l => l | None => default_masks (length B) end).
  { destruct pos as [l|].
    - destruct (Nat.eqb_spec (length l) (length B)); cbn in Hps; [|discriminate]. injection Hps as <-. auto.
    - injection Hps as <-. rewrite map_length, seq_length. split; [reflexivity|]. apply map_ext, shift_pow. }
  clear Hps. destruct L as [L E]. rewrite <- E. clear E. injection H as <- <- <- <-.
  rewrite !map_length, !seq_length. repeat (split; [reflexivity|]). intros k Hk. cbv zeta.
  rewrite !map_map, !nth_map_seq by exact Hk.
  rewrite (combine_nth_seq ps 0%Z), mask_fold by (intros i Hi; apply in_seq in Hi; lia). cbn [fst snd]. rewrite !Z.lor_0_l, L.
  exists (filter (bneg B k) (seq 0 (length B))), (filter (bpos B k) (seq 0 (length B))).
  rewrite column_seq, !map_map. set (v := fun j => nth k (nth j B []) 0).
  rewrite (sum_where v (bneg B k)), (sum_where v (bpos B k)). unfold effect. fold v.
  split; [apply filter_cases|]. split; [apply filter_cases|]. split; [reflexivity|]. split; [reflexivity|].
  split; [reflexivity|]. split; [reflexivity|]. intros js Hj. unfold bneg, bpos. fold v. split.
  - apply low_sum; [exact Hj| |]; intros j; unfold v, Rltb; destruct (Rlt_dec _ _); try discriminate; intros; lra.
  - apply high_sum; [exact Hj| |]; intros j; unfold v, Rltb; destruct (Rlt_dec _ _); try discriminate; intros; lra.
Qed.

(** ** Factors *)
Lemma name_index_ok s cs : forall i0 k, name_index_from s cs i0 = Some k ->
  (i0 <= k)%nat /\ exists c, nth_error cs (k - i0) = Some c /\ lc_name c = s.
Proof.
  induction cs as [|c cs IH]; intros i0 k H; cbn in H; [discriminate|].
  destruct (name_index_from s cs (S i0)) as [k'|] eqn:E.
  - injection H as <-. destruct (IH _ _ E) as (L & c' & N & Hc). split; [lia|]. exists c'. replace (k' - i0)%nat with (S (k' - S i0)) by lia. auto.
  - destruct (String.eqb_spec (lc_name c) s) as [Ec|]; [|discriminate]. injection H as <-. split; [lia|]. rewrite Nat.sub_diag. exists c. auto.
Qed.
Lemma name_index_none s cs : forall i0, name_index_from s cs i0 = None -> forall c, In c cs -> lc_name c <> s.
Proof.
  induction cs as [|c cs IH]; intros i0 H x Hx; [destruct Hx|]. cbn in H.
  destruct (name_index_from s cs (S i0)) eqn:E; [discriminate|]. destruct (String.eqb_spec (lc_name c) s); [discriminate|].
  destruct Hx as [<-|Hx]; [assumption|]. apply (IH _ E x Hx).
Qed.
Lemma nodup_name cs i j c d : unique_names cs -> nth_error cs i = Some c -> nth_error cs j = Some d -> lc_name c = lc_name d -> i = j.
Proof.
  intros U Hi Hj E. unfold unique_names in U. rewrite NoDup_nth_error in U. apply U.
  - rewrite map_length. apply nth_error_Some. rewrite Hi. discriminate.
  - rewrite !nth_error_map, Hi, Hj. cbn. rewrite E. reflexivity.
Qed.
Lemma key_index_ok cs k i : unique_names cs -> key_index cs k = Ok i ->
  (i < length cs)%nat /\ forall j, (j < length cs)%nat -> (names_case cs k j <-> j = i).
Proof.
  intros U. destruct k as [s|z]; cbn [key_index names_case].
  - destruct (name_index_from s cs 0) as [k|] eqn:E; [|discriminate]. intros H. injection H as <-.
    destruct (name_index_ok _ _ _ _ E) as (_ & c & N & Hc). rewrite Nat.sub_0_r in N.
    split; [apply nth_error_Some; rewrite N; discriminate|]. intros j Hj. split.
    + intros (d & Nd & Hd). apply (nodup_name cs j k d c U Nd N). congruence.
    + intros ->. exists c. auto.
  - unfold py_index. destruct (Z.leb_spec 0 z).
    + destruct (Z.ltb_spec z (Z.of_nat (length cs))); [|discriminate]. intros H2. injection H2 as <-. split; [lia|]. intros j Hj. lia.
    + destruct (Z.leb_spec 0 (z + Z.of_nat (length cs))); [|discriminate]. intros H2. injection H2 as <-. split; [lia|]. intros j Hj. lia.
Qed.
Lemma key_index_err cs k e : key_index cs k = Err e -> forall j, (j < length cs)%nat -> ~ names_case cs k j.
Proof.
  destruct k as [s|z]; cbn [key_index names_case].
  - destruct (name_index_from s cs 0) as [k|] eqn:E; [discriminate|]. intros _ j Hj (c & N & Hc).
    apply (name_index_none _ _ _ E c (nth_error_In _ _ N) Hc).
  - unfold py_index. destruct (Z.leb_spec 0 z).
    + destruct (Z.ltb_spec z (Z.of_nat (length cs))); [discriminate|]. intros _ j Hj. lia.
    + destruct (Z.leb_spec 0 (z + Z.of_nat (length cs))); [discriminate|]. intros _ j Hj. lia.
Qed.
Lemma set_nth_len l i v : length (set_nth l i v) = length l.
Proof. revert i. induction l as [|x l IH]; intros [|i]; cbn; auto. Qed.
Lemma set_nth_nth l i v j : (i < length l)%nat -> nth j (set_nth l i v) 0 = if Nat.eqb j i then v else nth j l 0.
Proof. revert i j. induction l as [|x l IH]; intros [|i] [|j] H; cbn in *; try lia; auto. apply IH. lia. Qed.
Lemma map_factors_ok cs m out : unique_names cs -> map_factors cs m = Ok out ->
  length out = length cs /\ forall j, (j < length cs)%nat -> mapped_factor cs m j (nth j out 0).
Proof.
  intros U. unfold map_factors. revert out. induction m as [|[k v] m IH] using rev_ind; intros out H.
  - cbn in H. injection H as <-. rewrite repeat_length. split; [reflexivity|]. intros j Hj. right. rewrite nth_repeat. split; [reflexivity|]. intros k' v' [].
  - rewrite foldM_app in H. apply rbind_ok in H as (o & Ho & H). destruct (IH o Ho) as (L & P). clear IH.
    cbn [foldM] in H. apply rbind_ok in H as (o' & Ho' & H). injection H as <-. apply rbind_ok in Ho' as (i & Hi & Ho'). injection Ho' as <-.
    cbn [fst snd] in *. destruct (key_index_ok _ _ _ U Hi) as [Li Ni]. split; [rewrite set_nth_len; exact L|].
    intros j Hj. rewrite set_nth_nth by lia. destruct (Nat.eqb_spec j i) as [->|D].
    + left. exists m, k, []. split; [reflexivity|]. split; [apply Ni; auto|]. intros k' v' [].
    + assert (Nk : ~ names_case cs k j) by (rewrite Ni by exact Hj; exact D). destruct (P j Hj) as [(m1 & k1 & m2 & E & A & Bn)|(E & Bn)].
      * left. exists m1, k1, (m2 ++ [(k, v)]). split; [rewrite E, <- app_assoc; reflexivity|]. split; [exact A|].
        intros k' v' I. apply in_app_or in I. destruct I as [I|[I|[]]]; [exact (Bn k' v' I)|]. injection I as <- <-. exact Nk.
      * right. split; [exact E|]. intros k' v' I. apply in_app_or in I. destruct I as [I|[I|[]]]; [exact (Bn k' v' I)|]. injection I as <- <-. exact Nk.
Qed.
(** Raises exactly when some key names no case. *)
Lemma map_factors_err cs m : unique_names cs -> (exists e, map_factors cs m = Err e) <->
  exists k v, In (k, v) m /\ forall j, (j < length cs)%nat -> ~ names_case cs k j.
Proof.
  intros U. unfold map_factors. generalize (repeat 0 (length cs)) as o. induction m as [|[k v] m IH]; intros o; cbn [foldM].
  - split; [intros (e & E); discriminate|intros (k & v & [] & _)].
  - cbn [fst snd]. destruct (key_index cs k) as [i|e] eqn:E; cbn [rbind].
    + rewrite IH. split.
      * intros (k' & v' & I & N). exists k', v'. split; [right; exact I|exact N].
      * intros (k' & v' & [I|I] & N); [|exists k', v'; auto]. injection I as <- <-. exfalso.
        destruct (key_index_ok _ _ _ U E) as [Li Ni]. apply (N i Li). apply Ni; auto.
    + split; [intros _|intros _; eauto]. exists k, v. split; [left; reflexivity|]. exact (key_index_err _ _ _ E).
Qed.

(** ** Products with the response matrix *)
Lemma rsum_S_shift n f : rsum (S n) f = f 0%nat + rsum n (fun i => f (S i)).
Proof. induction n as [|n IH]; [cbn; ring|]. change (rsum (S n) f + f (S n) = f 0%nat + (rsum n (fun i => f (S i)) + f (S n))). rewrite IH. ring. Qed.
Lemma dot_rsum f v : length f = length v -> dot f v = rsum (length v) (fun j => nth j f 0 * nth j v 0).
Proof.
  revert v. induction f as [|x f IH]; intros [|y v] E; try discriminate; [reflexivity|].
  cbn [length]. rewrite rsum_S_shift. unfold dot, lsum. cbn [combine map fold_right fst snd nth].
  fold (lsum (map (fun p => fst p * snd p) (combine f v))). fold (dot f v). rewrite IH by (cbn in E; lia). reflexivity.
Qed.
Lemma matvec_len f B : length (matvec f B) = cols B.
Proof. unfold matvec. rewrite map_length, seq_length. reflexivity. Qed.
Lemma matvec_nth f B k : (k < cols B)%nat -> nth k (matvec f B) 0 = dot f (column B k).
Proof. intros H. unfold matvec. rewrite nth_map_seq by exact H. reflexivity. Qed.
Lemma matvec_combines f B : length f = length B -> (forall r, In r B -> length r = cols B) -> combines f B (matvec f B).
Proof.
  intros E Hr. split; rewrite matvec_len; [exact Hr|]. intros k Hk. rewrite matvec_nth by exact Hk.
  rewrite dot_rsum by (unfold column; rewrite map_length; exact E). unfold column at 1. rewrite map_length.
  apply rsum_ext. intros j Hj. rewrite column_nth. reflexivity.
Qed.

(** ** Reading is linear *)
Section Keyed.
Context {A : Type}.
Fixpoint insert_key (p : R * A) (l : list (R * A)) : list (R * A) :=
  match l with
  | [] => [p]
  | q :: t => if Rltb (fst p) (fst q) then p :: l
              else if Req_EM_T (fst p) (fst q) then l else q :: insert_key p t
  end.
Definition val (g : A -> R) (p : R * A) : R * R := (fst p, g (snd p)).
Lemma insert_key_map g p l : insert_new (val g p) (map (val g) l) = map (val g) (insert_key p l).
Proof.
  induction l as [|q l IH]; cbn [map insert_new insert_key]; [reflexivity|]. cbn [val fst]. destruct (Rltb (fst p) (fst q)); [reflexivity|].
  destruct (Req_EM_T (fst p) (fst q)); [reflexivity|]. cbn [map]. f_equal. exact IH.
Qed.
Lemma insert_keys_map g ps : forall acc, fold_left (fun acc p => insert_new p acc) (map (val g) ps) (map (val g) acc) =
  map (val g) (fold_left (fun acc p => insert_key p acc) ps acc).
Proof. induction ps as [|p ps IH]; intros acc; cbn [map fold_left]; [reflexivity|]. rewrite insert_key_map. apply IH. Qed.
Lemma interp_lin (g g1 g2 : A -> R) c1 c2 x t : (forall i, g i = c1 * g1 i + c2 * g2 i) ->
  interp x (map (val g) t) = c1 * interp x (map (val g1) t) + c2 * interp x (map (val g2) t).
Proof.
  intros H.
  assert (F : forall t x0 i0, interp_from x x0 (g i0) (map (val g) t) =
    c1 * interp_from x x0 (g1 i0) (map (val g1) t) + c2 * interp_from x x0 (g2 i0) (map (val g2) t)).
  { clear t. induction t as [|[x1 i1] t IH]; intros x0 i0; cbn; [apply H|].
    destruct (Rltb x x1); [rewrite !H; unfold Rdiv; ring|apply IH]. }
  destruct t as [|[x0 i0] t]; cbn; [ring|]. destruct (Rltb x x0); [apply H|apply F].
Qed.
End Keyed.
Lemma read_keyed x xs vs : length vs = length xs ->
  read_at x xs vs = interp x (map (val (fun i => nth i vs 0)) (fold_left (fun acc p => insert_key p acc) (combine xs (seq 0 (length xs))) [])).
Proof.
  intros E. unfold read_at, unique_first. f_equal. rewrite <- insert_keys_map. cbn [map]. f_equal.
  apply (nth_ext _ _ (0, 0) (0, 0)); [rewrite map_length, !combine_length, seq_length; lia|].
  intros i Hi. rewrite combine_length in Hi. rewrite combine_nth by lia.
  rewrite (nth_indep _ (0, 0) (val (fun i => nth i vs 0) (0, 0%nat))) by (rewrite map_length, combine_length, seq_length; lia).
  rewrite map_nth, combine_nth by (rewrite seq_length; reflexivity). unfold val. cbn [fst snd]. rewrite seq_nth by lia. reflexivity.
Qed.
Lemma read_zero x xs vs : length vs = length xs -> (forall i, nth i vs 0 = 0) -> read_at x xs vs = 0.
Proof.
  intros E Z. rewrite (read_keyed x xs vs E).
  rewrite (interp_lin _ (fun i => nth i vs 0) (fun i => nth i vs 0) 0 0); [ring|]. intros i. rewrite Z. ring.
Qed.
Lemma read_combines x xs f B y : length f = length B -> length y = length xs -> combines f B y ->
  read_at x xs y = rsum (length B) (fun j => nth j f 0 * read_at x xs (nth j B [])).
Proof.
  revert B y. induction f as [|c f IH]; intros [|r B] y E Ey [Hr Hy]; try discriminate.
  - cbn. apply read_zero; [exact Ey|]. intros i. destruct (Nat.lt_ge_cases i (length y)); [rewrite Hy by assumption; reflexivity|apply nth_overflow; assumption].
  - cbn [length]. rewrite rsum_S_shift. cbn [nth].
    set (y' := map (fun k => rsum (length B) (fun j => nth j f 0 * nth k (nth j B []) 0)) (seq 0 (length y))).
    assert (Ly : length y' = length y) by (unfold y'; rewrite map_length, seq_length; reflexivity).
    assert (C : combines f B y').
    { split; rewrite Ly; [intros q Hq; apply Hr; right; exact Hq|]. intros k Hk. unfold y'. rewrite nth_map_seq by exact Hk. reflexivity. }
    rewrite <- (IH B y' ltac:(cbn in E; lia) ltac:(lia) C).
    rewrite (read_keyed x xs y Ey), (read_keyed x xs y') by lia. rewrite (read_keyed x xs r) by (rewrite <- Ey; apply Hr; left; reflexivity).
    rewrite (interp_lin (fun i => nth i y 0) (fun i => nth i r 0) (fun i => nth i y' 0) c 1); [ring|].
    intros k. destruct (Nat.lt_ge_cases k (length y)) as [Hk|Hk].
    + rewrite Hy by exact Hk. cbn [length]. rewrite rsum_S_shift. cbn [nth]. unfold y'. rewrite nth_map_seq by exact Hk. ring.
    + rewrite !nth_overflow; [ring|lia| |exact Hk]. rewrite (Hr r (or_introl eq_refl)). exact Hk.
Qed.

(** ** Target combinations *)
Lemma rsum_le n f g : (forall i, (i < n)%nat -> f i <= g i) -> rsum n f <= rsum n g.
Proof. induction n as [|n IH]; cbn; intros H; [lra|]. assert (rsum n f <= rsum n g) by (apply IH; intros; apply H; lia). specialize (H n ltac:(lia)). lra. Qed.
Lemma collect_fold gl ill t cs resp : forall st0 st,
  foldM (fun st c =>
      do xy <- analyse_load_case gl ill t (lc_loads c) resp;
      match fst st with
      | None => Ok (Some (fst xy), snd st ++ [snd xy])
      | Some x0 => if allclose (fst xy) x0 then Ok (fst st, snd st ++ [snd xy]) else Err ValueError
      end) cs st0 = Ok st ->
  exists rows, snd st = snd st0 ++ rows /\ length rows = length cs /\
    (forall j c, nth_error cs j = Some c -> exists x y, analyse_load_case gl ill t (lc_loads c) resp = Ok (x, y) /\ nth_error rows j = Some y /\
       match fst st with Some x0 => x = x0 \/ allclose x x0 = true | None => False end) /\
    (fst st0 <> None -> fst st = fst st0) /\
    (fst st0 = None -> forall c, nth_error cs 0 = Some c -> exists x y, fst st = Some x /\ analyse_load_case gl ill t (lc_loads c) resp = Ok (x, y)).
Proof.
  induction cs as [|c cs IH]; intros st0 st H.
  - cbn in H. injection H as <-. exists []. rewrite app_nil_r. repeat (split; [reflexivity|]). split; [intros [|j] d Hd; discriminate|].
    split; [reflexivity|]. intros _ d Hd. discriminate.
  - cbn [foldM] in H. apply rbind_ok in H as (s1 & H1 & H). apply rbind_ok in H1 as ([x y] & Hxy & H1). cbn [fst snd] in H1.
    destruct (IH s1 st H) as (rows & A1 & A2 & A3 & A4 & A5).
    assert (S1 : snd s1 = snd st0 ++ [y] /\ fst s1 <> None /\ (fst st0 <> None -> fst s1 = fst st0) /\ (fst st0 = None -> fst s1 = Some x) /\
      (forall x0, fst s1 = Some x0 -> x = x0 \/ allclose x x0 = true)).
    { destruct (fst st0) as [x0|] eqn:E0.
      - destruct (allclose x x0) eqn:EA; [|discriminate]. injection H1 as <-. cbn. split; [reflexivity|]. split; [discriminate|]. split; [auto|].
        split; [discriminate|]. intros z Hz. injection Hz as <-. auto.
      - injection H1 as <-. cbn. split; [reflexivity|]. split; [discriminate|]. split; [congruence|]. split; [auto|]. intros z Hz. injection Hz as <-. auto. }
    destruct S1 as (B1 & B2 & B3 & B4 & B5). specialize (A4 B2). exists (y :: rows). split; [rewrite A1, B1, <- app_assoc; reflexivity|].
    split; [cbn; rewrite A2; reflexivity|]. split.
    { intros [|j] d Hd; [|exact (A3 j d Hd)]. cbn in Hd. injection Hd as <-. exists x, y. split; [exact Hxy|]. split; [reflexivity|].
      rewrite A4. destruct (fst s1) as [z|]; [apply B5; reflexivity|contradiction]. }
    split; [intros N; rewrite A4; exact (B3 N)|]. intros N d Hd. cbn in Hd. injection Hd as <-. exists x, y. split; [rewrite A4; exact (B4 N)|exact Hxy].
Qed.
Lemma collect_spec gl ill t cs resp xs B : collect_responses gl ill t cs resp = Ok (xs, B) ->
  length B = length cs /\ cs <> [] /\
  (exists c y, nth_error cs 0 = Some c /\ analyse_load_case gl ill t (lc_loads c) resp = Ok (xs, y)) /\
  forall j c, nth_error cs j = Some c -> exists x y, analyse_load_case gl ill t (lc_loads c) resp = Ok (x, y) /\
    nth_error B j = Some y /\ (x = xs \/ allclose x xs = true).
Proof.
  unfold collect_responses. intros H. apply rbind_ok in H as (st & Hst & H). destruct (collect_fold _ _ _ _ _ _ _ Hst) as (rows & A1 & A2 & A3 & A4 & A5).
  cbn in A1, A5. destruct (fst st) as [x|] eqn:E; [|discriminate]. injection H as -> <-. rewrite A1.
  split; [exact A2|]. destruct cs as [|c cs]; [cbn in Hst; injection Hst as <-; discriminate|]. split; [discriminate|].
  split; [|exact A3]. destruct (A5 eq_refl c eq_refl) as (x & y & Ex & Hc). injection Ex as ->. exists c, y. auto.
Qed.
Lemma response_at_ok xs B x vs : response_at xs B x = Ok vs ->
  (forall r, In r B -> length r = length xs) /\ vs = map (read_at x xs) B /\ lmin xs <= x <= lmax xs.
Proof.
  unfold response_at. destruct (forallb _ B) eqn:E; cbn [negb]; [|discriminate].
  unfold Rltb. destruct (Rlt_dec x (lmin xs)) as [L|L]; [discriminate|]. destruct (Rlt_dec (lmax xs) x) as [U|U]; [discriminate|].
  cbn [orb]. intros H. injection H as <-. rewrite forallb_forall in E. split; [|split; [reflexivity|lra]].
  intros r Hr. apply Nat.eqb_eq, E, Hr.
Qed.
Lemma combine_1 gl ill t cs f resp xs B : collect_responses gl ill t cs resp = Ok (xs, B) -> length f = length cs ->
  lcs_combine gl ill t cs (FSeq f) resp = Ok (xs, F1 (matvec f B)).
Proof. intros H L. unfold lcs_combine. rewrite H. cbn [rbind lcs_factors]. rewrite L, Nat.eqb_refl. reflexivity. Qed.
Lemma nth_map_dflt {A} (g : A -> R) l j d d' : (j < length l)%nat -> nth j (map g l) d = g (nth j l d').
Proof. intros H. rewrite (nth_indep _ d (g d')) by (rewrite map_length; exact H). apply map_nth. Qed.

Section Target.
Variables (gl : nat -> list (R * R)) (ill : nat -> mat -> bool) (t : template) (cs : list lcase) (x : R)
  (sense resp : string) (sel unsel : R) (mn : bool) (tc : tcomb) (xs : list R) (B : list (list R)).
Hypothesis HT : target_combination gl ill t cs x sense resp sel unsel = Ok tc.
Hypothesis HS : sense_of sense = Some mn.
Hypothesis HC : collect_responses gl ill t cs resp = Ok (xs, B).
Lemma target_parts : (forall r, In r B -> length r = length xs) /\ length B = length cs /\ B <> [] /\
  tc_values tc = map (read_at x xs) B /\ tc_factors tc = target_factors mn sel unsel (tc_values tc) /\
  tc_selected tc = map (fun p => lc_name (fst p)) (filter (fun p => chosen mn (snd p)) (combine cs (tc_values tc))).
Proof.
  revert HT. unfold target_combination. rewrite HS, HC. cbn [rbind fst snd]. intros H. apply rbind_ok in H as (vs & Hv & H). injection H as <-.
  destruct (response_at_ok _ _ _ _ Hv) as (A & Bv & _). destruct (collect_spec _ _ _ _ _ _ _ HC) as (L & N & _). cbn.
  split; [exact A|]. split; [exact L|]. split; [destruct B; [destruct cs; [congruence|discriminate]|discriminate]|]. split; [exact Bv|]. auto.
Qed.
Lemma target_reads f y : length f = length cs -> lcs_combine gl ill t cs (FSeq f) resp = Ok (xs, F1 y) ->
  read_at x xs y = rsum (length B) (fun j => nth j f 0 * read_at x xs (nth j B [])).
Proof.
  intros L H. rewrite (combine_1 _ _ _ _ _ _ _ _ HC L) in H. injection H as <-. destruct target_parts as (A & LB & NB & _).
  assert (C : cols B = length xs) by (destruct B as [|r q]; [congruence|apply A; left; reflexivity]).
  apply read_combines; [lia|rewrite matvec_len; exact C|]. apply matvec_combines; [lia|]. rewrite C. exact A.
Qed.
Lemma target_best f : factors_among unsel sel (length cs) f -> exists y z,
  lcs_combine gl ill t cs (FSeq (tc_factors tc)) resp = Ok (xs, F1 y) /\ lcs_combine gl ill t cs (FSeq f) resp = Ok (xs, F1 z) /\
  (if mn then read_at x xs y <= read_at x xs z else read_at x xs z <= read_at x xs y).
Proof.
  intros [L F]. destruct target_parts as (A & LB & NB & V & Ef & _).
  assert (Lf : length (tc_factors tc) = length cs) by (rewrite Ef; unfold target_factors; rewrite map_length, V, map_length; exact LB).
  exists (matvec (tc_factors tc) B), (matvec f B). split; [apply combine_1; assumption|]. split; [apply combine_1; assumption|].
  rewrite (target_reads (tc_factors tc) _ Lf (combine_1 _ _ _ _ _ _ _ _ HC Lf)), (target_reads f _ L (combine_1 _ _ _ _ _ _ _ _ HC L)).
  assert (E : forall j, (j < length B)%nat -> nth j (tc_factors tc) 0 = if chosen mn (read_at x xs (nth j B [])) then sel else unsel).
  { intros j Hj. rewrite Ef. unfold target_factors. rewrite (nth_map_dflt _ _ _ _ 0) by (rewrite V, map_length; exact Hj).
    rewrite V, (nth_map_dflt _ _ _ _ []) by exact Hj. reflexivity. }
  destruct mn; apply rsum_le; intros j Hj; rewrite (E j Hj); specialize (F j ltac:(lia)); unfold chosen, Rltb; destruct (Rlt_dec _ _); nra.
Qed.
Lemma target_factor j y : nth_error B j = Some y -> nth_error (tc_factors tc) j = Some (if chosen mn (read_at x xs y) then sel else unsel).
Proof.
  intros Hj. destruct target_parts as (_ & _ & _ & V & Ef & _). rewrite Ef. unfold target_factors. rewrite V, !nth_error_map, Hj. reflexivity.
Qed.
Lemma target_names s : In s (tc_selected tc) <-> exists j c y, nth_error cs j = Some c /\ nth_error B j = Some y /\ lc_name c = s /\ chosen mn (read_at x xs y) = true.
Proof.
  destruct target_parts as (_ & LB & _ & V & _ & Es). rewrite Es, in_map_iff. split.
  - intros ([c v] & E & I). apply filter_In in I. destruct I as [I Ch]. cbn [fst snd] in *.
    apply (In_nth_error (combine cs (tc_values tc))) in I. destruct I as (j & Hj). exists j, c.
    assert (Nc : nth_error cs j = Some c /\ nth_error (tc_values tc) j = Some v).
    { clear -Hj. revert j Hj. generalize (tc_values tc) as vs. induction cs as [|a l IH]; intros [|b vs] [|j] Hj; cbn in *; try discriminate; auto. injection Hj as -> ->. auto. }
    destruct Nc as [Nc Nv]. rewrite V, nth_error_map in Nv. destruct (nth_error B j) as [y|]; [|discriminate]. cbn in Nv. injection Nv as <-. exists y. auto.
  - intros (j & c & y & Nc & Ny & E & Ch). exists (c, read_at x xs y). split; [exact E|]. apply filter_In. split; [|exact Ch].
    apply (nth_error_In _ j). rewrite V. clear -Nc Ny. revert cs j B Nc Ny. induction cs as [|a l IH]; intros [|j] [|b B] Nc Ny; cbn in *; try discriminate; auto.
    injection Nc as ->. injection Ny as ->. reflexivity.
Qed.
End Target.

Lemma sense_words s : sense_of s = if existsb (String.eqb (lower s)) min_words then Some true
  else if existsb (String.eqb (lower s)) max_words then Some false else None.
Proof. unfold sense_of, min_words, max_words. cbn [existsb]. rewrite !orb_false_r, !orb_assoc. reflexivity. Qed.
Lemma sense_min s : In (lower s) min_words -> sense_of s = Some true.
Proof. intros H. rewrite sense_words. replace (existsb (String.eqb (lower s)) min_words) with true; [reflexivity|]. symmetry. apply existsb_exists. exists (lower s). rewrite String.eqb_refl. auto. Qed.
Lemma sense_max s : In (lower s) max_words -> sense_of s = Some false.
Proof.
  intros H. rewrite sense_words. replace (existsb (String.eqb (lower s)) max_words) with true by (symmetry; apply existsb_exists; exists (lower s); rewrite String.eqb_refl; auto).
  destruct (existsb (String.eqb (lower s)) min_words) eqn:E; [|reflexivity]. exfalso. apply existsb_exists in E. destruct E as (w & Hw & Ew). apply String.eqb_eq in Ew.
  unfold min_words, max_words in *. cbn in H, Hw. repeat destruct H as [H|H]; repeat destruct Hw as [Hw|Hw]; try contradiction; congruence.
Qed.

(** ** Totality and the target theorems *)
Lemma rect_spec B : rect B = true <-> B <> [] /\ forall r s, In r B -> In s B -> length r = length s.
Proof.
  destruct B as [|r0 B]; cbn [rect].
  - split; [discriminate|intros [H _]; congruence].
  - rewrite forallb_forall. split.
    + intros H. split; [discriminate|].
      assert (K : forall r, In r (r0 :: B) -> length r = length r0) by (intros r [<-|Hr]; [reflexivity|apply Nat.eqb_eq, H, Hr]).
      intros r s Hr Hs. rewrite (K r Hr), (K s Hs). reflexivity.
    + intros [_ H] s Hs. apply Nat.eqb_eq, H; [right; exact Hs|left; reflexivity].
Qed.
Lemma additive_exists argsort B n : (exists e, additive_envelope argsort B n = Ok e) <->
  B <> [] /\ (forall r s, In r B -> In s B -> length r = length s) /\ (1 <= n <= length B)%nat.
Proof. rewrite additive_total, rect_spec. tauto. Qed.
Lemma selective_exists B pos : (exists e, sign_selective B pos = Ok e) <->
  B <> [] /\ (forall r s, In r B -> In s B -> length r = length s) /\ match pos with None => True | Some l => length l = length B end.
Proof.
  unfold sign_selective. pose proof (rect_spec B) as RB. destruct (rect B); cbn [negb].
  - destruct (proj1 RB eq_refl) as [H1 H2]. destruct pos as [l|].
    + destruct (Nat.eqb_spec (length l) (length B)) as [E|D]; cbn [negb rbind].
      * split; [auto|]. intros _. eexists. reflexivity.
      * split; [intros (e & He); discriminate|]. intros (_ & _ & E). contradiction.
    + cbn [rbind]. split; [auto|]. intros _. eexists. reflexivity.
  - split; [intros (e & He); discriminate|]. intros (H1 & H2 & _). discriminate (proj2 RB (conj H1 H2)).
Qed.
Lemma target_collect gl ill t cs x sense resp sel unsel tc : target_combination gl ill t cs x sense resp sel unsel = Ok tc ->
  exists xs B, collect_responses gl ill t cs resp = Ok (xs, B).
Proof.
  unfold target_combination. destruct (sense_of sense); [|discriminate]. intros H. apply rbind_ok in H as ([xs B] & H & _). exists xs, B. exact H.
Qed.
Lemma target_maximum gl ill t cs x sense resp sel unsel tc : In (lower sense) max_words ->
  target_combination gl ill t cs x sense resp sel unsel = Ok tc ->
  exists xs B, collect_responses gl ill t cs resp = Ok (xs, B) /\ length B = length cs /\
    tc_values tc = map (read_at x xs) B /\
    (forall j y, nth_error B j = Some y -> nth_error (tc_factors tc) j = Some (if Rlt_dec 0 (read_at x xs y) then sel else unsel)) /\
    (forall s, In s (tc_selected tc) <->
      exists j c y, nth_error cs j = Some c /\ nth_error B j = Some y /\ lc_name c = s /\ 0 < read_at x xs y) /\
    (forall f, factors_among unsel sel (length cs) f -> exists y z,
      lcs_combine gl ill t cs (FSeq (tc_factors tc)) resp = Ok (xs, F1 y) /\
      lcs_combine gl ill t cs (FSeq f) resp = Ok (xs, F1 z) /\ read_at x xs z <= read_at x xs y).
Proof.
  intros HS HT. apply sense_max in HS. destruct (target_collect _ _ _ _ _ _ _ _ _ _ HT) as (xs & B & HC). exists xs, B. split; [exact HC|].
  destruct (target_parts _ _ _ _ _ _ _ _ _ _ _ _ _ HT HS HC) as (_ & H2 & _ & H4 & _). split; [exact H2|]. split; [exact H4|]. split; [|split].
  - intros j y Hy. rewrite (target_factor _ _ _ _ _ _ _ _ _ _ _ _ _ HT HS HC j y Hy). unfold chosen, Rltb. destruct (Rlt_dec _ _); reflexivity.
  - intros s. rewrite (target_names _ _ _ _ _ _ _ _ _ _ _ _ _ HT HS HC s). unfold chosen, Rltb.
    split; intros (j & c & y & A & B' & C & D); exists j, c, y; (split; [exact A|split; [exact B'|split; [exact C|]]]); destruct (Rlt_dec 0 (read_at x xs y)); try reflexivity; try exact D; try discriminate D; try assumption; exfalso; lra.
  - intros f Hf. exact (target_best _ _ _ _ _ _ _ _ _ _ _ _ _ HT HS HC f Hf).
Qed.
Lemma target_minimum gl ill t cs x sense resp sel unsel tc : In (lower sense) min_words ->
  target_combination gl ill t cs x sense resp sel unsel = Ok tc ->
  exists xs B, collect_responses gl ill t cs resp = Ok (xs, B) /\ length B = length cs /\
    tc_values tc = map (read_at x xs) B /\
    (forall j y, nth_error B j = Some y -> nth_error (tc_factors tc) j = Some (if Rlt_dec (read_at x xs y) 0 then sel else unsel)) /\
    (forall s, In s (tc_selected tc) <->
      exists j c y, nth_error cs j = Some c /\ nth_error B j = Some y /\ lc_name c = s /\ read_at x xs y < 0) /\
    (forall f, factors_among unsel sel (length cs) f -> exists y z,
      lcs_combine gl ill t cs (FSeq (tc_factors tc)) resp = Ok (xs, F1 y) /\
      lcs_combine gl ill t cs (FSeq f) resp = Ok (xs, F1 z) /\ read_at x xs y <= read_at x xs z).
Proof.
  intros HS HT. apply sense_min in HS. destruct (target_collect _ _ _ _ _ _ _ _ _ _ HT) as (xs & B & HC). exists xs, B. split; [exact HC|].
  destruct (target_parts _ _ _ _ _ _ _ _ _ _ _ _ _ HT HS HC) as (_ & H2 & _ & H4 & _). split; [exact H2|]. split; [exact H4|]. split; [|split].
  - intros j y Hy. rewrite (target_factor _ _ _ _ _ _ _ _ _ _ _ _ _ HT HS HC j y Hy). unfold chosen, Rltb. destruct (Rlt_dec _ _); reflexivity.
  - intros s. rewrite (target_names _ _ _ _ _ _ _ _ _ _ _ _ _ HT HS HC s). unfold chosen, Rltb.
    split; intros (j & c & y & A & B' & C & D); exists j, c, y; (split; [exact A|split; [exact B'|split; [exact C|]]]); destruct (Rlt_dec (read_at x xs y) 0); try reflexivity; try exact D; try discriminate D; try assumption; exfalso; lra.
  - intros f Hf. exact (target_best _ _ _ _ _ _ _ _ _ _ _ _ _ HT HS HC f Hf).
Qed.
Lemma target_senses gl ill t cs x sense resp sel unsel : ~ In (lower sense) (min_words ++ max_words) ->
  target_combination gl ill t cs x sense resp sel unsel = Err ValueError.
Proof.
  intros H. unfold target_combination. replace (sense_of sense) with (@None bool); [reflexivity|]. symmetry. rewrite sense_words.
  assert (K : forall l, ~ In (lower sense) l -> existsb (String.eqb (lower sense)) l = false).
  { intros l Hl. apply Bool.not_true_iff_false. rewrite existsb_exists. intros (s & Hs & E). apply String.eqb_eq in E. subst s. exact (Hl Hs). }
  rewrite !K; [reflexivity| |]; intros I; apply H, in_or_app; auto.
Qed.
