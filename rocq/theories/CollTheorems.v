(** The effects of all methods on a collection of load cases reached by any history. *)
From Coq Require Import String Sorting.Sorted.
From Verif Require Import Base BaseFacts FoundationModel LoadCasesModel CollModel CollSpec SegmentFacts CollFacts.
Open Scope R_scope.
Local Open Scope list_scope.
Local Notation length := List.length.

Lemma row_pushed st name s1 i r : inv st -> (forall x, r = x -> (x < length (rows st))%nat) -> get_case st name = (s1, i) ->
  row_added (contents st) name (row_at st r) (contents (push_row s1 i r)).
Proof.
  intros I V E. destruct (push_case st name s1 i r I E) as (_ & _ & _ & H). destruct (get_case_ok _ _ _ _ I E) as (_ & _ & _ & [x Hx] & _).
  replace (row_at st r) with (row_at s1 r); [exact H|]. unfold row_at. rewrite Hx. apply app_nth1, V. reflexivity.
Qed.
Lemma new_pushed st name s1 i v : inv st -> get_case st name = (s1, i) ->
  inv (push_new s1 i v) /\ krows (push_new s1 i v) = krows st /\ klists (push_new s1 i v) = klists st /\
  row_added (contents st) name v (contents (push_new s1 i v)).
Proof.
  intros I E. destruct (get_case_ok _ _ _ _ I E) as (I1 & K1 & K2 & _ & _ & pre & c & post & Ec & <- & Hn & D).
  unfold push_new. destruct (new_row s1 v) as [s2 r] eqn:E2. destruct (new_row_ok _ _ _ _ I1 E2) as (X & P & Vr).
  pose proof (ext_inv _ _ X I1) as I2. pose proof (x_cases _ _ X) as Xc. rewrite Ec in Xc.
  destruct (push_ok s2 pre c post r I2 Xc) as (J & K3 & K4 & K). cbv zeta in *. rewrite Vr in K. split; [exact J|].
  split; [rewrite K3, (x_krows _ _ X); exact K1|]. split; [rewrite K4, (x_klists _ _ X); exact K2|].
  assert (Es : contents s1 = map (case_value s2) pre ++ case_value s2 c :: map (case_value s2) post).
  { rewrite <- (ext_contents _ _ X I1). unfold contents. rewrite Xc, map_app. reflexivity. }
  destruct D as [D|(N & D & -> & D2)].
  - left. exists (map (case_value s2) pre), (case_value s2 c), (map (case_value s2) post). rewrite <- D, Es. split; [reflexivity|].
    split; [exact Hn|]. rewrite K, <- Hn. reflexivity.
  - right. split; [exact N|]. cbn [map] in Es, K.
    assert (L : length (map (case_value s2) pre) = length (contents st)) by (rewrite <- D2, !map_length; reflexivity).
    rewrite D in Es. apply app_inj_tail in Es as [Es1 Es2].
    rewrite K, <- Es1. f_equal. change (loads_value s2 (h_loads c)) with (a_loads (case_value s2 c)). change (h_spans c) with (a_spans (case_value s2 c)).
    change (option_map (row_at s2) (h_meta c)) with (a_meta (case_value s2 c)). rewrite <- Es2, Hn. reflexivity.
Qed.

(** * Copies given to the caller *)
Lemma reveal_ok st l st1 l1 : inv st -> valid st l -> deepcopy_list st l = (st1, l1) ->
  let st' := with_known st1 (list_at st1 l1) [l1] in
  inv st' /\ contents st' = contents st /\ cases st' = cases st /\ (exists x, rows st' = rows st ++ x) /\ (exists y, lists st' = lists st ++ y) /\
  In l1 (klists st') /\ loads_value st' l1 = loads_value st l /\ (forall k, In k (klists st) -> In k (klists st')).
Proof.
  intros I V E st'. destruct (deepcopy_list_ok _ _ _ _ I V E) as (X & (P1 & P2 & P3) & F & L & Fr). pose proof (ext_inv _ _ X I) as I1.
  split; [|split; [exact (ext_contents _ _ X I)|split; [apply X|split; [apply X|split; [apply X|split; [left; reflexivity|split; [exact L|]]]]]]].
  - constructor; cbn.
    + intros r Hr. apply in_app_iff in Hr as [Hr|Hr]; [apply P3, Hr|apply (i_krows _ I1), Hr].
    + intros k [<-|Hk].
      * split; [exact P1|]. intros r Hr. apply in_app_iff. left. exact Hr.
      * destruct (i_klists _ I1 k Hk) as [H1 H2]. split; [exact H1|]. intros r Hr. apply in_app_iff. right. apply H2, Hr.
    + rewrite (x_cases _ _ X). intros c Hc. destruct (i_cases _ I c Hc) as [Pc Mc].
      assert (Q : forall r, privrow st r -> privrow st' r).
      { intros r [R1 R2]. split; [cbn; pose proof (ext_rlen _ _ X); lia|]. cbn. rewrite in_app_iff, (x_krows _ _ X). intros [H|H]; [apply Fr in H; lia|tauto]. }
      split.
      * destruct Pc as (C1 & C2 & C3). split; [cbn; pose proof (ext_llen _ _ X); lia|]. split.
        -- cbn. rewrite (x_klists _ _ X). intros [H|H]; [lia|tauto].
        -- intros r Hr. change (In r (list_at st1 (h_loads c))) in Hr. rewrite (ext_list _ _ _ X C1) in Hr. apply Q, C3, Hr.
      * destruct (h_meta c); [apply Q, Mc|exact Mc].
    + apply I1.
    + apply I1.
  - intros k Hk. cbn. right. rewrite (x_klists _ _ X). exact Hk.
Qed.
Lemma loads_value_ext st st' l : valid st l -> (exists x, rows st' = rows st ++ x) -> (exists y, lists st' = lists st ++ y) -> loads_value st' l = loads_value st l.
Proof.
  intros [L1 L2] [x Hx] [y Hy]. unfold loads_value, list_at at 1. rewrite Hy, app_nth1 by exact L1. apply map_ext_in. intros r Hr.
  unfold row_at. rewrite Hx. apply app_nth1, L2, Hr.
Qed.
Lemma copy_cases_ok : forall cs st st' out, inv st -> (forall c, In c cs -> valid st (h_loads c)) -> copy_cases st cs = (st', out) ->
  inv st' /\ contents st' = contents st /\ (exists x, rows st' = rows st ++ x) /\ (exists y, lists st' = lists st ++ y) /\
  (forall k, In k (klists st) -> In k (klists st')) /\
  map (fun p => (fst p, loads_value st' (snd p))) out = map (fun c => (h_name c, loads_value st (h_loads c))) cs /\
  forall p, In p out -> In (snd p) (klists st').
Proof.
  induction cs as [|c cs IH]; intros st st' out I V E; cbn [copy_cases] in E.
  - injection E as <- <-. split; [exact I|]. split; [reflexivity|]. split; [exists []; symmetry; apply app_nil_r|].
    split; [exists []; symmetry; apply app_nil_r|]. split; [auto|]. split; [reflexivity|intros p []].
  - destruct (deepcopy_list st (h_loads c)) as [s1 l1] eqn:E1.
    destruct (reveal_ok _ _ _ _ I (V c (or_introl eq_refl)) E1) as (I1 & C1 & Cs & Xr & Xl & K1 & L1 & Km). cbv zeta in *.
    set (sk := with_known s1 (list_at s1 l1) [l1]) in *. clearbody sk.
    destruct (copy_cases sk cs) as [s2 out2] eqn:E2. injection E as <- <-.
    assert (Vv : forall l, valid st l -> valid sk l).
    { intros l Hl. destruct Xr as [x Hx]. destruct Xl as [y Hy]. destruct Hl as [H1 H2]. split; [rewrite Hy, app_length; lia|].
      intros r Hr. unfold list_at in Hr. rewrite Hy, app_nth1 in Hr by exact H1. rewrite Hx, app_length. specialize (H2 r Hr). lia. }
    destruct (IH _ _ _ I1 (fun d Hd => Vv _ (V d (or_intror Hd))) E2) as (I2 & C2 & Yr & Yl & K2 & M2 & Q2).
    split; [exact I2|]. split; [congruence|].
    split. { destruct Xr as [x Hx], Yr as [y Hy]. exists (x ++ y). rewrite Hy, Hx. symmetry. apply app_assoc. }
    split. { destruct Xl as [x Hx], Yl as [y Hy]. exists (x ++ y). rewrite Hy, Hx. symmetry. apply app_assoc. }
    split; [intros k Hk; apply K2, Km, Hk|]. split.
    + cbn [map fst snd]. f_equal.
      * f_equal. rewrite <- L1. apply loads_value_ext; [apply known_valid; assumption|exact Yr|exact Yl].
      * rewrite M2. apply map_ext_in. intros d Hd. f_equal. apply loads_value_ext; [apply V; right; exact Hd|exact Xr|exact Xl].
    + intros p [<-|Hp]; [cbn; apply K2, K1|apply Q2, Hp].
Qed.

(** * One UDL case per span *)
Lemma span_udl_ok w : forall n st i st' e, inv st -> do_add_span_udl st w i n = (st', e) ->
  inv st' /\ krows st' = krows st /\ klists st' = klists st /\
  exists k, (k <= n)%nat /\
  contents st' = contents st ++ map (fun j => {| a_name := span_udl_name (j + 1); a_loads := [[INR (j + 1); 1; w]]; a_spans := [Z.of_nat j]; a_meta := None |}) (seq i k) /\
  (e = None /\ k = n \/ e = Some ValueError /\ (k < n)%nat /\ In (span_udl_name (i + k + 1)) (names_of (contents st'))).
Proof.
  induction n as [|n IH]; intros st i st' e I E; cbn [do_add_span_udl] in E.
  - injection E as <- <-. split; [exact I|]. split; [reflexivity|]. split; [reflexivity|]. exists 0%nat. split; [lia|].
    cbn. rewrite app_nil_r. auto.
  - destruct (new_row st [INR (i + 1); 1; w]) as [s1 r] eqn:E1. destruct (new_row_ok _ _ _ _ I E1) as (X1 & P1 & V1).
    set (s2 := with_heap s1 (rows s1) (lists s1 ++ [[r]])) in E.
    assert (X2 : ext s1 s2).
    { constructor; cbn; try reflexivity; [exists []; symmetry; apply app_nil_r|eexists; reflexivity]. }
    pose proof (ext_trans _ _ _ X1 X2) as X. pose proof (ext_inv _ _ X I) as I2.
    assert (La : list_at s2 (length (lists s2) - 1) = [r]).
    { unfold list_at, s2. cbn. rewrite app_length. cbn. replace (length (lists s1) + 1 - 1)%nat with (length (lists s1)) by lia.
      rewrite app_nth2, Nat.sub_diag by lia. reflexivity. }
    assert (V2 : valid s2 (length (lists s2) - 1)).
    { split; [unfold s2; cbn; rewrite app_length; cbn; lia|]. rewrite La. intros q [<-|[]]. apply P1. }
    destruct (do_add s2 (span_udl_name (i + 1)) (length (lists s2) - 1) [Z.of_nat i] None) as [s3 e3] eqn:E3.
    assert (Vn : forall a, @None nat = Some a -> (a < length (rows s2))%nat) by discriminate.
    destruct (add_ok _ _ _ _ _ _ _ I2 V2 Vn E3) as (I3 & K1 & K2 & D). rewrite (ext_contents _ _ X I) in D.
    destruct D as [(H & -> & ->)|(H & -> & C3)].
    + injection E as <- <-. split; [exact I2|]. split; [apply X|]. split; [apply X|]. exists 0%nat. split; [lia|]. cbn [seq map]. rewrite app_nil_r.
      split; [apply (ext_contents _ _ X I)|]. right. split; [reflexivity|]. split; [lia|]. rewrite Nat.add_0_r, (ext_contents _ _ X I). exact H.
    + destruct (IH _ _ _ _ I3 E) as (I4 & K3 & K4 & k & Lk & C4 & O4). split; [exact I4|].
      split; [rewrite K3, K1; apply X|]. split; [rewrite K4, K2; apply X|]. exists (S k). split; [lia|]. split.
      * rewrite C4, C3, <- app_assoc. cbn [seq map app]. do 2 f_equal. unfold case_of. f_equal. unfold loads_value. rewrite La. cbn [map]. f_equal. exact V1.
      * replace (i + S k + 1)%nat with (S i + k + 1)%nat by lia. destruct O4 as [(-> & ->)|(-> & L & O4)]; [left|right]; repeat apply conj; auto; lia.
Qed.

(** * Histories *)
Lemma holds_source_valid st s : inv st -> holds_source st s -> source_valid st s.
Proof.
  intros I [H1 H2]. split.
  - intros l E. rewrite E in H1. apply known_valid; [exact I|exact H1].
  - intros a E. rewrite E in H2. apply (i_krows _ I), H2.
Qed.
Lemma holds_row_valid st m : inv st -> holds_row st m -> forall a, m = Some a -> (a < length (rows st))%nat.
Proof. intros I H a ->. apply (i_krows _ I), H. Qed.
Lemma nth_put {A} (l : list A) i a j d : (i < length l)%nat -> nth j (put l i a) d = if Nat.eqb j i then a else nth j l d.
Proof.
  intros H. unfold put. assert (Lf : length (firstn i l) = i) by (rewrite firstn_length; lia). destruct (Nat.eqb_spec j i) as [->|N].
  - rewrite app_nth2, Lf, Nat.sub_diag by lia. reflexivity.
  - destruct (Nat.lt_ge_cases j i) as [L|L].
    + rewrite app_nth1 by lia. rewrite <- (firstn_skipn i l) at 2. rewrite app_nth1 by lia. reflexivity.
    + rewrite app_nth2, Lf by lia. destruct (j - i)%nat as [|k] eqn:Ek; [lia|]. cbn [nth].
      rewrite <- (firstn_skipn (S i) l) at 2. rewrite app_nth2; rewrite firstn_length; [|lia]. f_equal. lia.
Qed.
Lemma put_length {A} (l : list A) i a : (i < length l)%nat -> length (put l i a) = length l.
Proof. intros H. unfold put. rewrite app_length. cbn [length]. rewrite firstn_length, skipn_length. lia. Qed.

Lemma caller_ok st o : inv st -> allowed st o -> caller_only o ->
  inv (fst (exec st o)) /\ contents (fst (exec st o)) = contents st /\ snd (exec st o) = None.
Proof.
  intros I A C. destruct o as [v|l|a v|a l| | | | | | | | |]; try (destruct C; fail); cbn [exec fst snd allowed] in *.
  - destruct (new_row st v) as [s1 r] eqn:E. destruct (new_row_ok _ _ _ _ I E) as (X & P & V). pose proof (ext_inv _ _ X I) as I1.
    cbn [fst snd]. split; [|split; [exact (ext_contents _ _ X I)|reflexivity]].
    unfold new_row in E. injection E as <- <-. constructor; cbn.
    + intros q [<-|Hq]; [rewrite app_length; cbn; lia|exact (i_krows _ I1 q Hq)].
    + intros k Hk. destruct (i_klists _ I1 k Hk) as [H1 H2]. split; [exact H1|]. intros q Hq. right. apply H2, Hq.
    + intros c Hc. destruct (i_cases _ I c Hc) as [(C1 & C2 & C3) Mc].
      assert (Q : forall q, privrow st q -> privrow (with_known (with_heap st (rows st ++ [v]) (lists st)) [length (rows st)] []) q).
      { intros q [Q1 Q2]. split; cbn; [rewrite app_length; lia|]. intros [H|H]; [lia|tauto]. }
      split; [split; [exact C1|split; [exact C2|intros q Hq; apply Q, C3, Hq]]|]. destruct (h_meta c); [apply Q, Mc|exact Mc].
    + apply I.
    + apply I.
  - rewrite Forall_forall in A.
    assert (X : ext st (with_heap st (rows st) (lists st ++ [l]))).
    { constructor; cbn; try reflexivity; [exists []; symmetry; apply app_nil_r|eexists; reflexivity]. }
    pose proof (ext_inv _ _ X I) as I1. split; [|split; [exact (ext_contents _ _ X I)|reflexivity]]. constructor; cbn.
    + apply I.
    + intros k [<-|Hk].
      * split; [rewrite app_length; cbn; lia|]. unfold list_at. cbn. rewrite app_nth2, Nat.sub_diag by lia. exact A.
      * exact (i_klists _ I1 k Hk).
    + intros c Hc. destruct (i_cases _ I1 c Hc) as [(C1 & C2 & C3) Mc]. split; [|exact Mc]. split; [exact C1|]. split; [|exact C3].
      cbn. intros [H|H]; [|exact (C2 H)]. destruct (i_cases _ I c Hc) as [(D1 & _) _]. lia.
    + apply I.
    + apply I.
  - pose proof (i_krows _ I a A) as La.
    assert (Q : forall r, privrow st r -> row_at (with_heap st (put (rows st) a v) (lists st)) r = row_at st r).
    { intros r [R1 R2]. unfold row_at. cbn [rows with_heap]. rewrite nth_put by exact La. destruct (Nat.eqb_spec r a) as [->|]; [tauto|reflexivity]. }
    split; [|split; [|reflexivity]].
    + constructor; cbn [rows lists cases krows klists with_heap].
      * intros r Hr. rewrite put_length by exact La. apply (i_krows _ I), Hr.
      * apply I.
      * intros c Hc. destruct (i_cases _ I c Hc) as [(C1 & C2 & C3) Mc].
        assert (W : forall q, privrow st q -> privrow (with_heap st (put (rows st) a v) (lists st)) q).
        { intros q [Q1 Q2]. split; cbn [rows krows with_heap]; [rewrite put_length by exact La; exact Q1|exact Q2]. }
        split; [split; [exact C1|split; [exact C2|intros q Hq; apply W, C3, Hq]]|]. destruct (h_meta c); [apply W, Mc|exact Mc].
      * apply I.
      * apply I.
    + unfold contents. cbn [cases with_heap]. apply map_ext_in. intros c Hc. destruct (i_cases _ I c Hc) as [(C1 & C2 & C3) Mc]. unfold case_value. f_equal.
      * unfold loads_value. apply map_ext_in. intros r Hr. apply Q, C3, Hr.
      * destruct (h_meta c); [|reflexivity]. cbn [option_map]. f_equal. apply Q, Mc.
  - destruct A as [A1 A2]. rewrite Forall_forall in A2. pose proof (proj1 (i_klists _ I a A1)) as La.
    assert (Q : forall k, list_at (with_heap st (rows st) (put (lists st) a l)) k = if Nat.eqb k a then l else list_at st k).
    { intros k. unfold list_at. cbn [lists with_heap]. apply nth_put, La. }
    split; [|split; [|reflexivity]].
    + constructor; cbn [rows lists cases krows klists with_heap].
      * apply I.
      * intros k Hk. rewrite put_length by exact La. destruct (i_klists _ I k Hk) as [H1 H2]. split; [exact H1|]. rewrite Q.
        destruct (Nat.eqb k a); [exact A2|exact H2].
      * intros c Hc. destruct (i_cases _ I c Hc) as [(C1 & C2 & C3) Mc]. split; [|exact Mc].
        split; [cbn [lists with_heap]; rewrite put_length by exact La; exact C1|]. split; [exact C2|]. rewrite Q.
        destruct (Nat.eqb_spec (h_loads c) a) as [E|]; [rewrite E in C2; tauto|exact C3].
      * apply I.
      * apply I.
    + unfold contents. cbn [cases with_heap]. apply map_ext_in. intros c Hc. destruct (i_cases _ I c Hc) as [(C1 & C2 & C3) Mc]. unfold case_value. f_equal.
      unfold loads_value. rewrite Q. destruct (Nat.eqb_spec (h_loads c) a) as [E|]; [rewrite E in C2; tauto|reflexivity].
  - destruct (copy_cases st (cases st)) as [s1 out] eqn:E.
    destruct (copy_cases_ok _ _ _ _ I (fun c Hc => private_valid _ _ (proj1 (i_cases _ I c Hc))) E) as (I1 & C1 & _). cbn. auto.
Qed.

Lemma exec_inv st o : inv st -> allowed st o -> inv (fst (exec st o)).
Proof.
  intros I A. destruct o as [v|l|a v|a l|n l sp m|n l sp m|s|ss|n r|n i w|n i w1 w2 a c|w n|]; try (apply caller_ok; [exact I|exact A|exact Logic.I]);
    cbn [exec allowed] in *.
  - destruct A as [A1 A2]. destruct (do_add st n l sp m) as [s' e] eqn:E.
    apply (add_ok _ _ _ _ _ _ _ I (known_valid _ _ I A1) (holds_row_valid _ _ I A2) E).
  - destruct A as [A1 A2]. destruct (do_set st n l sp m) as [s' e] eqn:E.
    apply (set_ok _ _ _ _ _ _ _ I (known_valid _ _ I A1) (holds_row_valid _ _ I A2) E).
  - destruct (do_append st s) as [s' e] eqn:E. apply (append_ok _ _ _ _ I (holds_source_valid _ _ I A) E).
  - destruct (do_extend st ss) as [s' e] eqn:E. refine (proj1 (extend_ok _ _ _ _ I _ E)).
    eapply Forall_impl; [|exact A]. intros x. apply holds_source_valid, I.
  - unfold do_add_load. destruct (get_case st n) as [s1 i] eqn:E. apply (push_case st n s1 i r I E).
  - unfold do_add_udl. destruct (get_case st n) as [s1 j] eqn:E. apply (new_pushed st n s1 j _ I E).
  - unfold do_add_trap. destruct (get_case st n) as [s1 j] eqn:E. destruct a, c; cbn [fst]; try (apply (new_pushed st n s1 j _ I E)).
    apply (get_case_ok _ _ _ _ I E).
  - destruct (do_add_span_udl st w 0 n) as [s' e] eqn:E. apply (span_udl_ok _ _ _ _ _ _ I E).
Qed.
Lemma inv0 : inv coll0.
Proof. constructor; cbn; try (intros ? []); constructor. Qed.
Lemma reachable_inv st : reachable st -> inv st.
Proof. induction 1 as [|st o _ IH A]; [apply inv0|apply exec_inv; assumption]. Qed.

Lemma names_unique st : reachable st -> NoDup (names_of (contents st)).
Proof. intros H. rewrite names_contents. apply (i_names _ (reachable_inv _ H)). Qed.

Lemma row_added_names cs n v cs' : row_added cs n v cs' -> exists more, names_of cs' = names_of cs ++ more.
Proof.
  unfold names_of. intros [(pre & c & post & -> & H & ->)|(_ & ->)].
  - exists []. rewrite app_nil_r, !map_app. cbn. rewrite H. reflexivity.
  - exists [n]. rewrite map_app. reflexivity.
Qed.
Lemma order_kept st o : reachable st -> allowed st o -> exists more, names_of (contents (fst (exec st o))) = names_of (contents st) ++ more.
Proof.
  intros Rs A. pose proof (reachable_inv _ Rs) as I.
  assert (Same : forall st', contents st' = contents st -> exists more, names_of (contents st') = names_of (contents st) ++ more).
  { intros st' H. exists []. rewrite H, app_nil_r. reflexivity. }
  assert (Plus : forall st' cs, contents st' = contents st ++ cs -> exists more, names_of (contents st') = names_of (contents st) ++ more).
  { intros st' cs H. exists (names_of cs). rewrite H. unfold names_of. apply map_app. }
  destruct o as [v|l|a v|a l|n l sp m|n l sp m|s|ss|n r|n i w|n i w1 w2 a c|w n|];
    try (apply Same; apply caller_ok; [exact I|exact A|exact Logic.I]); cbn [exec allowed] in *.
  - destruct A as [A1 A2]. destruct (do_add st n l sp m) as [s' e] eqn:E.
    destruct (add_ok _ _ _ _ _ _ _ I (known_valid _ _ I A1) (holds_row_valid _ _ I A2) E) as (_ & _ & _ & [(_ & _ & ->)|(_ & _ & H)]); [apply Same; reflexivity|eapply Plus, H].
  - destruct A as [A1 A2]. destruct (do_set st n l sp m) as [s' e] eqn:E.
    destruct (set_ok _ _ _ _ _ _ _ I (known_valid _ _ I A1) (holds_row_valid _ _ I A2) E) as (_ & _ & _ & _ & [(pre & c & post & H1 & H2 & H3)|(_ & H)]); [|eapply Plus, H].
    cbn [fst]. exists []. rewrite app_nil_r, H1, H3. unfold names_of. rewrite !map_app. cbn [map]. rewrite H2. reflexivity.
  - destruct (do_append st s) as [s' e] eqn:E.
    destruct (append_ok _ _ _ _ I (holds_source_valid _ _ I A) E) as (_ & _ & _ & [(_ & _ & ->)|(_ & _ & c & _ & H & _)]); [apply Same; reflexivity|eapply Plus, H].
  - destruct (do_extend st ss) as [s' e] eqn:E.
    assert (V : Forall (source_valid st) ss) by (eapply Forall_impl; [|exact A]; intros x; apply holds_source_valid, I).
    destruct (extend_ok _ _ _ _ I V E) as (_ & _ & _ & cs & H & _). eapply Plus, H.
  - unfold do_add_load. destruct (get_case st n) as [s1 i] eqn:E. eapply row_added_names. apply (push_case st n s1 i r I E).
  - unfold do_add_udl. destruct (get_case st n) as [s1 j] eqn:E. eapply row_added_names. apply (new_pushed st n s1 j _ I E).
  - unfold do_add_trap. destruct (get_case st n) as [s1 j] eqn:E.
    destruct a, c; cbn [fst]; try (eapply row_added_names; apply (new_pushed st n s1 j _ I E)).
    destruct (get_case_ok _ _ _ _ I E) as (_ & _ & _ & _ & _ & pre & c & post & _ & _ & _ & [H|(_ & H & _)]); [apply Same, H|eapply Plus, H].
  - destruct (do_add_span_udl st w 0 n) as [s' e] eqn:E. destruct (span_udl_ok _ _ _ _ _ _ I E) as (_ & _ & _ & k & _ & H & _). eapply Plus, H.
Qed.

Lemma order_history st st' : reachable st -> leads st st' -> exists more, names_of (contents st') = names_of (contents st) ++ more.
Proof.
  intros R H. induction H as [st|st o st' A H IH].
  - exists []. symmetry. apply app_nil_r.
  - destruct (order_kept st o R A) as [m1 H1]. destruct (IH (reach_step _ _ R A)) as [m2 H2]. exists (m1 ++ m2). rewrite H2, H1. symmetry. apply app_assoc.
Qed.
Lemma caller_effect st o : reachable st -> allowed st o -> caller_only o -> contents (fst (exec st o)) = contents st.
Proof. intros R A C. apply caller_ok; [apply reachable_inv, R|exact A|exact C]. Qed.
Lemma add_effect st n l sp m : reachable st -> allowed st (Add n l sp m) ->
  (In n (names_of (contents st)) -> exec st (Add n l sp m) = (st, Some ValueError)) /\
  (~ In n (names_of (contents st)) -> snd (exec st (Add n l sp m)) = None /\
     contents (fst (exec st (Add n l sp m))) = contents st ++ [{| a_name := n; a_loads := loads_value st l; a_spans := sp; a_meta := option_map (row_at st) m |}]).
Proof.
  intros R [A1 A2]. pose proof (reachable_inv _ R) as I. cbn [exec]. destruct (do_add st n l sp m) as [s' e] eqn:E.
  destruct (add_ok _ _ _ _ _ _ _ I (known_valid _ _ I A1) (holds_row_valid _ _ I A2) E) as (_ & _ & _ & [(H & -> & ->)|(H & -> & C)]); split; intros N; try tauto; auto.
Qed.
Lemma set_effect st n l sp m : reachable st -> allowed st (SetCase n l sp m) ->
  snd (exec st (SetCase n l sp m)) = None /\
  case_set (contents st) {| a_name := n; a_loads := loads_value st l; a_spans := sp; a_meta := option_map (row_at st) m |} (contents (fst (exec st (SetCase n l sp m)))).
Proof.
  intros R [A1 A2]. pose proof (reachable_inv _ R) as I. cbn [exec]. destruct (do_set st n l sp m) as [s' e] eqn:E.
  destruct (set_ok _ _ _ _ _ _ _ I (known_valid _ _ I A1) (holds_row_valid _ _ I A2) E) as (_ & _ & _ & -> & C). split; [reflexivity|exact C].
Qed.
Lemma append_effect st s : reachable st -> allowed st (Append s) ->
  let k := length (contents st) in let default := ("LC " ++ dec (k + 1))%string in
  let name := match s with SrcCase (Some n) _ _ _ => n | _ => default end in
  (In name (names_of (contents st)) -> exec st (Append s) = (st, Some ValueError)) /\
  (~ In name (names_of (contents st)) -> snd (exec st (Append s)) = None /\
     exists c, made_from st s default c /\ contents (fst (exec st (Append s))) = contents st ++ [c]).
Proof.
  intros R A. pose proof (reachable_inv _ R) as I. cbv zeta. cbn [exec]. destruct (do_append st s) as [s' e] eqn:E.
  destruct (append_ok _ _ _ _ I (holds_source_valid _ _ I A) E) as (_ & _ & _ & [(H & -> & ->)|(H & -> & c & M & C & _)]); unfold given_name, default_name in *; split; intros N; try tauto.
  split; [reflexivity|]. exists c. auto.
Qed.
Lemma extend_effect st ss : reachable st -> allowed st (Extend ss) ->
  let k := length (contents st) in let st' := fst (exec st (Extend ss)) in
  exists cs, contents st' = contents st ++ cs /\
  (forall j s c, nth_error ss j = Some s -> nth_error cs j = Some c -> made_from st s ("LC " ++ dec (k + j + 1)) c) /\
  (snd (exec st (Extend ss)) = None /\ length cs = length ss \/
   snd (exec st (Extend ss)) = Some ValueError /\ exists s, nth_error ss (length cs) = Some s /\
     In (match s with SrcCase (Some n) _ _ _ => n | _ => "LC " ++ dec (length (contents st') + 1) end)%string (names_of (contents st'))).
Proof.
  intros R A. pose proof (reachable_inv _ R) as I. cbv zeta. cbn [exec allowed] in *. destruct (do_extend st ss) as [s' e] eqn:E.
  assert (V : Forall (source_valid st) ss) by (eapply Forall_impl; [|exact A]; intros x; apply holds_source_valid, I).
  destruct (extend_ok _ _ _ _ I V E) as (_ & _ & _ & cs & C & M & O). exists cs. auto.
Qed.
Lemma add_load_effect st n r : reachable st -> allowed st (AddLoad n r) ->
  snd (exec st (AddLoad n r)) = None /\ row_added (contents st) n (row_at st r) (contents (fst (exec st (AddLoad n r)))).
Proof.
  intros R A. pose proof (reachable_inv _ R) as I. cbn [exec allowed] in *. unfold do_add_load. destruct (get_case st n) as [s1 i] eqn:E.
  split; [reflexivity|]. cbn [fst]. apply row_pushed; [exact I|intros x <-; apply (i_krows _ I), A|exact E].
Qed.
Lemma add_udl_effect st n i w : reachable st ->
  snd (exec st (AddUdl n i w)) = None /\ row_added (contents st) n [IZR i; 1; w] (contents (fst (exec st (AddUdl n i w)))).
Proof.
  intros R. pose proof (reachable_inv _ R) as I. cbn [exec]. unfold do_add_udl. destruct (get_case st n) as [s1 j] eqn:E.
  split; [reflexivity|]. apply (new_pushed st n s1 j _ I E).
Qed.
Lemma to_LM_effect st : reachable st ->
  let '(st', out) := copy_cases st (cases st) in st' = fst (exec st ToLM) /\
  map (fun p => (fst p, loads_value st' (snd p))) out = map (fun c => (a_name c, a_loads c)) (contents st) /\
  (forall p, In p out -> In (snd p) (klists st')) /\ contents st' = contents st.
Proof.
  intros R. pose proof (reachable_inv _ R) as I. cbn [exec]. destruct (copy_cases st (cases st)) as [s1 out] eqn:E.
  destruct (copy_cases_ok _ _ _ _ I (fun c Hc => private_valid _ _ (proj1 (i_cases _ I c Hc))) E) as (I1 & C1 & _ & _ & _ & M & Q).
  split; [reflexivity|]. split; [|split; [exact Q|exact C1]]. rewrite M. unfold contents. rewrite map_map. reflexivity.
Qed.

(** * Examples *)
Definition sample_history : list op :=
  [NewRow [1; 1; 20]; NewList [0%nat]; Add "dead" 0 [] None; Append (SrcList 0); SetCase "dead" 0 [0%Z] None;
   WriteRow 0 [2; 2; 5; 1]; WriteList 0 []; AddUdl "live" 2 7; ToLM].
Definition run_ops (ops : list op) : coll := fold_left (fun st o => fst (exec st o)) ops coll0.
Fixpoint all_allowed (st : coll) (ops : list op) : Prop :=
  match ops with [] => True | o :: t => allowed st o /\ all_allowed (fst (exec st o)) t end.
Lemma run_reachable ops : all_allowed coll0 ops -> reachable (run_ops ops).
Proof.
  unfold run_ops. assert (G : forall ops st, reachable st -> all_allowed st ops -> reachable (fold_left (fun st o => fst (exec st o)) ops st)).
  { induction ops0 as [|o t IH]; intros st R A; [exact R|]. destruct A as [A1 A2]. cbn. apply IH; [constructor; assumption|exact A2]. }
  apply G. constructor.
Qed.
Lemma sample_reach : reachable (run_ops sample_history) /\
  map (fun c => (a_name c, a_loads c)) (contents (run_ops sample_history)) = [("dead"%string, [[1; 1; 20]]); ("LC 2"%string, [[1; 1; 20]]); ("live"%string, [[2; 1; 7]])].
Proof.
  split; [apply run_reachable; unfold sample_history; cbn; repeat split; auto; repeat constructor; auto|]. reflexivity.
Qed.
Definition extend_history : list op := [NewRow [1; 1; 20]; NewList [0%nat]; Add "a" 0 [] None].
Lemma extend_partial : exists st o, reachable st /\ allowed st o /\ (exists ss, o = Extend ss) /\ snd (exec st o) = Some ValueError /\
  contents (fst (exec st o)) <> contents st.
Proof.
  exists (run_ops extend_history), (Extend [SrcCase (Some "b"%string) (Some 0%nat) [] None; SrcCase (Some "a"%string) (Some 0%nat) [] None]).
  split; [apply run_reachable; cbn; repeat split; auto; repeat constructor; auto|]. split; [cbn; repeat constructor; cbn; auto|].
  split; [eexists; reflexivity|]. split; [reflexivity|]. intros H. apply (f_equal (@length acase)) in H. discriminate H.
Qed.
Lemma trap_partial : exists st o, reachable st /\ allowed st o /\ (exists n i w1 w2 a, o = AddTrap n i w1 w2 (Some a) None) /\ snd (exec st o) = Some ValueError /\
  contents (fst (exec st o)) <> contents st.
Proof.
  exists coll0, (AddTrap "t" 1 2 3 (Some 1) None). split; [constructor|]. split; [exact Logic.I|]. split; [repeat eexists|]. split; [reflexivity|].
  intros H. apply (f_equal (@length acase)) in H. discriminate H.
Qed.
Lemma span_udl_partial : exists st o, reachable st /\ allowed st o /\ (exists w n, o = AddSpanUdl w n) /\ snd (exec st o) = Some ValueError /\
  contents (fst (exec st o)) <> contents st.
Proof.
  exists (run_ops [NewList []; Add "UDL on span 2" 0 [] None]), (AddSpanUdl 3 2).
  split; [apply run_reachable; cbn; repeat split; auto; repeat constructor; auto|]. split; [exact Logic.I|]. split; [repeat eexists|]. split; [reflexivity|].
  intros H. apply (f_equal (@length acase)) in H. discriminate H.
Qed.
