(** Facts about collections of load cases: sharing, names, effects of the methods. *)
From Coq Require Import String Sorting.Sorted.
From Verif Require Import Base BaseFacts FoundationModel LoadCasesModel CollModel CollSpec SegmentFacts.
Open Scope R_scope.
Local Open Scope list_scope.
Local Notation length := List.length.

Definition privrow (st : coll) (r : nat) : Prop := (r < length (rows st))%nat /\ ~ In r (krows st).
Definition private (st : coll) (l : nat) : Prop :=
  (l < length (lists st))%nat /\ ~ In l (klists st) /\ forall r, In r (list_at st l) -> privrow st r.
Definition privmeta (st : coll) (m : option nat) : Prop := match m with None => True | Some a => privrow st a end.
Definition valid (st : coll) (l : nat) : Prop :=
  (l < length (lists st))%nat /\ forall r, In r (list_at st l) -> (r < length (rows st))%nat.
Record inv (st : coll) : Prop := {
  i_krows : forall r, In r (krows st) -> (r < length (rows st))%nat;
  i_klists : forall l, In l (klists st) -> (l < length (lists st))%nat /\ forall r, In r (list_at st l) -> In r (krows st);
  i_cases : forall c, In c (cases st) -> private st (h_loads c) /\ privmeta st (h_meta c);
  i_sep : NoDup (map h_loads (cases st));
  i_names : NoDup (names st) }.
Record ext (st st' : coll) : Prop := {
  x_rows : exists e, rows st' = rows st ++ e;
  x_lists : exists e, lists st' = lists st ++ e;
  x_cases : cases st' = cases st;
  x_krows : krows st' = krows st;
  x_klists : klists st' = klists st }.

Lemma ext_refl st : ext st st.
Proof. constructor; try reflexivity; exists []; symmetry; apply app_nil_r. Qed.
Lemma ext_trans a b c : ext a b -> ext b c -> ext a c.
Proof.
  intros [[e1 H1] [e2 H2] H3 H4 H5] [[f1 K1] [f2 K2] K3 K4 K5]. constructor.
  - exists (e1 ++ f1). rewrite K1, H1. symmetry; apply app_assoc.
  - exists (e2 ++ f2). rewrite K2, H2. symmetry; apply app_assoc.
  - congruence.
  - congruence.
  - congruence.
Qed.
Lemma ext_row st st' r : ext st st' -> (r < length (rows st))%nat -> row_at st' r = row_at st r.
Proof. intros [[e H] _ _ _ _] L. unfold row_at. rewrite H. apply app_nth1, L. Qed.
Lemma ext_list st st' l : ext st st' -> (l < length (lists st))%nat -> list_at st' l = list_at st l.
Proof. intros [_ [e H] _ _ _] L. unfold list_at. rewrite H. apply app_nth1, L. Qed.
Lemma ext_rlen st st' : ext st st' -> (length (rows st) <= length (rows st'))%nat.
Proof. intros [[e H] _ _ _ _]. rewrite H, app_length. lia. Qed.
Lemma ext_llen st st' : ext st st' -> (length (lists st) <= length (lists st'))%nat.
Proof. intros [_ [e H] _ _ _]. rewrite H, app_length. lia. Qed.
Lemma ext_privrow st st' r : ext st st' -> privrow st r -> privrow st' r.
Proof. intros E [H1 H2]. split; [pose proof (ext_rlen _ _ E); lia|]. rewrite (x_krows _ _ E). exact H2. Qed.
Lemma ext_private st st' l : ext st st' -> private st l -> private st' l.
Proof.
  intros E (H1 & H2 & H3). split; [pose proof (ext_llen _ _ E); lia|]. split; [rewrite (x_klists _ _ E); exact H2|].
  intros r Hr. rewrite (ext_list _ _ _ E H1) in Hr. apply (ext_privrow _ _ _ E), H3, Hr.
Qed.
Lemma ext_privmeta st st' m : ext st st' -> privmeta st m -> privmeta st' m.
Proof. intros E. destruct m; cbn; [apply ext_privrow, E|auto]. Qed.
Lemma ext_loads st st' l : ext st st' -> valid st l -> loads_value st' l = loads_value st l.
Proof.
  intros E [H1 H2]. unfold loads_value. rewrite (ext_list _ _ _ E H1). apply map_ext_in. intros r Hr. apply (ext_row _ _ _ E), H2, Hr.
Qed.
Lemma private_valid st l : private st l -> valid st l.
Proof. intros (H1 & _ & H). split; [exact H1|]. intros r Hr. apply H, Hr. Qed.
Lemma known_valid st l : inv st -> In l (klists st) -> valid st l.
Proof. intros I H. destruct (i_klists _ I l H) as [H1 H2]. split; [exact H1|]. intros r Hr. apply (i_krows _ I), H2, Hr. Qed.
Lemma ext_valid st st' l : ext st st' -> valid st l -> valid st' l.
Proof.
  intros E [H1 H2]. split; [pose proof (ext_llen _ _ E); lia|]. intros r Hr. rewrite (ext_list _ _ _ E H1) in Hr.
  pose proof (ext_rlen _ _ E). specialize (H2 r Hr). lia.
Qed.
Lemma ext_contents st st' : ext st st' -> inv st -> contents st' = contents st.
Proof.
  intros E I. unfold contents. rewrite (x_cases _ _ E). apply map_ext_in. intros c Hc. destruct (i_cases _ I c Hc) as [P M].
  unfold case_value. f_equal; [apply (ext_loads _ _ _ E), private_valid, P|].
  destruct (h_meta c) as [a|]; [|reflexivity]. cbn. f_equal. apply (ext_row _ _ _ E), (proj1 M).
Qed.
Lemma ext_inv st st' : ext st st' -> inv st -> inv st'.
Proof.
  intros E I. constructor.
  - rewrite (x_krows _ _ E). intros r Hr. pose proof (ext_rlen _ _ E). pose proof (i_krows _ I r Hr). lia.
  - rewrite (x_klists _ _ E), (x_krows _ _ E). intros l Hl. destruct (i_klists _ I l Hl) as [H1 H2].
    split; [pose proof (ext_llen _ _ E); lia|]. rewrite (ext_list _ _ _ E H1). exact H2.
  - rewrite (x_cases _ _ E). intros c Hc. destruct (i_cases _ I c Hc) as [H1 H2].
    split; [apply (ext_private _ _ _ E), H1|apply (ext_privmeta _ _ _ E), H2].
  - rewrite (x_cases _ _ E). apply I.
  - unfold names. rewrite (x_cases _ _ E). apply I.
Qed.

(** * Copies *)
Lemma lookup_in a memo b : lookup a memo = Some b -> In (a, b) memo.
Proof.
  induction memo as [|[x y] t IH]; cbn; [discriminate|]. destruct (Nat.eqb_spec a x) as [->|N]; intros H; [left; congruence|right; auto].
Qed.
Lemma copy_rows_ok n0 : forall l h memo h' l', copy_rows h memo l = (h', l') -> (n0 <= length h)%nat ->
  (forall a b, In (a, b) memo -> (a < length h)%nat /\ (n0 <= b < length h)%nat /\ nth b h [] = nth a h []) ->
  (forall a, In a l -> (a < length h)%nat) ->
  (exists e, h' = h ++ e) /\ map (fun a => nth a h' []) l' = map (fun a => nth a h []) l /\ forall b, In b l' -> (n0 <= b < length h')%nat.
Proof.
  induction l as [|a l IH]; intros h memo h' l' E N M V; cbn in E.
  - injection E as <- <-. split; [exists []; symmetry; apply app_nil_r|]. split; [reflexivity|intros b []].
  - destruct (lookup a memo) as [b|] eqn:Lk.
    + destruct (copy_rows h memo l) as [h1 t1] eqn:E1. injection E as <- <-.
      destruct (IH _ _ _ _ E1 N M (fun x Hx => V x (or_intror Hx))) as ([e He] & Hm & Hb).
      destruct (M a b (lookup_in _ _ _ Lk)) as (Ha & Hb1 & Hb2). split; [exists e; exact He|]. split.
      * cbn. f_equal; [|exact Hm]. rewrite He, app_nth1 by lia. exact Hb2.
      * intros x [<-|Hx]; [|apply Hb, Hx]. rewrite He, app_length. lia.
    + destruct (copy_rows (h ++ [nth a h []]) ((a, length h) :: memo) l) as [h1 t1] eqn:E1. injection E as <- <-.
      assert (Va := V a (or_introl eq_refl)).
      edestruct (IH _ _ _ _ E1) as ([e He] & Hm & Hb).
      * rewrite app_length. cbn. lia.
      * intros x y [H|H].
        -- injection H as <- <-. rewrite app_length. cbn. split; [lia|]. split; [lia|].
           rewrite app_nth2, Nat.sub_diag by lia. cbn. symmetry. apply app_nth1. exact Va.
        -- destruct (M x y H) as (H1 & H2 & H3). rewrite app_length. cbn. split; [lia|]. split; [lia|].
           rewrite !app_nth1 by lia. exact H3.
      * intros x Hx. rewrite app_length. specialize (V x (or_intror Hx)). lia.
      * split; [exists (nth a h [] :: e); rewrite He, <- app_assoc; reflexivity|]. split.
        -- cbn. f_equal.
           ++ rewrite He, app_nth1 by (rewrite app_length; cbn; lia). rewrite app_nth2, Nat.sub_diag by lia. reflexivity.
           ++ rewrite Hm. apply map_ext_in. intros x Hx. apply app_nth1. apply V. right. exact Hx.
        -- intros x [<-|Hx]; [|apply Hb, Hx]. rewrite He, !app_length. cbn. lia.
Qed.
Lemma fresh_row_ok st r : inv st -> (length (rows st) <= r)%nat -> ~ In r (krows st).
Proof. intros I L H. apply (i_krows _ I) in H. lia. Qed.
Lemma deepcopy_list_ok st l st' l' : inv st -> valid st l -> deepcopy_list st l = (st', l') ->
  ext st st' /\ private st' l' /\ (length (lists st) <= l')%nat /\ loads_value st' l' = loads_value st l /\
  (forall r, In r (list_at st' l') -> (length (rows st) <= r)%nat).
Proof.
  intros I [V1 V2] E. unfold deepcopy_list in E. destruct (copy_rows (rows st) [] (list_at st l)) as [rs l1] eqn:E1.
  injection E as <- <-. destruct (copy_rows_ok (length (rows st)) _ _ _ _ _ E1 (Nat.le_refl _) ltac:(intros a b []) V2) as ([e He] & Hm & Hb).
  assert (X : ext st (with_heap st rs (lists st ++ [l1]))).
  { constructor; cbn; try reflexivity; eexists; [exact He|reflexivity]. }
  assert (La : list_at (with_heap st rs (lists st ++ [l1])) (length (lists st)) = l1).
  { unfold list_at. cbn. rewrite app_nth2, Nat.sub_diag by lia. reflexivity. }
  split; [exact X|]. split; [|split; [lia|split]].
  - split; [cbn; rewrite app_length; cbn; lia|]. split.
    + cbn. intros H. apply (i_klists _ I) in H. lia.
    + rewrite La. intros r Hr. apply Hb in Hr as [R1 R2]. split; [exact R2|]. cbn. apply fresh_row_ok; [exact I|lia].
  - unfold loads_value. rewrite La. exact Hm.
  - rewrite La. intros r Hr. apply Hb, Hr.
Qed.
Lemma deepcopy_row_ok st a st' b : inv st -> deepcopy_row st a = (st', b) ->
  ext st st' /\ privrow st' b /\ row_at st' b = row_at st a.
Proof.
  intros I E. unfold deepcopy_row in E. injection E as <- <-. split; [|split].
  - constructor; cbn; try reflexivity; [eexists; reflexivity|exists []; symmetry; apply app_nil_r].
  - split; [cbn; rewrite app_length; cbn; lia|]. cbn. apply fresh_row_ok; [exact I|lia].
  - unfold row_at. cbn. rewrite app_nth2, Nat.sub_diag by lia. reflexivity.
Qed.
Lemma deepcopy_meta_ok st m st' m' : inv st -> deepcopy_meta st m = (st', m') ->
  ext st st' /\ privmeta st' m' /\ option_map (row_at st') m' = option_map (row_at st) m.
Proof.
  intros I E. destruct m as [a|]; cbn [deepcopy_meta] in E.
  - destruct (deepcopy_row st a) as [s b] eqn:E1. injection E as <- <-. destruct (deepcopy_row_ok _ _ _ _ I E1) as (X & P & V).
    cbn. rewrite V. auto.
  - injection E as <- <-. split; [apply ext_refl|]. cbn. auto.
Qed.
Lemma new_list_ok st st' l : inv st -> new_list st = (st', l) ->
  ext st st' /\ private st' l /\ (length (lists st) <= l)%nat /\ loads_value st' l = [].
Proof.
  intros I E. unfold new_list in E. injection E as <- <-.
  assert (La : list_at (with_heap st (rows st) (lists st ++ [[]])) (length (lists st)) = []).
  { unfold list_at. cbn. rewrite app_nth2, Nat.sub_diag by lia. reflexivity. }
  split; [|split; [|split; [lia|]]].
  - constructor; cbn; try reflexivity; [exists []; symmetry; apply app_nil_r|eexists; reflexivity].
  - split; [cbn; rewrite app_length; cbn; lia|]. split; [cbn; intros H; apply (i_klists _ I) in H; lia|]. rewrite La. intros r [].
  - unfold loads_value. rewrite La. reflexivity.
Qed.
Lemma new_row_ok st v st' r : inv st -> new_row st v = (st', r) -> ext st st' /\ privrow st' r /\ row_at st' r = v.
Proof.
  intros I E. unfold new_row in E. injection E as <- <-. split; [|split].
  - constructor; cbn; try reflexivity; [eexists; reflexivity|exists []; symmetry; apply app_nil_r].
  - split; [cbn; rewrite app_length; cbn; lia|]. cbn. apply fresh_row_ok; [exact I|lia].
  - unfold row_at. cbn. rewrite app_nth2, Nat.sub_diag by lia. reflexivity.
Qed.

(** * Adding a case *)
Lemma in_names_spec s st : in_names s st = true <-> In s (names_of (contents st)).
Proof.
  unfold in_names. rewrite existsb_exists. unfold names_of, contents, names. rewrite map_map. cbn. split.
  - intros (x & Hx & E). apply String.eqb_eq in E as ->. exact Hx.
  - intros H. exists s. split; [exact H|apply String.eqb_refl].
Qed.
Lemma names_contents st : names_of (contents st) = names st.
Proof. unfold names_of, contents, names. rewrite map_map. reflexivity. Qed.
Lemma sep_bound st : inv st -> forall l, (length (lists st) <= l)%nat -> ~ In l (map h_loads (cases st)).
Proof. intros I l L H. apply in_map_iff in H as (c & <- & Hc). apply (i_cases _ I) in Hc as [(H & _) _]. lia. Qed.
Lemma put_case st st1 name l spans m : inv st -> ext st st1 -> private st1 l -> (length (lists st) <= l)%nat -> privmeta st1 m ->
  in_names name st = false ->
  let st' := with_cases st1 (cases st1 ++ [{| h_name := name; h_loads := l; h_spans := spans; h_meta := m |}]) in
  inv st' /\ contents st' = contents st ++ [{| a_name := name; a_loads := loads_value st1 l; a_spans := spans; a_meta := option_map (row_at st1) m |}].
Proof.
  intros I X P F M N st'. pose proof (ext_inv _ _ X I) as I1. split.
  - constructor; cbn.
    + apply I1.
    + apply I1.
    + intros c Hc. apply in_app_iff in Hc as [Hc|[<-|[]]]; [exact (i_cases _ I1 c Hc)|]. split; [exact P|exact M].
    + rewrite map_app. apply NoDup_app'; [apply I1|repeat constructor; intros []|]. cbn. intros x Hx [<-|[]].
      rewrite (x_cases _ _ X) in Hx. exact (sep_bound _ I _ F Hx).
    + unfold names. cbn. rewrite map_app. apply NoDup_app'; [apply I1|repeat constructor; intros []|]. cbn. intros x Hx [<-|[]].
      rewrite (x_cases _ _ X) in Hx. assert (T : in_names name st = true).
      { apply in_names_spec. rewrite names_contents. exact Hx. }
      congruence.
  - unfold contents. subst st'. cbn [cases with_cases]. rewrite map_app. f_equal.
    change (map (case_value (with_cases st1 (cases st1 ++ [{| h_name := name; h_loads := l; h_spans := spans; h_meta := m |}]))) (cases st1)) with (contents st1).
    apply (ext_contents _ _ X I).
Qed.

Definition case_of (st : coll) (name : string) (loads : nat) (spans : list Z) (meta : option nat) : acase :=
  {| a_name := name; a_loads := loads_value st loads; a_spans := spans; a_meta := option_map (row_at st) meta |}.

Lemma add_ok st name l spans m st' e : inv st -> valid st l -> (forall a, m = Some a -> (a < length (rows st))%nat) ->
  do_add st name l spans m = (st', e) ->
  inv st' /\ krows st' = krows st /\ klists st' = klists st /\
  (In name (names_of (contents st)) /\ e = Some ValueError /\ st' = st \/
   ~ In name (names_of (contents st)) /\ e = None /\ contents st' = contents st ++ [case_of st name l spans m]).
Proof.
  intros I V Vm E. unfold do_add in E. destruct (in_names name st) eqn:N.
  - injection E as <- <-. split; [exact I|]. split; [reflexivity|]. split; [reflexivity|]. left. split; [apply in_names_spec, N|auto].
  - destruct (deepcopy_list st l) as [s1 l1] eqn:E1. destruct (deepcopy_meta s1 m) as [s2 m2] eqn:E2. injection E as <- <-.
    destruct (deepcopy_list_ok _ _ _ _ I V E1) as (X1 & P1 & F1 & L1 & _). pose proof (ext_inv _ _ X1 I) as I1.
    destruct (deepcopy_meta_ok _ _ _ _ I1 E2) as (X2 & P2 & M2). pose proof (ext_trans _ _ _ X1 X2) as X.
    destruct (put_case st s2 name l1 spans m2 I X (ext_private _ _ _ X2 P1) F1 P2 N) as [J K].
    split; [exact J|]. split; [apply X|]. split; [apply X|]. right. split; [rewrite <- in_names_spec; congruence|]. split; [reflexivity|].
    rewrite K. unfold case_of. rewrite (ext_loads _ _ _ X2 (private_valid _ _ P1)), L1, M2. do 2 f_equal. f_equal.
    destruct m as [a|]; [|reflexivity]. cbn. f_equal. apply (ext_row _ _ _ X1), Vm. reflexivity.
Qed.

(** * Replacing a case *)
Lemma find_from_spec name : forall cs k,
  match find_from name cs k with
  | Some i => exists pre c post, cs = pre ++ c :: post /\ h_name c = name /\ ~ In name (map h_name pre) /\ i = (k + length pre)%nat
  | None => ~ In name (map h_name cs)
  end.
Proof.
  induction cs as [|c cs IH]; intros k; cbn [find_from map]; [intros []|]. destruct (String.eqb_spec (h_name c) name) as [E|N].
  - exists [], c, cs. cbn. repeat apply conj; auto; lia.
  - specialize (IH (S k)). destruct (find_from name cs (S k)) as [i|].
    + destruct IH as (pre & c0 & post & -> & H & H1 & ->). exists (c :: pre), c0, post. cbn. repeat apply conj; auto; [intros [?|?]; auto|lia].
    + cbn [In]. intros [?|?]; auto.
Qed.
Lemma find_case_spec name st :
  match find_case name st with
  | Some i => exists pre c post, cases st = pre ++ c :: post /\ h_name c = name /\ i = length pre
  | None => ~ In name (names st)
  end.
Proof.
  unfold find_case. pose proof (find_from_spec name (cases st) 0) as H. destruct (find_from name (cases st) 0) as [i|].
  - destruct H as (pre & c & post & E & H1 & _ & ->). exists pre, c, post. auto.
  - exact H.
Qed.
Lemma put_mid {A} (pre post : list A) c c' : put (pre ++ c :: post) (length pre) c' = pre ++ c' :: post.
Proof.
  unfold put. rewrite firstn_app, firstn_all, Nat.sub_diag. cbn [firstn]. rewrite app_nil_r. do 2 f_equal.
  rewrite skipn_app. rewrite (skipn_all2 pre) by lia. replace (S (length pre) - length pre)%nat with 1%nat by lia. reflexivity.
Qed.
Lemma nth_mid {A} (pre post : list A) c d : nth (length pre) (pre ++ c :: post) d = c.
Proof. rewrite app_nth2, Nat.sub_diag by lia. reflexivity. Qed.

Lemma set_ok st name l spans m st' e : inv st -> valid st l -> (forall a, m = Some a -> (a < length (rows st))%nat) ->
  do_set st name l spans m = (st', e) ->
  inv st' /\ krows st' = krows st /\ klists st' = klists st /\ e = None /\ case_set (contents st) (case_of st name l spans m) (contents st').
Proof.
  intros I V Vm E. unfold do_set in E. pose proof (find_case_spec name st) as Fs. destruct (find_case name st) as [i|].
  - destruct Fs as (pre & c & post & Ec & Hn & ->).
    destruct (deepcopy_list st l) as [s1 l1] eqn:E1. destruct (deepcopy_meta s1 m) as [s2 m2] eqn:E2. injection E as <- <-.
    destruct (deepcopy_list_ok _ _ _ _ I V E1) as (X1 & P1 & F1 & L1 & _). pose proof (ext_inv _ _ X1 I) as I1.
    destruct (deepcopy_meta_ok _ _ _ _ I1 E2) as (X2 & P2 & M2). pose proof (ext_trans _ _ _ X1 X2) as X.
    pose proof (ext_inv _ _ X I) as I2. pose proof (x_cases _ _ X) as Xc. rewrite Xc, Ec, nth_mid, put_mid, Hn.
    set (c' := {| h_name := name; h_loads := l1; h_spans := spans; h_meta := m2 |}).
    pose proof (i_sep _ I2) as S2. pose proof (i_names _ I2) as N2. unfold names in N2. rewrite Xc, Ec, map_app in S2, N2. cbn [map] in S2, N2.
    split; [|split; [apply X|split; [apply X|split; [reflexivity|]]]].
    + constructor; cbn.
      * apply I2.
      * apply I2.
      * intros d Hd. rewrite in_app_iff in Hd. cbn in Hd. destruct Hd as [Hd|[<-|Hd]].
        -- apply (i_cases _ I2). rewrite Xc, Ec. apply in_app_iff; auto.
        -- split; [apply (ext_private _ _ _ X2), P1|exact P2].
        -- apply (i_cases _ I2). rewrite Xc, Ec. apply in_app_iff; cbn; auto.
      * rewrite map_app. cbn. pose proof (NoDup_remove_1 _ _ _ S2) as R1. apply (NoDup_Add (Add_app l1 (map h_loads pre) (map h_loads post))).
        split; [exact R1|]. intros H. apply (sep_bound _ I l1 F1). rewrite Ec, map_app. cbn. rewrite in_app_iff in H |- *. cbn. tauto.
      * unfold names. cbn. rewrite map_app. cbn. rewrite <- Hn. exact N2.
    + left. exists (map (case_value st) pre), (case_value st c), (map (case_value st) post).
      unfold contents. rewrite Ec, map_app. split; [reflexivity|]. split; [exact Hn|].
      cbn [cases with_cases]. rewrite map_app. cbn [map]. f_equal; [|f_equal].
      * apply map_ext_in. intros d Hd. assert (Hd' : In d (cases st)) by (rewrite Ec; apply in_app_iff; auto).
        destruct (i_cases _ I d Hd') as [Pd Md]. unfold case_value. f_equal; [apply (ext_loads _ _ _ X), private_valid, Pd|].
        destruct (h_meta d); [|reflexivity]. cbn. f_equal. apply (ext_row _ _ _ X), Md.
      * unfold case_value, case_of. cbn. f_equal.
        -- change (loads_value s2 l1 = loads_value st l). rewrite (ext_loads _ _ _ X2 (private_valid _ _ P1)). exact L1.
        -- change (option_map (row_at s2) m2 = option_map (row_at st) m). rewrite M2. destruct m as [a|]; [|reflexivity]. cbn. f_equal.
           apply (ext_row _ _ _ X1), Vm. reflexivity.
      * apply map_ext_in. intros d Hd. assert (Hd' : In d (cases st)) by (rewrite Ec; apply in_app_iff; cbn; auto).
        destruct (i_cases _ I d Hd') as [Pd Md]. unfold case_value. f_equal; [apply (ext_loads _ _ _ X), private_valid, Pd|].
        destruct (h_meta d); [|reflexivity]. cbn. f_equal. apply (ext_row _ _ _ X), Md.
  - destruct (add_ok _ _ _ _ _ _ _ I V Vm E) as (J & K1 & K2 & [(H & _)|(H & -> & K)]).
    + rewrite names_contents in H. tauto.
    + split; [exact J|]. split; [exact K1|]. split; [exact K2|]. split; [reflexivity|]. right. split; [exact H|exact K].
Qed.

(** * Appending objects *)
Lemma zinsert_in z y l : In y (zinsert z l) <-> y = z \/ In y l.
Proof.
  induction l as [|x l IH]; cbn; [intuition congruence|]. destruct (Z.ltb_spec z x); [cbn; intuition congruence|].
  destruct (Z.eqb_spec z x) as [->|N]; cbn; [intuition congruence|]. rewrite IH. intuition congruence.
Qed.
Lemma zinsert_sorted z l : StronglySorted Z.lt l -> StronglySorted Z.lt (zinsert z l).
Proof.
  induction l as [|x l IH]; intros S; cbn; [repeat constructor|]. inversion S as [|? ? S1 F]; subst.
  destruct (Z.ltb_spec z x) as [L|L].
  - constructor; [exact S|]. constructor; [exact L|]. eapply Forall_impl; [|exact F]. intros; cbn in *; lia.
  - destruct (Z.eqb_spec z x) as [->|N]; [exact S|]. constructor; [apply IH, S1|]. apply Forall_forall. intros y Hy.
    apply zinsert_in in Hy as [->|Hy]; [lia|]. rewrite Forall_forall in F. apply F, Hy.
Qed.
Lemma sorted_set_spec l : StronglySorted Z.lt (sorted_set l) /\ forall z, In z (sorted_set l) <-> In z l.
Proof.
  induction l as [|x l [IH1 IH2]]; cbn; [split; [constructor|tauto]|]. split; [apply zinsert_sorted, IH1|].
  intros z. rewrite zinsert_in, IH2. intuition congruence.
Qed.
Lemma rows_spans st l :
  spans_of_rows (loads_value st l) (sorted_set (flat_map (fun r => match row_at st r with [] => [] | x :: _ => [(trunc x - 1)%Z] end) (list_at st l))).
Proof.
  destruct (sorted_set_spec (flat_map (fun r => match row_at st r with [] => [] | x :: _ => [(trunc x - 1)%Z] end) (list_at st l))) as [S1 S2].
  split; [exact S1|]. intros z. rewrite S2, in_flat_map. unfold loads_value. split.
  - intros (r & Hr & Hz). destruct (row_at st r) as [|x t] eqn:E; [destruct Hz|]. destruct Hz as [<-|[]]. exists x, t. split; [|reflexivity].
    rewrite <- E. apply in_map, Hr.
  - intros (x & t & H & ->). apply in_map_iff in H as (r & E & Hr). exists r. split; [exact Hr|]. rewrite E. left. reflexivity.
Qed.
Definition source_valid (st : coll) (s : source) : Prop :=
  (forall l, source_loads s = Some l -> valid st l) /\ (forall a, source_meta s = Some a -> (a < length (rows st))%nat).
Definition default_name (k : nat) : string := ("LC " ++ dec (k + 1))%string.
Definition given_name (s : source) (k : nat) : string := match s with SrcCase (Some n) _ _ _ => n | _ => default_name k end.

Lemma append_ok st s st' e : inv st -> source_valid st s -> do_append st s = (st', e) ->
  inv st' /\ krows st' = krows st /\ klists st' = klists st /\
  (In (given_name s (length (contents st))) (names_of (contents st)) /\ e = Some ValueError /\ st' = st \/
   ~ In (given_name s (length (contents st))) (names_of (contents st)) /\ e = None /\
   exists c, made_from st s (default_name (length (contents st))) c /\ contents st' = contents st ++ [c] /\
     ((exists x, rows st' = rows st ++ x) /\ exists y, lists st' = lists st ++ y)).
Proof.
  intros I [Vl Vm] E. unfold do_append in E. assert (Ln : length (contents st) = length (cases st)) by apply map_length.
  assert (Gn : source_name s (length (cases st)) = given_name s (length (contents st))).
  { rewrite Ln. destruct s as [l|[n|] l sp m]; reflexivity. }
  rewrite Gn in E. destruct (in_names (given_name s (length (contents st))) st) eqn:N.
  - injection E as <- <-. split; [exact I|]. split; [reflexivity|]. split; [reflexivity|]. left. split; [apply in_names_spec, N|auto].
  - cbv zeta in E. destruct (match source_loads s with Some a => deepcopy_list st a | None => new_list st end) as [s1 l1] eqn:E1.
    destruct (deepcopy_meta s1 (source_meta s)) as [s2 m2] eqn:E2. injection E as <- <-.
    assert (H1 : ext st s1 /\ private s1 l1 /\ (length (lists st) <= l1)%nat /\
                 loads_value s1 l1 = match source_loads s with Some l => loads_value st l | None => [] end).
    { destruct (source_loads s) as [a|] eqn:Es.
      - destruct (deepcopy_list_ok _ _ _ _ I (Vl a eq_refl) E1) as (X1 & P1 & F1 & L1 & _). auto.
      - apply (new_list_ok _ _ _ I E1). }
    destruct H1 as (X1 & P1 & F1 & L1). pose proof (ext_inv _ _ X1 I) as I1.
    destruct (deepcopy_meta_ok _ _ _ _ I1 E2) as (X2 & P2 & M2). pose proof (ext_trans _ _ _ X1 X2) as X.
    destruct (put_case st s2 _ l1 (source_spans st s) m2 I X (ext_private _ _ _ X2 P1) F1 P2 N) as [J K].
    split; [exact J|]. split; [apply X|]. split; [apply X|]. right. split; [rewrite <- in_names_spec; congruence|]. split; [reflexivity|].
    eexists. split; [|split; [exact K|]].
    + rewrite (ext_loads _ _ _ X2 (private_valid _ _ P1)), L1, M2.
      assert (Mm : option_map (row_at s1) (source_meta s) = option_map (row_at st) (source_meta s)).
      { destruct (source_meta s) as [a|] eqn:Es; [|reflexivity]. cbn. f_equal. apply (ext_row _ _ _ X1), Vm. reflexivity. }
      rewrite Mm. destruct s as [l|n l sp m]; cbn [made_from source_loads source_meta source_spans a_name a_loads a_spans a_meta].
      * split; [reflexivity|]. split; [reflexivity|]. split; [apply rows_spans|reflexivity].
      * split; [destruct n; reflexivity|]. split; [reflexivity|]. split; [|reflexivity].
        destruct sp as [|z sp]; [|reflexivity]. destruct l as [l|]; [apply rows_spans|]. split; [constructor|]. intros z. cbn.
        split; [intros []|]. intros (x & t & [] & _).
    + split; [apply X|apply X].
Qed.

Lemma made_from_ext st st' s d c : (exists x, rows st' = rows st ++ x) -> (exists y, lists st' = lists st ++ y) -> source_valid st s ->
  made_from st' s d c -> made_from st s d c.
Proof.
  intros [x Hx] [y Hy] [Vl Vm] H.
  assert (Er : forall r, (r < length (rows st))%nat -> row_at st' r = row_at st r).
  { intros r L. unfold row_at. rewrite Hx. apply app_nth1, L. }
  assert (El : forall l, valid st l -> loads_value st' l = loads_value st l).
  { intros l [L1 L2]. unfold loads_value, list_at at 1. rewrite Hy, app_nth1 by exact L1. apply map_ext_in. intros r Hr. apply Er, L2, Hr. }
  destruct s as [l|n l sp m]; cbn in *.
  - rewrite (El l (Vl l eq_refl)) in H. exact H.
  - assert (E1 : match l with Some l => loads_value st' l | None => [] end = match l with Some l => loads_value st l | None => [] end).
    { destruct l as [l|]; [apply El, Vl; reflexivity|reflexivity]. }
    assert (E2 : option_map (row_at st') m = option_map (row_at st) m).
    { destruct m as [a|]; [|reflexivity]. cbn. f_equal. apply Er, Vm. reflexivity. }
    rewrite E1, E2 in H. exact H.
Qed.
Lemma source_valid_ext st st' s : (exists x, rows st' = rows st ++ x) -> (exists y, lists st' = lists st ++ y) -> source_valid st s -> source_valid st' s.
Proof.
  intros [x Hx] [y Hy] [Vl Vm]. split.
  - intros l Hl. destruct (Vl l Hl) as [L1 L2]. split; [rewrite Hy, app_length; lia|]. intros r Hr. unfold list_at in Hr.
    rewrite Hy, app_nth1 in Hr by exact L1. rewrite Hx, app_length. specialize (L2 r Hr). lia.
  - intros a Ha. rewrite Hx, app_length. specialize (Vm a Ha). lia.
Qed.

Lemma extend_ok : forall ss st st' e, inv st -> Forall (source_valid st) ss -> do_extend st ss = (st', e) ->
  inv st' /\ krows st' = krows st /\ klists st' = klists st /\
  exists cs, contents st' = contents st ++ cs /\
  (forall j s c, nth_error ss j = Some s -> nth_error cs j = Some c -> made_from st s (default_name (length (contents st) + j)) c) /\
  (e = None /\ length cs = length ss \/
   e = Some ValueError /\ exists s, nth_error ss (length cs) = Some s /\ In (given_name s (length (contents st'))) (names_of (contents st'))).
Proof.
  induction ss as [|s ss IH]; intros st st' e I V E; cbn [do_extend] in E.
  - injection E as <- <-. split; [exact I|]. split; [reflexivity|]. split; [reflexivity|]. exists []. rewrite app_nil_r.
    split; [reflexivity|]. split; [intros [|j] s c; discriminate|]. left. auto.
  - inversion V as [|? ? V1 V2]; subst. destruct (do_append st s) as [s1 e1] eqn:E1.
    destruct (append_ok _ _ _ _ I V1 E1) as (I1 & K1 & K2 & [(H & -> & ->)|(H & -> & c & Mc & Cc & Xr & Xl)]).
    + injection E as <- <-. split; [exact I|]. split; [reflexivity|]. split; [reflexivity|]. exists []. rewrite app_nil_r.
      split; [reflexivity|]. split; [intros [|j] t c Ht Hc; discriminate|]. right. split; [reflexivity|]. exists s. split; [reflexivity|exact H].
    + destruct (IH s1 st' e I1) as (I2 & K3 & K4 & cs & C2 & M2 & O2).
      * rewrite Forall_forall in V2 |- *. intros t Ht. apply (source_valid_ext st); auto.
      * exact E.
      * split; [exact I2|]. split; [congruence|]. split; [congruence|]. exists (c :: cs). split; [rewrite C2, Cc, <- app_assoc; reflexivity|]. split.
        -- intros [|j] t d Ht Hd; cbn in Ht, Hd.
           ++ injection Ht as <-. injection Hd as <-. rewrite Nat.add_0_r. exact Mc.
           ++ apply (made_from_ext st s1); [exact Xr|exact Xl|rewrite Forall_forall in V2; apply V2; eapply nth_error_In; exact Ht|].
              specialize (M2 j t d Ht Hd). rewrite Cc, app_length in M2. cbn [length] in M2.
              replace (length (contents st) + S j)%nat with (length (contents st) + 1 + j)%nat by lia. exact M2.
        -- destruct O2 as [(-> & O2)|(-> & t & O2 & O3)]; [left|right]; split; auto; [cbn; lia|]. exists t. split; [exact O2|exact O3].
Qed.

(** * Adding rows *)
Definition empty_case (name : string) : acase := {| a_name := name; a_loads := []; a_spans := []; a_meta := None |}.
(** [st'] keeps every object of [st] that the caller holds or that no case uses. *)
Lemma get_case_ok st name st' i : inv st -> get_case st name = (st', i) ->
  inv st' /\ krows st' = krows st /\ klists st' = klists st /\ (exists x, rows st' = rows st ++ x) /\ (exists y, lists st' = lists st ++ y) /\
  exists pre c post, cases st' = pre ++ c :: post /\ length pre = i /\ h_name c = name /\
  ((contents st' = contents st) \/ (~ In name (names_of (contents st)) /\ contents st' = contents st ++ [empty_case name] /\ post = [] /\ map (case_value st') pre = contents st)).
Proof.
  intros I E. unfold get_case in E. pose proof (find_case_spec name st) as Fs. destruct (find_case name st) as [k|].
  - injection E as <- <-. destruct Fs as (pre & c & post & Ec & Hn & ->).
    split; [exact I|]. split; [reflexivity|]. split; [reflexivity|]. split; [exists []; symmetry; apply app_nil_r|]. split; [exists []; symmetry; apply app_nil_r|].
    exists pre, c, post. auto.
  - destruct (new_list st) as [s1 l] eqn:E1. injection E as <- <-. destruct (new_list_ok _ _ _ I E1) as (X & P & F & L).
    assert (N : in_names name st = false).
    { destruct (in_names name st) eqn:Q; [|reflexivity]. apply in_names_spec in Q. rewrite names_contents in Q. tauto. }
    destruct (put_case st s1 name l [] None I X P F Logic.I N) as [J K].
    split; [exact J|]. split; [apply X|]. split; [apply X|]. split; [apply X|]. split; [apply X|].
    exists (cases s1), {| h_name := name; h_loads := l; h_spans := []; h_meta := None |}, []. split; [reflexivity|]. split; [reflexivity|]. split; [reflexivity|].
    right. rewrite names_contents. split; [exact Fs|]. split; [rewrite K, L; reflexivity|]. split; [reflexivity|]. apply (ext_contents _ _ X I).
Qed.
Lemma push_ok st pre c post r : inv st -> cases st = pre ++ c :: post ->
  let st' := push_row st (length pre) r in
  inv st' /\ krows st' = krows st /\ klists st' = klists st /\
  contents st' = map (case_value st) pre ++
    {| a_name := h_name c; a_loads := loads_value st (h_loads c) ++ [row_at st r]; a_spans := h_spans c; a_meta := option_map (row_at st) (h_meta c) |}
    :: map (case_value st) post.
Proof.
  intros I Ec. unfold push_row. replace (nth (length pre) (cases st) hcase0) with c by (rewrite Ec, nth_mid; reflexivity). destruct (deepcopy_row st r) as [s1 b] eqn:E1.
  destruct (deepcopy_row_ok _ _ _ _ I E1) as (X & Pb & Vb). pose proof (ext_inv _ _ X I) as I1. cbv zeta.
  set (a := h_loads c). set (st' := with_heap s1 (rows s1) (put (lists s1) a (list_at s1 a ++ [b]))).
  pose proof (x_cases _ _ X) as Xc.
  assert (Ca : In c (cases st)) by (rewrite Ec; apply in_app_iff; cbn; auto).
  destruct (i_cases _ I c Ca) as [Pc Mc]. pose proof (ext_private _ _ _ X Pc) as P1. fold a in Pc, P1.
  assert (Ll : length (lists st') = length (lists s1)).
  { unfold st', put. cbn [lists with_heap]. rewrite app_length. cbn [length]. rewrite firstn_length, skipn_length. destruct P1 as (H & _). lia. }
  assert (At : list_at st' a = list_at s1 a ++ [b]).
  { unfold list_at at 1, st', put. cbn [lists with_heap]. rewrite app_nth2; rewrite firstn_length; destruct P1 as (H & _); [|lia].
    replace (a - Nat.min a (length (lists s1)))%nat with 0%nat by lia. reflexivity. }
  assert (Ot : forall l, l <> a -> list_at st' l = list_at s1 l).
  { intros l N. unfold list_at, st', put. cbn [lists with_heap]. destruct P1 as (H & _).
    assert (Lf : length (firstn a (lists s1)) = a) by (rewrite firstn_length; lia).
    destruct (Nat.lt_ge_cases l a) as [L|L].
    - rewrite app_nth1 by lia. rewrite <- (firstn_skipn a (lists s1)) at 2. rewrite app_nth1 by lia. reflexivity.
    - rewrite app_nth2 by lia. rewrite Lf. destruct (l - a)%nat as [|k] eqn:Ek; [lia|]. cbn [nth].
      rewrite <- (firstn_skipn (S a) (lists s1)) at 2. rewrite app_nth2; rewrite firstn_length; [|lia]. f_equal. lia. }
  assert (Ip : forall d, In d (cases st) -> private st' (h_loads d) /\ privmeta st' (h_meta d)).
  { intros d Hd. destruct (i_cases _ I d Hd) as [Pd Md]. pose proof (ext_private _ _ _ X Pd) as (D1 & D2 & D3). split.
    - split; [rewrite Ll; exact D1|]. split; [exact D2|]. intros q Hq. destruct (Nat.eq_dec (h_loads d) a) as [Ea|Na].
      + rewrite Ea, At in Hq. apply in_app_iff in Hq as [Hq|[<-|[]]]; [|exact Pb]. rewrite <- Ea in Hq. apply D3, Hq.
      + rewrite (Ot _ Na) in Hq. apply D3, Hq.
    - exact (ext_privmeta _ _ _ X Md). }
  split; [|split; [apply X|split; [apply X|]]].
  - constructor.
    + apply I1.
    + intros l Hl. destruct (i_klists _ I1 l Hl) as [H1 H2]. split; [rewrite Ll; exact H1|].
      rewrite Ot; [exact H2|]. intros ->. exact (proj1 (proj2 P1) Hl).
    + cbn. rewrite Xc. exact Ip.
    + apply I1.
    + apply I1.
  - pose proof (i_sep _ I) as S. rewrite Ec, map_app in S. cbn [map] in S. apply NoDup_remove_2 in S.
    assert (Oth : forall d, In d (cases st) -> h_loads d <> a -> case_value st' d = case_value st d).
    { intros d Hd Nd. destruct (i_cases _ I d Hd) as [Pd Md]. unfold case_value. f_equal.
      - unfold loads_value. rewrite (Ot _ Nd). apply (ext_loads _ _ _ X), private_valid, Pd.
      - destruct (h_meta d); [|reflexivity]. cbn. f_equal. apply (ext_row _ _ _ X), Md. }
    unfold contents. change (cases st') with (cases s1). rewrite Xc, Ec, map_app. cbn [map]. f_equal; [|f_equal].
    + apply map_ext_in. intros d Hd. apply Oth; [rewrite Ec; apply in_app_iff; auto|]. intros E. apply S. rewrite in_app_iff. left.
      change (In a (map h_loads pre)). rewrite <- E. apply in_map, Hd.
    + unfold case_value. fold a. f_equal.
      * unfold loads_value. rewrite At, map_app. cbn. f_equal; [|f_equal; exact Vb]. apply (ext_loads _ _ _ X), private_valid, Pc.
      * destruct (h_meta c); [|reflexivity]. cbn. f_equal. apply (ext_row _ _ _ X), Mc.
    + apply map_ext_in. intros d Hd. apply Oth; [rewrite Ec; apply in_app_iff; cbn; auto|]. intros E. apply S. rewrite in_app_iff. right.
      change (In a (map h_loads post)). rewrite <- E. apply in_map, Hd.
Qed.
Lemma push_case st name s1 i r : inv st -> get_case st name = (s1, i) ->
  inv (push_row s1 i r) /\ krows (push_row s1 i r) = krows st /\ klists (push_row s1 i r) = klists st /\
  row_added (contents st) name (row_at s1 r) (contents (push_row s1 i r)).
Proof.
  intros I E. destruct (get_case_ok _ _ _ _ I E) as (I1 & K1 & K2 & _ & _ & pre & c & post & Ec & <- & Hn & D).
  destruct (push_ok s1 pre c post r I1 Ec) as (J & K3 & K4 & K). cbv zeta in *. split; [exact J|]. split; [congruence|]. split; [congruence|].
  assert (Es : contents s1 = map (case_value s1) pre ++ case_value s1 c :: map (case_value s1) post) by (unfold contents; rewrite Ec, map_app; reflexivity).
  destruct D as [D|(N & D & -> & D2)].
  - left. exists (map (case_value s1) pre), (case_value s1 c), (map (case_value s1) post). rewrite <- D, Es. split; [reflexivity|].
    split; [exact Hn|]. rewrite K, <- Hn. reflexivity.
  - right. split; [exact N|]. rewrite K, D2. f_equal. rewrite Es, D2 in D. apply app_inv_head in D. cbn [map] in D |- *.
    assert (Dc : case_value s1 c = empty_case name) by congruence.
    change (loads_value s1 (h_loads c)) with (a_loads (case_value s1 c)). change (h_spans c) with (a_spans (case_value s1 c)).
    change (option_map (row_at s1) (h_meta c)) with (a_meta (case_value s1 c)). rewrite Dc, Hn. reflexivity.
Qed.
