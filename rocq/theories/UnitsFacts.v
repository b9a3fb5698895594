(** Proofs about unit systems. *)
From Coq Require Import String Ascii.
From Verif Require Import Base BaseFacts UnitsModel UnitsSpec.
Open Scope R_scope.
Local Open Scope string_scope.
Local Open Scope list_scope.
Local Notation length := List.length.

Lemma ascii_inj c d : nat_of_ascii c = nat_of_ascii d -> c = d.
Proof. intros H. rewrite <- (ascii_nat_embedding c), <- (ascii_nat_embedding d), H. reflexivity. Qed.
Lemma blank_space c : is_space c = true <-> blank c.
Proof.
  unfold blank. destruct c as [b0 b1 b2 b3 b4 b5 b6 b7]. destruct b0, b1, b2, b3, b4, b5, b6, b7; vm_compute; split; intros H;
    try discriminate; try reflexivity; try tauto; repeat (destruct H as [H|H]; try discriminate); try destruct H; tauto.
Qed.

Definition norm1 (c : ascii) : ascii := replace1 " " "-" (replace1 "_" "-" (lower c)).
Definition capital (c : ascii) : Prop := (65 <= nat_of_ascii c <= 90)%nat.
Lemma capital_b c : capital c <-> (Nat.leb 65 (nat_of_ascii c) && Nat.leb (nat_of_ascii c) 90)%bool = true.
Proof. unfold capital. rewrite andb_true_iff, !Nat.leb_le. tauto. Qed.
Lemma norm1_cases c : (separator c /\ norm1 c = "-"%char) \/ (capital c /\ nat_of_ascii (norm1 c) = (nat_of_ascii c + 32)%nat) \/
  (norm1 c = c /\ ~ separator c /\ ~ capital c).
Proof.
  rewrite capital_b. unfold separator. destruct c as [b0 b1 b2 b3 b4 b5 b6 b7]. destruct b0, b1, b2, b3, b4, b5, b6, b7; vm_compute;
    first [ right; right; split; [reflexivity|split; [intuition discriminate|discriminate]] | right; left; split; reflexivity | left; split; [tauto|reflexivity] ].
Qed.
Lemma sep_code c : separator c -> norm1 c = "-"%char.
Proof. intros [->|[->| ->]]; reflexivity. Qed.
Lemma sep_codes c : separator c -> (nat_of_ascii c = 32 \/ nat_of_ascii c = 95 \/ nat_of_ascii c = 45)%nat.
Proof. intros [->|[->| ->]]; vm_compute; auto. Qed.
Lemma dash : nat_of_ascii "-" = 45%nat. Proof. reflexivity. Qed.

Lemma same_norm c d : same_char c d <-> norm1 c = norm1 d.
Proof.
  split.
  - intros [->|[[Hc Hd]|[[H1 H2]|[H1 H2]]]].
    + reflexivity.
    + rewrite !sep_code by assumption. reflexivity.
    + apply ascii_inj. destruct (norm1_cases c) as [[S _]|[[_ E]|(_ & _ & N)]]; [apply sep_codes in S; lia| |destruct (N H1)].
      destruct (norm1_cases d) as [[S _]|[[C _]|(E' & _)]]; [apply sep_codes in S; lia|unfold capital in C; lia|].
      rewrite E, E'. lia.
    + apply ascii_inj. destruct (norm1_cases d) as [[S _]|[[_ E]|(_ & _ & N)]]; [apply sep_codes in S; lia| |destruct (N H1)].
      destruct (norm1_cases c) as [[S _]|[[C _]|(E' & _)]]; [apply sep_codes in S; lia|unfold capital in C; lia|].
      rewrite E, E'. lia.
  - intros E. destruct (norm1_cases c) as [[Sc Ec]|[[Cc Ec]|(Ec & Nc & Pc)]]; destruct (norm1_cases d) as [[Sd Ed]|[[Cd Ed]|(Ed & Nd & Pd)]].
    + right. left. auto.
    + exfalso. rewrite <- E, Ec, dash in Ed. unfold capital in Cd. lia.
    + exfalso. apply Nd. rewrite <- Ed, <- E, Ec. right. right. reflexivity.
    + exfalso. rewrite E, Ed, dash in Ec. unfold capital in Cc. lia.
    + left. apply ascii_inj. rewrite E in Ec. lia.
    + right. right. left. split; [exact Cc|]. rewrite <- Ed, <- E. exact Ec.
    + exfalso. apply Nc. rewrite <- Ec, E, Ed. right. right. reflexivity.
    + right. right. right. split; [exact Cd|]. rewrite <- Ec, E. exact Ed.
    + left. congruence.
Qed.

(** ** Stripping *)
Lemma lstrip_pre pre l : Forall blank pre -> lstrip (pre ++ l) = lstrip l.
Proof. intros H. induction H as [|c t Hc Ht IH]; [reflexivity|]. cbn. apply blank_space in Hc. rewrite Hc. exact IH. Qed.
Lemma lstrip_id c t : ~ blank c -> lstrip (c :: t) = c :: t.
Proof. intros H. cbn. destruct (is_space c) eqn:E; [apply blank_space in E; contradiction|reflexivity]. Qed.
Lemma lstrip_blank l : Forall blank l -> lstrip l = [].
Proof. intros H. rewrite <- (app_nil_r l). rewrite lstrip_pre by exact H. reflexivity. Qed.
Lemma lstrip_split l : exists pre, Forall blank pre /\ l = pre ++ lstrip l.
Proof.
  induction l as [|c t (pre & Hp & E)]; [exists []; auto|]. cbn. destruct (is_space c) eqn:S.
  - exists (c :: pre). split; [constructor; [apply blank_space; exact S|exact Hp]|]. cbn. rewrite <- E. reflexivity.
  - exists []. auto.
Qed.
Lemma lstrip_head l c t : lstrip l = c :: t -> ~ blank c.
Proof.
  induction l as [|d l IH]; cbn; [discriminate|]. destruct (is_space d) eqn:S; [exact IH|].
  intros E. injection E as <- <-. intros B. apply blank_space in B. congruence.
Qed.
Lemma blank_rev l : Forall blank l -> Forall blank (rev l).
Proof. apply Forall_rev. Qed.
Lemma strip_core pre m post : Forall blank pre -> Forall blank post -> trimmed m -> strip (pre ++ m ++ post) = m.
Proof.
  intros Hp Hq [H1 H2]. unfold strip. rewrite (lstrip_pre _ _ Hp). destruct m as [|c t].
  - rewrite (lstrip_blank ([] ++ post) Hq). reflexivity.
  - cbn [app]. rewrite (lstrip_id c (t ++ post)) by (apply (H1 c t); reflexivity).
    change (c :: t ++ post) with ((c :: t) ++ post). rewrite rev_app_distr, (lstrip_pre _ _ (blank_rev _ Hq)).
    destruct (exists_last (l := c :: t)) as (u & d & E); [discriminate|]. rewrite E. rewrite rev_app_distr. cbn [rev app].
    rewrite (lstrip_id d (rev u)) by (apply (H2 u d); exact E). cbn. rewrite rev_involutive. reflexivity.
Qed.
Lemma strip_split l : trimmed (strip l) /\ exists pre post, Forall blank pre /\ Forall blank post /\ l = pre ++ strip l ++ post.
Proof.
  destruct (lstrip_split l) as (pre & Hp & E). destruct (lstrip_split (rev (lstrip l))) as (post & Hq & E2).
  unfold strip. set (w := lstrip (rev (lstrip l))) in *.
  assert (E3 : lstrip l = rev w ++ rev post) by (rewrite <- (rev_involutive (lstrip l)), E2, rev_app_distr; reflexivity).
  split.
  - split.
    + intros c t Ec. rewrite Ec in E3. cbn in E3. exact (lstrip_head _ _ _ E3).
    + intros t c Ec. assert (Ew : w = c :: rev t) by (rewrite <- (rev_involutive w), Ec, rev_app_distr; reflexivity).
      unfold w in Ew. exact (lstrip_head _ _ _ Ew).
  - exists pre, (rev post). split; [exact Hp|]. split; [apply blank_rev, Hq|]. rewrite <- E3. exact E.
Qed.
Lemma core_strip s m : core s m <-> m = strip (list_ascii_of_string s).
Proof.
  split.
  - intros (T & pre & post & Hp & Hq & ->). symmetry. apply strip_core; assumption.
  - intros ->. exact (strip_split _).
Qed.
Lemma normalise_core s : normalise s = string_of_list_ascii (map norm1 (strip (list_ascii_of_string s))).
Proof. unfold normalise. rewrite !map_map. reflexivity. Qed.
Lemma list_inj a b : string_of_list_ascii a = string_of_list_ascii b -> a = b.
Proof. intros H. rewrite <- (list_ascii_of_string_of_list_ascii a), H, list_ascii_of_string_of_list_ascii. reflexivity. Qed.
Lemma map_norm m : forall n, map norm1 m = map norm1 n <-> Forall2 same_char m n.
Proof.
  induction m as [|c m IH]; intros [|d n]; cbn; split; intros H; try discriminate; try reflexivity; try constructor; try (inversion H; fail).
  - apply same_norm. injection H as H _. exact H.
  - apply IH. injection H as _ H. exact H.
  - inversion H; subst. f_equal; [apply same_norm; assumption|apply IH; assumption].
Qed.
Lemma same_name_norm a b : same_name a b <-> normalise a = normalise b.
Proof.
  rewrite !normalise_core. split.
  - intros (m & n & Hm & Hn & F). apply core_strip in Hm. apply core_strip in Hn. subst. f_equal. apply map_norm, F.
  - intros E. apply list_inj, map_norm in E. exists (strip (list_ascii_of_string a)), (strip (list_ascii_of_string b)).
    split; [apply core_strip; reflexivity|]. split; [apply core_strip; reflexivity|exact E].
Qed.

(** ** Resolution *)
Theorem spelling d a b : same_name a b -> resolve d (UName a) = resolve d (UName b).
Proof. intros H. apply same_name_norm in H. cbn. rewrite H. reflexivity. Qed.

Lemma lookup_ok k u : forall l, lookup k l = Ok u -> In (k, u) l.
Proof.
  induction l as [|[k' v] t IH]; cbn; [discriminate|]. destruct (String.eqb_spec k k') as [->|]; [|right; auto].
  intros E. injection E as <-. left. reflexivity.
Qed.
Lemma lookup_err k e : forall l, lookup k l = Err e -> e = KeyError.
Proof. induction l as [|[k' v] t IH]; cbn; [congruence|]. destruct (String.eqb k k'); [discriminate|exact IH]. Qed.

Lemma documented_ok names name q : In (names, q) documented -> In name names -> exists u, lookup (normalise name) registry = Ok u /\ shows u q.
Proof.
  intros H1 H2. unfold documented in H1. repeat (destruct H1 as [H1|H1]; [injection H1 as <- <-; repeat (destruct H2 as [<-|H2]; [eexists; split; vm_compute; reflexivity|]); destruct H2|]).
  destruct H1.
Qed.
Ltac look_at D i j := eapply (D _ _ i j); [reflexivity|reflexivity|vm_compute; reflexivity|reflexivity].
Ltac look D := first [look_at D 0%nat 0%nat|look_at D 0%nat 1%nat|look_at D 0%nat 2%nat|look_at D 0%nat 3%nat|look_at D 0%nat 4%nat|look_at D 0%nat 5%nat
  |look_at D 1%nat 0%nat|look_at D 1%nat 1%nat|look_at D 1%nat 2%nat|look_at D 2%nat 0%nat|look_at D 2%nat 1%nat|look_at D 2%nat 2%nat|look_at D 2%nat 3%nat
  |look_at D 3%nat 0%nat|look_at D 3%nat 1%nat|look_at D 4%nat 0%nat|look_at D 4%nat 1%nat|look_at D 4%nat 2%nat].
Lemma registry_documented k u : In (k, u) registry -> exists names name q, In (names, q) documented /\ In name names /\ normalise name = k /\ shows u q.
Proof.
  assert (D : forall k u i j names q name, nth_error documented i = Some (names, q) -> nth_error names j = Some name -> normalise name = k -> shows u q ->
    exists names name q, In (names, q) documented /\ In name names /\ normalise name = k /\ shows u q).
  { clear. intros k u i j names q name H1 H2 H3 H4. exists names, name, q. split; [exact (nth_error_In _ _ H1)|]. split; [exact (nth_error_In _ _ H2)|]. auto. }
  intros H. unfold registry in H.
  repeat (destruct H as [H|H]; [injection H as <- <-; look D|]). destruct H.
Qed.

Theorem resolves_named d s q : named s q -> exists u, resolve d (UName s) = Ok u /\ shows u q.
Proof.
  intros (names & name & H1 & H2 & H3). rewrite (spelling d _ _ H3). cbn. exact (documented_ok _ _ _ H1 H2).
Qed.
Lemma texts_ok names name t : In (names, t) texts -> In name names -> exists u, lookup (normalise name) registry = Ok u /\
  t = [moment_axis u; shear_axis u; deflection_axis u; distance_axis u; val_text "7" (us_distributed u); val_text "7" (us_moment u); val_text "7" (us_force u)].
Proof.
  intros H1 H2. unfold texts in H1. repeat (destruct H1 as [H1|H1]; [injection H1 as <- <-; repeat (destruct H2 as [<-|H2]; [eexists; split; vm_compute; reflexivity|]); destruct H2|]).
  destruct H1.
Qed.
Theorem named_show d s t g v : named_texts s t -> g v = "7" -> exists u, resolve d (UName s) = Ok u /\
  t = [moment_axis u; shear_axis u; deflection_axis u; distance_axis u; fmt_distributed g u v None; fmt_moment g u v; fmt_force g u v].
Proof.
  intros (names & name & H1 & H2 & H3) Hv. rewrite (spelling d _ _ H3). unfold fmt_distributed, fmt_moment, fmt_force. rewrite Hv. cbn [resolve]. exact (texts_ok _ _ _ H1 H2).
Qed.
Lemma suffix_label text unit : with_label " (" ")" text unit (text ++ suffix unit)%string.
Proof.
  unfold suffix. destruct (String.eqb_spec unit ""%string) as [->|N]; [left|right]; (split; [auto|]); [|reflexivity].
  induction text as [|c t IH]; [reflexivity|]. cbn. f_equal. exact IH.
Qed.
Lemma append_nil (t : string) : (t ++ "")%string = t.
Proof. induction t as [|c t IH]; [reflexivity|]. cbn. f_equal. exact IH. Qed.
Lemma val_label text unit : with_label " " "" text unit (val_text text unit).
Proof.
  unfold val_text. destruct (String.eqb_spec unit ""%string) as [->|N]; [left|right]; (split; [auto|]); [reflexivity|].
  rewrite append_nil. reflexivity.
Qed.
Theorem labels g u what v w : 
  with_label " (" ")" "Bending Moment" (us_moment u) (moment_axis u) /\ with_label " (" ")" "Shear Force" (us_force u) (shear_axis u) /\
  with_label " (" ")" "Deflection" (us_disp_label u) (deflection_axis u) /\ with_label " (" ")" "Distance along beam" (us_length u) (distance_axis u) /\
  with_label " (" ")" what (us_length u) (length_axis u what) /\
  with_label " " "" (g v) (us_force u) (fmt_force g u v) /\ with_label " " "" (g v) (us_moment u) (fmt_moment g u v) /\
  with_label " " "" (g v) (us_distributed u) (fmt_distributed g u v None) /\ with_label " " "" (g v) (us_distributed u) (fmt_distributed g u v (Some v)) /\
  (w <> v -> with_label " " "" (g v ++ "→" ++ g w)%string (us_distributed u) (fmt_distributed g u v (Some w))).
Proof.
  do 5 (split; [apply suffix_label|]). do 3 (split; [apply val_label|]). unfold fmt_distributed. split.
  - unfold Reqb. destruct (Req_EM_T v v); [|lra]. apply val_label.
  - intros N. unfold Reqb. destruct (Req_EM_T w v); [contradiction|]. apply val_label.
Qed.
Theorem resolved_named d s u : resolve d (UName s) = Ok u -> exists q, named s q /\ shows u q.
Proof.
  unfold resolve. intros H. apply lookup_ok in H. destruct (registry_documented _ _ H) as (names & name & q & H1 & H2 & H3 & H4).
  exists q. split; [|exact H4]. exists names, name. split; [exact H1|]. split; [exact H2|]. apply same_name_norm. symmetry. exact H3.
Qed.
Theorem unknown_name d s : (forall q, ~ named s q) -> resolve d (UName s) = Err KeyError.
Proof.
  intros H. destruct (resolve d (UName s)) as [u|e] eqn:E.
  - destruct (resolved_named _ _ _ E) as (q & Hq & _). destruct (H q Hq).
  - unfold resolve in E. apply lookup_err in E. congruence.
Qed.

(** ** Histories *)
Lemma run_current cs : forall d, fst (units_run d cs) = current d cs (snd (units_run d cs)) /\ length (snd (units_run d cs)) = length cs.
Proof.
  induction cs as [|c cs IH]; intros d; [split; reflexivity|]. cbn [units_run].
  destruct (units_step d c) as [d1 r] eqn:E. destruct (units_run d1 cs) as [d2 rs] eqn:E2. cbn [fst snd].
  specialize (IH d1). rewrite E2 in IH. cbn [fst snd] in IH. destruct IH as [IH1 IH2]. split; [|cbn; rewrite IH2; reflexivity].
  destruct c as [a|a|]; cbn in E.
  - unfold set_units in E. destruct (resolve d a) as [u|e]; injection E as <- <-; exact IH1.
  - injection E as <- <-. cbn. exact IH1.
  - injection E as <- <-. cbn. exact IH1.
Qed.
Theorem history cs : let (d, rs) := units_run SI cs in d = current SI cs rs /\ resolve d UNone = Ok d /\ get_units d = d.
Proof.
  destruct (units_run SI cs) as [d rs] eqn:E. pose proof (run_current cs SI) as H. rewrite E in H. cbn in H. split; [exact (proj1 H)|]. split; reflexivity.
Qed.
Theorem set_then d a d' r : set_units d a = (d', r) ->
  match r with Ok u => d' = u /\ resolve d a = Ok u | Err e => d' = d /\ resolve d a = Err e end.
Proof. unfold set_units. destruct (resolve d a); intros E; injection E as <- <-; auto. Qed.
