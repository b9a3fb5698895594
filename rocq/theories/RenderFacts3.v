(** Proofs about the TikZ source. *)
From Coq Require Import ZArith Ascii String DecimalString DecimalNat Decimal.
From Verif Require Import Base BaseFacts SectionModel LoadModel LoadSpec FoundationModel ElementModel UtilsModel BeamModel BeamSpec AnalysisModel AnalysisSpec AnalysisFacts2
  ResultsModel ResultsSpec BridgeSpec UnitsModel RenderModel RenderSpec RenderFacts RenderFacts2 ResultsFacts.
Open Scope R_scope.

(** ** Decimal numerals *)
Lemma to_uint_nonnil n : Nat.to_uint n <> Nil.
Proof.
  rewrite <- (Unsigned.of_to n). rewrite Unsigned.to_of. unfold unorm. destruct (nzhead _); discriminate.
Qed.
Lemma nat_str_inj n m : nat_str n = nat_str m -> n = m.
Proof.
  unfold nat_str. intros H. apply Unsigned.to_uint_inj.
  assert (E := NilZero.usu _ (to_uint_nonnil n)). rewrite H, (NilZero.usu _ (to_uint_nonnil m)) in E. congruence.
Qed.

Fixpoint all_chars (P : ascii -> Prop) (s : string) : Prop := match s with EmptyString => True | String c t => P c /\ all_chars P t end.
Definition digit (c : ascii) : Prop := (48 <= nat_of_ascii c <= 57)%nat.

Lemma uint_digits d : all_chars digit (NilEmpty.string_of_uint d).
Proof. induction d; cbn; auto; (split; [unfold digit; cbn; lia|assumption]). Qed.
Lemma nat_str_digits n : all_chars digit (nat_str n).
Proof.
  unfold nat_str, NilZero.string_of_uint. pose proof (uint_digits (Nat.to_uint n)). destruct (Nat.to_uint n); try assumption. cbn. split; [unfold digit; cbn; lia|exact I].
Qed.
Lemma nat_str_head n : exists c t, nat_str n = String c t /\ digit c.
Proof.
  pose proof (nat_str_digits n) as D. destruct (nat_str n) as [|c t] eqn:E; [|exists c, t; split; [reflexivity|apply D]].
  unfold nat_str, NilZero.string_of_uint in E. pose proof (to_uint_nonnil n). destruct (Nat.to_uint n); cbn in E; congruence || discriminate.
Qed.

Lemma all_app P a b : all_chars P a -> all_chars P b -> all_chars P (a ++ b)%string.
Proof. induction a; cbn; intuition. Qed.
Lemma all_imp (P Q : ascii -> Prop) s : (forall c, P c -> Q c) -> all_chars P s -> all_chars Q s.
Proof. intros H. induction s; cbn; intuition. Qed.

Lemma before_app c a b : all_chars (fun d => d <> c) a -> before c (a ++ String c b) = a.
Proof.
  induction a as [|d a IH]; cbn.
  - intros _. rewrite Ascii.eqb_refl. reflexivity.
  - intros [D A]. destruct (Ascii.eqb_spec d c); [contradiction|]. rewrite IH by exact A. reflexivity.
Qed.

Lemma app_inj_l a b c : (a ++ b = a ++ c)%string -> b = c.
Proof. induction a; cbn; [auto|]. intros H; injection H; auto. Qed.
Lemma app_last a b (x y : ascii) : (a ++ String x "" = b ++ String y "")%string -> a = b /\ x = y.
Proof.
  revert b. induction a as [|c a IH]; intros [|d b]; cbn; intros H; injection H.
  - auto.
  - intros E ->. destruct b; discriminate.
  - intros E ->. destruct a; discriminate.
  - intros E ->. destruct (IH b E) as [-> ->]. auto.
Qed.

Section T.
Variable fmt : R -> string.
Variable uni : nat -> string.
Local Open Scope string_scope.
Notation node_name := (node_name uni).

Lemma node_name_cases i : (exists c, node_name i = String c "" /\ (i < 26)%nat /\ nat_of_ascii c = (97 + i)%nat) \/ (node_name i = "p" ++ nat_str i /\ (26 <= i)%nat).
Proof.
  unfold RenderModel.node_name. destruct (Nat.ltb_spec i 26).
  - left. unfold chr. destruct (Nat.ltb_spec (97 + i) 128); [|lia]. exists (ascii_of_nat (97 + i)). split; [reflexivity|]. split; [assumption|].
    apply nat_ascii_embedding. lia.
  - right. auto.
Qed.

Lemma node_name_inj i j : node_name i = node_name j -> i = j.
Proof.
  intros H. destruct (node_name_cases i) as [(c & E & L & N)|[E L]]; destruct (node_name_cases j) as [(c' & E' & L' & N')|[E' L']]; rewrite E, E' in H.
  - injection H as ->. lia.
  - destruct (nat_str_head j) as (d & t & Ej & _). rewrite Ej in H. discriminate.
  - destruct (nat_str_head i) as (d & t & Ej & _). rewrite Ej in H. discriminate.
  - injection H as H. apply nat_str_inj. exact H.
Qed.

Definition dla (k : nat) := "dl" ++ nat_str k ++ "a".
Definition dlb (k : nat) := "dl" ++ nat_str k ++ "b".
Definition pln (k : nat) := "pl" ++ nat_str k.
Definition mln (k : nat) := "ml" ++ nat_str k.

Lemma node_not i s c d t : s = String c (String d t) -> (c = "p"%char -> ~ digit d) -> node_name i <> s.
Proof.
  intros -> H E. destruct (node_name_cases i) as [(c' & E' & _)|[E' _]]; rewrite E' in E.
  - discriminate.
  - destruct (nat_str_head i) as (d' & t' & Ei & D). rewrite Ei in E. cbn in E. injection E as <- <- _. apply (H eq_refl D).
Qed.

Lemma dl_inj k l (x y : ascii) : "dl" ++ nat_str k ++ String x "" = "dl" ++ nat_str l ++ String y "" -> k = l /\ x = y.
Proof. intros H. apply app_inj_l in H. apply app_last in H as [H ->]. apply nat_str_inj in H. auto. Qed.

(** ** The declared names *)
Definition names (p : plotter) : list string :=
  (map node_name (seq 0 (List.length (pl_x p))) ++ flat_map (fun k => [dla k; dlb k]) (seq 0 (List.length (dr_dist (pl_loads p))))
   ++ map pln (seq 0 (List.length (dr_pts (pl_loads p)))) ++ map mln (seq 0 (List.length (dr_moms (pl_loads p)))))%list.

Lemma nodup_map {A} (f : nat -> A) l : (forall i j, f i = f j -> i = j) -> NoDup l -> NoDup (map f l).
Proof.
  intros F N. induction N as [|x l Hx N IH]; cbn; constructor; [|exact IH].
  intros H. apply in_map_iff in H as (y & E & Hy). apply F in E. subst y. contradiction.
Qed.
Lemma nodup_app {A} (l1 l2 : list A) : NoDup l1 -> NoDup l2 -> (forall x, In x l1 -> In x l2 -> False) -> NoDup (l1 ++ l2).
Proof.
  intros N1 N2 D. induction N1 as [|x l Hx N IH]; cbn; [exact N2|]. constructor.
  - intros H. apply in_app_or in H as [H|H]; [contradiction|]. apply (D x); [left; reflexivity|exact H].
  - apply IH. intros y H1 H2. apply (D y); [right; exact H1|exact H2].
Qed.
Lemma nodup_dl l : NoDup l -> NoDup (flat_map (fun k => [dla k; dlb k]) l).
Proof.
  intros N. induction N as [|k l Hk N IH]; cbn; [constructor|]. constructor.
  - intros [H|H]; [apply dl_inj in H as [_ H]; discriminate|]. apply in_flat_map in H as (j & Hj & [H|[H|[]]]); apply dl_inj in H as [H1 H2]; [congruence|discriminate].
  - constructor; [|exact IH]. intros H. apply in_flat_map in H as (j & Hj & [H|[H|[]]]); apply dl_inj in H as [H1 H2]; [discriminate|congruence].
Qed.

Lemma names_nodup p : NoDup (names p).
Proof.
  unfold names. apply nodup_app; [apply nodup_map; [exact node_name_inj|apply seq_NoDup]| |].
  - apply nodup_app; [apply nodup_dl, seq_NoDup| |].
    + apply nodup_app; [apply nodup_map; [intros i j H; apply app_inj_l in H; apply nat_str_inj; exact H|apply seq_NoDup]| |].
      * apply nodup_map; [intros i j H; apply app_inj_l in H; apply nat_str_inj; exact H|apply seq_NoDup].
      * intros x H1 H2. apply in_map_iff in H1 as (i & <- & _). apply in_map_iff in H2 as (j & E & _). discriminate.
    + intros x H1 H2. apply in_flat_map in H1 as (i & _ & [<-|[<-|[]]]); apply in_app_or in H2 as [H2|H2]; apply in_map_iff in H2 as (j & E & _); discriminate.
  - intros x H1 H2. apply in_map_iff in H1 as (i & <- & _). apply in_app_or in H2 as [H2|H2].
    + apply in_flat_map in H2 as (j & _ & [H|[H|[]]]); symmetry in H; revert H; (eapply node_not; [reflexivity|discriminate]).
    + apply in_app_or in H2 as [H2|H2]; apply in_map_iff in H2 as (j & E & _); symmetry in E; revert E; (eapply node_not; [reflexivity|]).
      * intros _ D. unfold digit in D. cbn in D. lia.
      * discriminate.
Qed.

(** ** Lines and what they declare *)
Definition decls (ls : list string) : list string := flat_map declared ls.
Lemma decls_app a b : decls (a ++ b)%list = (decls a ++ decls b)%list.
Proof. unfold decls. induction a; cbn; [reflexivity|]. rewrite IHa. apply app_assoc. Qed.
Lemma decls_none ls : Forall (fun l => declared l = []) ls -> decls ls = [].
Proof. induction 1; cbn; [reflexivity|]. rewrite H. exact IHForall. Qed.

Lemma declared_point name r : all_chars (fun d => d <> "}"%char) name -> declared (tab ++ "\point{" ++ name ++ "}" ++ r) = [name].
Proof.
  intros H. unfold declared. change (after (tab ++ "\point{") (tab ++ "\point{" ++ name ++ "}" ++ r)) with (Some (name ++ "}" ++ r)).
  cbv beta iota. f_equal. apply (before_app "}"%char name r H).
Qed.
Lemma declared_node name r : all_chars (fun d => d <> ")"%char) name -> declared (tab ++ "\node (" ++ name ++ ")" ++ r) = [name].
Proof.
  intros H. unfold declared. change (after (tab ++ "\point{") (tab ++ "\node (" ++ name ++ ")" ++ r)) with (@None string). cbv beta iota.
  change (after (tab ++ "\node (") (tab ++ "\node (" ++ name ++ ")" ++ r)) with (Some (name ++ ")" ++ r)).
  cbv beta iota. f_equal. apply (before_app ")"%char name r H).
Qed.

Lemma digits_not c n : (nat_of_ascii c < 48 \/ 57 < nat_of_ascii c)%nat -> all_chars (fun d => d <> c) (nat_str n).
Proof. intros H. apply (all_imp digit); [|apply nat_str_digits]. intros d D ->. unfold digit in D. lia. Qed.
Lemma node_chars i c : (nat_of_ascii c < 48 \/ 122 < nat_of_ascii c)%nat -> all_chars (fun d => d <> c) (node_name i).
Proof.
  intros H. destruct (node_name_cases i) as [(x & -> & L & N)|[-> L]]; cbn.
  - split; [intros ->; lia|exact I].
  - split; [intros <-; cbn in H; lia|]. apply digits_not. lia.
Qed.

Lemma mapM_decls {A} (f : A -> result string) l ls : mapM f l = Ok ls -> (forall a s, f a = Ok s -> declared s = []) -> decls ls = [].
Proof.
  revert ls. induction l as [|a l IH]; cbn [mapM]; intros ls H F; [injection H as <-; reflexivity|].
  apply rbind_ok in H as (s & Hs & H). apply rbind_ok in H as (ss & Hss & H). injection H as <-. cbn. rewrite (F a s Hs). apply IH; assumption.
Qed.

Definition tabbed (ls : list string) : list string := map (append tab) ls.
Lemma tabbed_app a b : tabbed (a ++ b)%list = (tabbed a ++ tabbed b)%list.
Proof. apply map_app. Qed.

Lemma mapM_tabbed {A} (f : A -> result (list string)) (g : A -> list string) l ls : mapM f l = Ok ls ->
  (forall a s, f a = Ok s -> decls (tabbed s) = g a) -> decls (tabbed (concat ls)) = flat_map g l.
Proof.
  revert ls. induction l as [|a l IH]; cbn [mapM]; intros ls H F; [injection H as <-; reflexivity|].
  apply rbind_ok in H as (s & Hs & H). apply rbind_ok in H as (ss & Hss & H). injection H as <-. cbn [concat flat_map].
  rewrite tabbed_app, decls_app, (F a s Hs). f_equal. apply IH; assumption.
Qed.
Lemma numbered_fst {A B} (g : nat -> list B) (l : list A) : flat_map (fun a => g (fst a)) (numbered l) = flat_map g (seq 0 (List.length l)).
Proof.
  unfold numbered. generalize 0%nat. induction l as [|a l IH]; intros n; cbn; [reflexivity|]. f_equal. apply IH.
Qed.
Lemma flat_single {A} (f : nat -> A) l : flat_map (fun k => [f k]) l = map f l.
Proof. induction l; cbn; [reflexivity|]. rewrite IHl. reflexivity. Qed.

Lemma place_line p nodes name sp x l : place fmt p nodes name sp x = Ok l -> all_chars (fun d => d <> ")"%char) name -> declared (tab ++ l) = [name].
Proof.
  unfold place. intros H N. apply rbind_ok in H as (ni & _ & H). apply rbind_ok in H as (nj & _ & H). apply rbind_ok in H as (f & _ & H). injection H as <-.
  apply (declared_node name (" at ($(" ++ ni ++ ")!" ++ fmt f ++ "!(" ++ nj ++ ")$){};") N).
Qed.

Lemma dl_chars k (c : ascii) : c <> ")"%char -> all_chars (fun d => d <> ")"%char) ("dl" ++ nat_str k ++ String c "").
Proof.
  intros H. cbn. split; [discriminate|]. split; [discriminate|]. apply all_app; [apply digits_not; cbn; lia|]. cbn. auto.
Qed.

Lemma dist_lines p nodes kd s : dist_tikz fmt p nodes kd = Ok s -> decls (tabbed s) = [dla (fst kd); dlb (fst kd)].
Proof.
  destruct kd as [k d]. unfold dist_tikz. intros H. apply rbind_ok in H as (l0 & H0 & H). apply rbind_ok in H as (l1 & H1 & H). injection H as <-.
  cbn [tabbed map decls flat_map fst]. rewrite (place_line _ _ _ _ _ _ H0) by (apply dl_chars; discriminate).
  rewrite (place_line _ _ _ _ _ _ H1) by (apply dl_chars; discriminate). reflexivity.
Qed.
Lemma label_lines p us kd s : dist_label fmt p us kd = Ok s -> decls (tabbed s) = [].
Proof.
  destruct kd as [k d]. unfold dist_label. intros H. apply rbind_ok in H as (part & _ & H). injection H as <-. destruct part; reflexivity.
Qed.
Lemma point_lines p nodes show us kp s : point_tikz fmt p nodes show us kp = Ok s -> decls (tabbed s) = [pln (fst kp)].
Proof.
  destruct kp as [k q]. unfold point_tikz. intros H. apply rbind_ok in H as (l & Hl & H). injection H as <-. cbn [tabbed map decls flat_map fst].
  rewrite (place_line _ _ _ _ _ _ Hl) by (cbn; split; [discriminate|]; split; [discriminate|]; apply digits_not; cbn; lia). destruct show; reflexivity.
Qed.
Lemma moment_lines p nodes show us kp s : moment_tikz fmt p nodes show us kp = Ok s -> decls (tabbed s) = [mln (fst kp)].
Proof.
  destruct kp as [k q]. unfold moment_tikz. intros H. apply rbind_ok in H as (l & Hl & H). injection H as <-. cbn [tabbed map decls flat_map fst].
  rewrite (place_line _ _ _ _ _ _ Hl) by (cbn; split; [discriminate|]; split; [discriminate|]; apply digits_not; cbn; lia). destruct show; reflexivity.
Qed.

Lemma load_lines p nodes show us ls : loads_tikz fmt p nodes show us = Ok ls ->
  decls (tabbed ls) = (flat_map (fun k => [dla k; dlb k]) (seq 0 (List.length (dr_dist (pl_loads p))))
   ++ map pln (seq 0 (List.length (dr_pts (pl_loads p)))) ++ map mln (seq 0 (List.length (dr_moms (pl_loads p)))))%list.
Proof.
  unfold loads_tikz. intros H. apply rbind_ok in H as (dl & Hd & H). apply rbind_ok in H as (pl & Hp & H). apply rbind_ok in H as (ml & Hm & H). injection H as <-.
  rewrite !tabbed_app, !decls_app. f_equal; [|f_equal].
  - set (dd := dr_dist (pl_loads p)) in *.
    assert (E : (do ls <- mapM (dist_tikz fmt p nodes) (numbered dd);
               do ns <- (if show then mapM (dist_label fmt p us) (numbered dd) else Ok []);
               Ok ("\begin{scope}[color=red]" :: concat ls ++ "\end{scope}" :: concat ns)%list) = Ok dl \/ (dd = [] /\ dl = [])).
    { destruct dd; [right; split; [reflexivity|congruence]|left; exact Hd]. }
    destruct E as [E|[-> ->]]; [|reflexivity]. apply rbind_ok in E as (l1 & E1 & E). apply rbind_ok in E as (l2 & E2 & E). injection E as <-.
    change (decls (tabbed ("\begin{scope}[color=red]" :: concat l1 ++ "\end{scope}" :: concat l2)%list)) with (decls (tabbed (concat l1 ++ "\end{scope}" :: concat l2)%list)).
    rewrite tabbed_app, decls_app. change (decls (tabbed ("\end{scope}" :: concat l2))) with (decls (tabbed (concat l2))).
    rewrite (mapM_tabbed _ (fun a => [dla (fst a); dlb (fst a)]) _ _ E1 (fun a s => dist_lines p nodes a s)).
    rewrite (numbered_fst (fun k => [dla k; dlb k])).
    assert (N : decls (tabbed (concat l2)) = []).
    { destruct show; [|injection E2 as <-; reflexivity]. rewrite (mapM_tabbed _ (fun _ => []) _ _ E2 (fun a s => label_lines p us a s)). clear. induction (numbered dd); [reflexivity|assumption]. }
    rewrite N, app_nil_r. reflexivity.
  - rewrite (mapM_tabbed _ (fun a => [pln (fst a)]) _ _ Hp (fun a s => point_lines p nodes show us a s)).
    rewrite (numbered_fst (fun k => [pln k])). apply flat_single.
  - rewrite (mapM_tabbed _ (fun a => [mln (fst a)]) _ _ Hm (fun a s => moment_lines p nodes show us a s)).
    rewrite (numbered_fst (fun k => [mln k])). apply flat_single.
Qed.

Lemma tabbed_none (ls : list string) : (forall l, In l ls -> declared (tab ++ l) = []) -> decls (tabbed ls) = [].
Proof. induction ls as [|l ls IH]; cbn; intros H; [reflexivity|]. rewrite (H l) by (left; reflexivity). apply IH. intros; apply H; right; assumption. Qed.

Lemma hinge_lines p nodes ls : hinges_tikz p nodes = Ok ls -> decls (tabbed ls) = [].
Proof.
  unfold hinges_tikz. intros H. apply rbind_ok in H as (a & Ha & H). apply rbind_ok in H as (h & Hh & H). injection H as <-. apply tabbed_none. intros l Hl.
  apply in_app_or in Hl as [Hl|Hl].
  - destruct (mapM_In _ _ _ Ha _ Hl) as (s & _ & Es). apply rbind_ok in Es as (n & _ & Es). destruct (s_left s || s_right s); [injection Es as <-; reflexivity|].
    apply rbind_ok in Es as (n0 & _ & Es). apply rbind_ok in Es as (n1 & _ & Es). injection Es as <-. reflexivity.
  - destruct (mapM_In _ _ _ Hh _ Hl) as (s & _ & Es). apply rbind_ok in Es as (n & _ & Es). injection Es as <-. reflexivity.
Qed.

Lemma opt_lines title ls : declared (tab ++ title) = [] -> decls (opt_block title ls) = decls (tabbed ls).
Proof. intros H. destruct ls; [reflexivity|]. cbn [opt_block decls flat_map]. rewrite H. reflexivity. Qed.

Lemma point_decls (xs : list R) :
  decls (map (fun ix => tab ++ "\point{" ++ node_name (fst ix) ++ "}{" ++ fmt (snd ix) ++ "}{0};") (numbered xs)) = map node_name (seq 0 (List.length xs)).
Proof.
  unfold numbered. generalize 0%nat. induction xs as [|x xs IH]; intros n; [reflexivity|]. cbn [List.length seq combine map]. unfold decls in *. cbn [flat_map].
  rewrite IH. cbn [fst snd].
  change (tab ++ "\point{" ++ node_name n ++ "}{" ++ fmt x ++ "}{0};") with (tab ++ "\point{" ++ node_name n ++ "}" ++ ("{" ++ fmt x ++ "}{0};")).
  rewrite (declared_point (node_name n) ("{" ++ fmt x ++ "}{0};")); [reflexivity|]. apply node_chars. cbn. lia.
Qed.

Theorem lines_declare p scale dims labels show us ls : tikz_lines fmt uni p scale dims labels show us = Ok ls -> decls ls = names p.
Proof.
  unfold tikz_lines. cbv zeta. intros H.
  apply rbind_ok in H as (beams & Hb & H). apply rbind_ok in H as (sup & Hs & H). apply rbind_ok in H as (hin & Hh & H).
  apply rbind_ok in H as (lds & Hl & H). apply rbind_ok in H as (dm & Hd & H). apply rbind_ok in H as (lb & Hlb & H). injection H as <-.
  set (nodes := map node_name (seq 0 (List.length (pl_x p)))) in *.
  match goal with |- decls (?h :: ?s ++ ?n :: ?pts ++ ?bt :: beams ++ ?st :: ?sp ++ ?rest)%list = _ =>
    change (decls (h :: s ++ n :: pts ++ bt :: beams ++ st :: sp ++ rest)%list) with (decls (s ++ n :: pts ++ bt :: beams ++ st :: sp ++ rest)%list) end.
  rewrite decls_app.
  match goal with |- (decls ?s ++ _ = _)%list => assert (E1 : decls s = []) end.
  { destruct scale as [s|]; [destruct (Reqb s 0)|]; reflexivity. }
  rewrite E1. cbn [app].
  match goal with |- decls (?n :: ?pts ++ ?r)%list = _ => change (decls (n :: pts ++ r)%list) with (decls (pts ++ r)%list) end.
  rewrite decls_app, point_decls. unfold names. f_equal.
  match goal with |- decls (?n :: ?pts ++ ?r)%list = _ => change (decls (n :: pts ++ r)%list) with (decls (pts ++ r)%list) end.
  rewrite decls_app.
  assert (E2 : decls beams = []).
  { apply (mapM_decls _ _ _ Hb). intros i s Es. apply rbind_ok in Es as (n & _ & Es). apply rbind_ok in Es as (n1 & _ & Es). injection Es as <-. reflexivity. }
  rewrite E2. cbn [app].
  match goal with |- decls (?n :: ?pts ++ ?r)%list = _ => change (decls (n :: pts ++ r)%list) with (decls (pts ++ r)%list) end.
  rewrite decls_app.
  assert (E3 : decls (tabbed sup) = []).
  { apply tabbed_none. intros l Hin. destruct (mapM_In _ _ _ Hs _ Hin) as (s & _ & Es). apply rbind_ok in Es as (n & _ & Es). injection Es as <-. destruct (s_kind s); reflexivity. }
  match goal with |- (?x ++ _ = _)%list => change x with (decls (tabbed sup)) end. rewrite E3. cbn [app].
  rewrite !decls_app. rewrite (opt_lines "% Hinges") by reflexivity. rewrite (opt_lines "% Loads") by reflexivity.
  rewrite (hinge_lines _ _ _ Hh), (load_lines _ _ _ _ _ Hl).
  assert (E4 : decls dm = []).
  { destruct dims; [|injection Hd as <-; reflexivity]. apply rbind_ok in Hd as (ds & Hds & Hd). injection Hd as <-.
    change (decls ((tab ++ "% Dimensions") :: ds)) with (decls ds). apply (mapM_decls _ _ _ Hds). intros i s Es.
    apply rbind_ok in Es as (n & _ & Es). apply rbind_ok in Es as (n1 & _ & Es). apply rbind_ok in Es as (x0 & _ & Es). apply rbind_ok in Es as (x1 & _ & Es). injection Es as <-. reflexivity. }
  assert (E5 : decls lb = []).
  { destruct labels; [|injection Hlb as <-; reflexivity]. apply rbind_ok in Hlb as (ds & Hds & Hlb). injection Hlb as <-.
    change (decls ((tab ++ "% Labels") :: ds)) with (decls ds). apply (mapM_decls _ _ _ Hds). intros i s Es. unfold label_tikz in Es.
    apply rbind_ok in Es as (n & _ & Es). injection Es as <-. reflexivity. }
  rewrite E4, E5. cbn [app decls flat_map]. change (declared "\end{tikzpicture}") with (@nil string). cbn [app]. rewrite app_nil_r. reflexivity.
Qed.
End T.
