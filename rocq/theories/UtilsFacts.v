(** Facts about support names (C19) and beam strings (C20). *)
From Coq Require Import Ascii String.
From Verif Require Import Base BaseFacts UtilsModel UtilsSpec.
Local Open Scope string_scope.
Open Scope R_scope.

Lemma is_space_blank c : is_space c = true <-> blank_char c.
Proof.
  unfold is_space, blank_char. set (n := nat_of_ascii c). split.
  - intros H. apply Bool.orb_true_iff in H as [H|H]; [apply Bool.orb_true_iff in H as [H|H]; apply andb_prop in H as [H1 H2];
      apply Nat.leb_le in H1; apply Nat.leb_le in H2|apply Nat.eqb_eq in H].
    + assert (n = 9 \/ n = 10 \/ n = 11 \/ n = 12 \/ n = 13)%nat by lia. cbn. lia.
    + assert (n = 28 \/ n = 29 \/ n = 30 \/ n = 31)%nat by lia. cbn. lia.
    + cbn. lia.
  - intros H. cbn [In] in H. repeat (destruct H as [H|H]; [rewrite <- H; reflexivity|]). destruct H.
Qed.

Lemma app_nil_r_s s : s ++ "" = s.
Proof. induction s; cbn; congruence. Qed.
Lemma app_assoc_s a b c : (a ++ b) ++ c = a ++ b ++ c.
Proof. induction a; cbn; congruence. Qed.

Lemma lstrip_app pre s : blank pre -> lstrip (pre ++ s) = lstrip s.
Proof.
  induction pre as [|c t IH]; intros H; [reflexivity|]. destruct H as [H1 H2]. cbn.
  rewrite (proj2 (is_space_blank c) H1). apply IH. exact H2.
Qed.
Lemma lstrip_split s : exists pre, s = pre ++ lstrip s /\ blank pre.
Proof.
  induction s as [|c t (pre & E & B)]; [exists ""; split; [reflexivity|exact I]|]. cbn.
  destruct (is_space c) eqn:Ec; [|exists ""; split; [reflexivity|exact I]].
  exists (String c pre). cbn. split; [congruence|]. split; [apply is_space_blank; exact Ec|exact B].
Qed.
Lemma rstrip_app s post : blank post -> rstrip (s ++ post) = rstrip s.
Proof.
  intros H. induction s as [|c t IH]; cbn; [|rewrite IH; reflexivity].
  induction post as [|d p IHp]; [reflexivity|]. destruct H as [H1 H2]. cbn. rewrite (IHp H2).
  rewrite (proj2 (is_space_blank d) H1). reflexivity.
Qed.
Lemma rstrip_split s : exists post, s = rstrip s ++ post /\ blank post.
Proof.
  induction s as [|c t (post & E & B)]; [exists ""; split; [reflexivity|exact I]|]. cbn.
  destruct (rstrip t) as [|d t'] eqn:Er.
  - destruct (is_space c) eqn:Ec.
    + exists (String c post). cbn in *. split; [congruence|]. split; [apply is_space_blank; exact Ec|exact B].
    + exists post. cbn in *. split; [congruence|exact B].
  - exists post. split; [|exact B]. cbn in *. congruence.
Qed.
Lemma strip_split s : exists pre post, s = pre ++ strip s ++ post /\ blank pre /\ blank post.
Proof.
  destruct (lstrip_split s) as (pre & E1 & B1), (rstrip_split (lstrip s)) as (post & E2 & B2).
  exists pre, post. unfold strip. rewrite <- E2. auto.
Qed.

Definition solid : string -> Prop := all_chars (fun c => ~ blank_char c).
Lemma rstrip_solid s : solid s -> rstrip s = s.
Proof.
  induction s as [|c t IH]; intros H; [reflexivity|]. destruct H as [H1 H2]. cbn. rewrite (IH H2).
  destruct t; [|reflexivity]. destruct (is_space c) eqn:E; [|reflexivity]. apply is_space_blank in E. contradiction.
Qed.
Lemma strip_core pre core post : blank pre -> blank post -> solid core -> core <> "" ->
  strip (pre ++ core ++ post) = core.
Proof.
  intros B1 B2 S N. unfold strip. rewrite lstrip_app by exact B1.
  destruct core as [|c t]; [congruence|]. cbn. destruct S as [S1 S2].
  destruct (is_space c) eqn:E; [apply is_space_blank in E; contradiction|].
  change (String c (t ++ post)) with (String c t ++ post). rewrite rstrip_app by exact B2.
  apply rstrip_solid. split; assumption.
Qed.

(** Lower-case words. *)
Definition small (c : ascii) : Prop := (97 <= nat_of_ascii c <= 122)%nat.

Lemma lower_c_iff c d : small d -> (lower_c c = d <-> (c = d \/ capital c d \/ capital d c)).
Proof.
  unfold small, capital, lower_c. intros Hd. set (n := nat_of_ascii c).
  destruct (Nat.leb 65 n && Nat.leb n 90)%bool eqn:E.
  - apply andb_prop in E as [E1 E2]. apply Nat.leb_le in E1, E2. split.
    + intros <-. right. left. split; [lia|]. apply nat_ascii_embedding. lia.
    + intros [->|[[_ H]|[H _]]]; [unfold n in *; lia| |lia].
      rewrite <- H. apply ascii_nat_embedding.
  - split; [tauto|]. intros [H|[[H _]|[H _]]]; [exact H| |lia].
    apply Bool.andb_false_iff in E as [E|E]; apply Nat.leb_gt in E; fold n in H; lia.
Qed.
Lemma lower_same s w : all_chars small w -> (lower s = w <-> same_letters s w).
Proof.
  revert w. induction s as [|c t IH]; intros [|d w] H; cbn; try (split; [discriminate|tauto]); try (split; auto; fail).
  destruct H as [H1 H2]. rewrite <- (lower_c_iff c d H1), <- (IH w H2). split.
  - intros E. injection E as E1 E2. auto.
  - intros [-> E]. rewrite <- E. reflexivity.
Qed.
Lemma same_solid s w : all_chars small w -> same_letters s w -> solid s.
Proof.
  revert w. induction s as [|c t IH]; intros [|d w] H S; cbn in *; try tauto.
  destruct H as [H1 H2], S as [S1 S2]. split; [|apply (IH w); assumption].
  unfold small in H1. intros B. unfold blank_char in B.
  assert (nat_of_ascii c <= 32)%nat by (cbn [In] in B; lia).
  unfold capital in S1. destruct S1 as [->|[S1|S1]]; lia.
Qed.

Lemma support_dof_table key l : support_dof key = Some l <->
  exists x y, l = [x; y] /\ In (key, (x, y)) name_table.
Proof.
  unfold support_dof, name_table. split.
  - intros H.
    destruct (String.eqb_spec key "p") as [->|]; [|destruct (String.eqb_spec key "pin") as [->|]; [|destruct (String.eqb_spec key "pinned") as [->|];
      [|destruct (String.eqb_spec key "r") as [->|]; [|destruct (String.eqb_spec key "roller") as [->|]; [|destruct (String.eqb_spec key "e") as [->|];
      [|destruct (String.eqb_spec key "encastre") as [->|]; [|destruct (String.eqb_spec key "fixed") as [->|]; [|destruct (String.eqb_spec key "clamped") as [->|];
      [|destruct (String.eqb_spec key "f") as [->|]; [|destruct (String.eqb_spec key "free") as [->|]]]]]]]]]]];
      cbn in H; try discriminate; injection H as <-; do 2 eexists; (split; [reflexivity|]); cbn; tauto.
  - intros (x & y & -> & H). cbn [In] in H.
    repeat (destruct H as [H|H]; [injection H as <- <- <-; reflexivity|]). destruct H.
Qed.

Lemma table_words w p : In (w, p) name_table -> all_chars small w /\ w <> "" /\ is_hinge w = false.
Proof.
  unfold name_table. cbn [In]. intros H.
  repeat (destruct H as [H|H]; [injection H as <- _; (split; [|split; [discriminate|reflexivity]]);
    cbn; unfold small; repeat split; cbn; lia|]). destruct H.
Qed.

Lemma support_pair_iff e l : support_pair e = Ok l <-> exists x y, l = [x; y] /\ denotes e (x, y).
Proof.
  destruct e as [s|q]; cbn [support_pair].
  - split.
    + intros H. destruct (is_hinge _); [discriminate|]. destruct (support_dof _) as [p|] eqn:E; [|discriminate].
      injection H as <-. apply support_dof_table in E as (x & y & -> & HI). exists x, y. split; [reflexivity|].
      destruct (table_words _ _ HI) as (W & _ & _).
      apply (den_name _ _ _ HI). destruct (strip_split s) as (pre & post & E & B1 & B2).
      exists pre, (strip s), post. repeat split; auto. apply lower_same; auto.
    + intros (x & y & -> & H). inversion H as [s' w p HI (pre & core & post & E & B1 & B2 & SL)|]. subst.
      destruct (table_words _ _ HI) as (W & N & HH).
      assert (core <> "") by (intros ->; destruct w; [congruence|exact SL]).
      rewrite strip_core; auto; [|apply (same_solid _ w); auto].
      rewrite (proj2 (lower_same core w W) SL), HH, (proj2 (support_dof_table w [x; y])); [reflexivity|]. eauto.
  - split.
    + destruct (Nat.eqb_spec (length q) 2) as [E|]; [|discriminate]. intros H. injection H as <-.
      destruct q as [|x [|y [|]]]; try discriminate. exists x, y. split; [reflexivity|constructor].
    + intros (x & y & -> & H). inversion H. reflexivity.
Qed.
Lemma support_pair_err e : support_pair e = Err ValueError \/ exists l, support_pair e = Ok l.
Proof.
  destruct e as [s|q]; cbn.
  - destruct (is_hinge _); [auto|]. destruct (support_dof _); eauto.
  - destruct (Nat.eqb _ _); eauto.
Qed.

Lemma mapM_supports sup : match mapM support_pair sup with
  | Ok ps => exists vs, Forall2 denotes sup vs /\ concat ps = concat (map (fun v => [fst v; snd v]) vs)
  | Err e => e = ValueError /\ exists x, In x sup /\ forall p, ~ denotes x p
  end.
Proof.
  induction sup as [|x t IH]; cbn [mapM]; [exists []; split; [constructor|reflexivity]|].
  destruct (support_pair_err x) as [E|(l & E)]; rewrite E; cbn [rbind].
  - split; [reflexivity|]. exists x. split; [left; reflexivity|]. intros [u v] D.
    assert (support_pair x = Ok [u; v]) by (apply support_pair_iff; eauto). congruence.
  - apply support_pair_iff in E as (u & v & -> & D).
    destruct (mapM support_pair t) as [ps|e]; cbn [rbind].
    + destruct IH as (vs & F & C). exists ((u, v) :: vs). split; [constructor; assumption|]. cbn. rewrite C. reflexivity.
    + destruct IH as (-> & y & Hy & H). split; [reflexivity|]. exists y. split; [right; exact Hy|exact H].
Qed.

Lemma denotes_fun e p q : denotes e p -> denotes e q -> p = q.
Proof.
  intros H1 H2. destruct p as [a b], q as [c d].
  assert (E1 : support_pair e = Ok [a; b]) by (apply support_pair_iff; eauto).
  assert (E2 : support_pair e = Ok [c; d]) by (apply support_pair_iff; eauto). congruence.
Qed.

Lemma supports_iff sup n r : supports_to_R sup n = Ok r <->
  (match n with Some k => length sup = k | None => True end) /\
  exists vs, Forall2 denotes sup vs /\ r = concat (map (fun v => [fst v; snd v]) vs).
Proof.
  assert (X : (do ps <- mapM support_pair sup; Ok (concat ps)) = Ok r <->
     exists vs, Forall2 denotes sup vs /\ r = concat (map (fun v => [fst v; snd v]) vs)).
  { assert (M := mapM_supports sup). destruct (mapM support_pair sup) as [ps|e]; cbn [rbind].
    - destruct M as (vs & F & C). split.
      + intros H. injection H as <-. eauto.
      + intros (vs' & F' & ->). rewrite C. do 4 f_equal. clear C.
        revert vs' F'. induction F as [|x v l vs D _ IH]; intros vs' F'; inversion F' as [|? v' ? ? D' F'']; [reflexivity|].
        subst. rewrite (denotes_fun _ _ _ D D'). f_equal. apply IH. assumption.
    - split; [discriminate|]. intros (vs & F & _). destruct M as (_ & x & Hx & H). exfalso.
      clear -F Hx H. induction F as [|y v l vs D _ IH]; [destruct Hx|]. destruct Hx as [->|Hx]; [exact (H _ D)|auto]. }
  unfold supports_to_R. destruct n as [k|].
  - destruct (Nat.eqb_spec (length sup) k); cbn [negb].
    + rewrite X. tauto.
    + split; [discriminate|tauto].
  - rewrite X. tauto.
Qed.
Lemma supports_err sup n e : supports_to_R sup n = Err e -> e = ValueError.
Proof.
  assert (X : (do ps <- mapM support_pair sup; Ok (concat ps)) = Err e -> e = ValueError).
  { assert (M := mapM_supports sup). destruct (mapM support_pair sup) as [ps|e']; cbn [rbind]; [discriminate|].
    intros H. injection H as <-. apply M. }
  unfold supports_to_R. destruct n as [k|]; [|exact X].
  destruct (Nat.eqb (length sup) k); cbn [negb]; [exact X|]. intros H. injection H as <-. reflexivity.
Qed.

(** ** Beam strings *)
Lemma lower_app s t : lower (s ++ t) = lower s ++ lower t.
Proof. induction s as [|c s IH]; [reflexivity|]. cbn. f_equal. exact IH. Qed.
Lemma length_app s t : String.length (s ++ t) = (String.length s + String.length t)%nat.
Proof. induction s as [|c s IH]; [reflexivity|]. cbn. f_equal. exact IH. Qed.

Lemma term_lower c : is_terminal (lower_c c) = true <-> term_letter c.
Proof.
  unfold is_terminal, term_letter.
  destruct c as [[] [] [] [] [] [] [] []]; cbv; split; intros H; try discriminate; try reflexivity;
    repeat (destruct H as [H|H]; [discriminate H|]); try (destruct H); tauto.
Qed.

Lemma terminals_app s t : terminals (s ++ t) = (terminals s ++ terminals t)%list.
Proof. induction s as [|c s IH]; [reflexivity|]. cbn. destruct (is_terminal c); cbn; rewrite IH; reflexivity. Qed.
Lemma term_ends_app s t p : term_ends (s ++ t) p = (term_ends s p ++ term_ends t (p + String.length s))%list.
Proof.
  revert p. induction s as [|c s IH]; intros p; cbn; [rewrite Nat.add_0_r; reflexivity|].
  replace (p + S (String.length s))%nat with (S p + String.length s)%nat by lia.
  destruct (is_terminal c); cbn; rewrite IH; reflexivity.
Qed.
Lemma plain_none s : plain s -> terminals (lower s) = [] /\ forall p, term_ends (lower s) p = [].
Proof.
  induction s as [|c s IH]; intros H; [split; reflexivity|]. destruct H as [H1 H2]. cbn.
  destruct (is_terminal (lower_c c)) eqn:E; [apply term_lower in E; contradiction|].
  destruct (IH H2) as [A B]. split; auto.
Qed.

Lemma substring_skip a s n : substring (String.length a + 0) n (a ++ s) = substring 0 n s.
Proof.
  rewrite Nat.add_0_r. induction a as [|c a IH]; [destruct s; destruct n; reflexivity|].
  cbn. exact IH.
Qed.
Lemma substring_take x s : substring 0 (String.length x) (x ++ s) = x.
Proof. induction x as [|c x IH]; [destruct s; reflexivity|]. cbn. f_equal. exact IH. Qed.

Section S.
Variable float : string -> result R.

Lemma span_lengths_2 s a b t : span_lengths float s (a :: b :: t) =
  do l <- float (substring a (b - 1 - a) s); do ls <- span_lengths float s (b :: t); Ok (l :: ls).
Proof. reflexivity. Qed.

Lemma spans_rest pre t0 l post : term_letter t0 -> Forall (fun q => plain (fst q) /\ term_letter (snd q)) l -> plain post ->
  span_lengths float (pre ++ lower (String t0 (render_rest l ++ post))) (term_ends (lower (String t0 (render_rest l ++ post))) (String.length pre))
  = mapM (fun q => float (lower (fst q))) l.
Proof.
  intros H0 H HP. revert pre t0 H0. induction H as [|[x t] l [H1 H2] _ IH]; intros pre t0 H0.
  - cbn. rewrite (proj2 (term_lower t0) H0). destruct (plain_none post HP) as [_ ->]. reflexivity.
  - cbn [fst snd] in *.
    set (rest := String t (render_rest l ++ post)) in *.
    assert (Er : String t0 (render_rest ((x, t) :: l) ++ post) = String t0 (x ++ rest)).
    { cbn [render_rest]. rewrite app_assoc_s. reflexivity. }
    rewrite Er. specialize (IH (pre ++ String (lower_c t0) (lower x)) t H2). fold rest in IH.
    assert (E1 : lower (String t0 (x ++ rest)) = String (lower_c t0) (lower x) ++ lower rest).
    { cbn. f_equal. apply lower_app. }
    rewrite E1. rewrite <- app_assoc_s.
    assert (E2 : term_ends (String (lower_c t0) (lower x) ++ lower rest) (String.length pre)
       = S (String.length pre) :: term_ends (lower rest) (String.length (pre ++ String (lower_c t0) (lower x)))).
    { rewrite term_ends_app, length_app. cbn. rewrite (proj2 (term_lower t0) H0). destruct (plain_none x H1) as [_ ->]. reflexivity. }
    rewrite E2. set (q := String.length (pre ++ String (lower_c t0) (lower x))) in *.
    assert (E3 : exists u, term_ends (lower rest) q = S q :: u).
    { unfold rest. cbn. rewrite (proj2 (term_lower t) H2). eexists; reflexivity. }
    destruct E3 as (u & E3). rewrite E3 in *. rewrite span_lengths_2. cbn [mapM].
    assert (E4 : substring (S (String.length pre)) (S q - 1 - S (String.length pre)) ((pre ++ String (lower_c t0) (lower x)) ++ lower rest) = lower x).
    { replace (S q - 1 - S (String.length pre))%nat with (String.length (lower x)) by (unfold q; rewrite length_app; cbn; lia).
      replace (S (String.length pre)) with (String.length (pre ++ String (lower_c t0) "") + 0)%nat by (rewrite length_app; cbn; lia).
      replace ((pre ++ String (lower_c t0) (lower x)) ++ lower rest) with ((pre ++ String (lower_c t0) "") ++ (lower x ++ lower rest))
        by (rewrite !app_assoc_s; reflexivity).
      rewrite substring_skip. apply substring_take. }
    rewrite E4. change (fst (x, t)) with x. destruct (float (lower x)); [|reflexivity]. cbn [rbind].
    rewrite IH. reflexivity.
Qed.

Lemma terms_render l post : Forall (fun q => plain (fst q) /\ term_letter (snd q)) l -> plain post ->
  terminals (lower (render_rest l ++ post)) = map (fun q => lower_c (snd q)) l.
Proof.
  intros H HP. induction H as [|[x t] l [H1 H2] _ IH]; cbn [render_rest map fst snd] in *.
  - apply (plain_none post HP).
  - rewrite app_assoc_s, lower_app, terminals_app. destruct (plain_none x H1) as [-> _]. cbn.
    rewrite (proj2 (term_lower t) H2). f_equal. exact IH.
Qed.

Lemma terminal_loop_spec ts i RR et : Forall term_letter ts ->
  terminal_loop (map lower_c ts) i RR et
  = Ok ((RR ++ concat (map pair_of ts))%list,
        fold_left (fun et (p : nat * ascii) => if Ascii.eqb (lower_c (snd p)) "h" then set_nth et (fst p - 1) 2%nat else et)
          (combine (seq i (List.length ts)) ts) et).
Proof.
  intros H. revert i RR et. induction H as [|t ts H _ IH]; intros i RR et; cbn [map terminal_loop concat List.length seq combine fold_left].
  - rewrite List.app_nil_r. reflexivity.
  - cbn [fst snd]. destruct (Ascii.eqb (lower_c t) "h") eqn:E.
    + rewrite IH. do 2 f_equal. rewrite <- app_assoc. do 2 f_equal.
      unfold term_letter in H. repeat (destruct H as [<-|H]; [vm_compute in E; try discriminate E; reflexivity|]). destruct H.
    + assert (ES : support_dof (String (lower_c t) "") = Some (pair_of t)).
      { unfold term_letter in H. repeat (destruct H as [<-|H]; [vm_compute in E; try discriminate E; reflexivity|]). destruct H. }
      rewrite ES, IH. rewrite <- app_assoc. reflexivity.
Qed.

Lemma set_nth_app {A} (l1 l2 : list A) x y : set_nth (l1 ++ y :: l2)%list (List.length l1) x = (l1 ++ x :: l2)%list.
Proof. induction l1 as [|z l1 IH]; [reflexivity|]. cbn. f_equal. exact IH. Qed.

Lemma types_fold ts pre : 
  fold_left (fun et (p : nat * ascii) => if Ascii.eqb (lower_c (snd p)) "h" then set_nth et (fst p - 1) 2%nat else et)
    (combine (seq (S (List.length pre)) (List.length ts)) ts) (pre ++ repeat 1%nat (List.length ts))%list
  = (pre ++ map (fun c => if Ascii.eqb (lower_c c) "h" then 2%nat else 1%nat) ts)%list.
Proof.
  revert pre. induction ts as [|t ts IH]; intros pre; [reflexivity|].
  cbn [List.length seq combine fold_left repeat map fst snd].
  replace (S (List.length pre) - 1)%nat with (List.length pre) by lia.
  set (v := if Ascii.eqb (lower_c t) "h" then 2%nat else 1%nat).
  assert (E : (if Ascii.eqb (lower_c t) "h" then set_nth (pre ++ 1%nat :: repeat 1%nat (List.length ts)) (List.length pre) 2%nat
               else pre ++ 1%nat :: repeat 1%nat (List.length ts))%list = ((pre ++ [v]) ++ repeat 1%nat (List.length ts))%list).
  { rewrite <- app_assoc. cbn. unfold v. destruct (Ascii.eqb (lower_c t) "h"); [apply set_nth_app|reflexivity]. }
  rewrite E. specialize (IH (pre ++ [v])%list). rewrite List.app_length in IH. cbn [List.length] in IH.
  replace (S (List.length pre + 1))%nat with (S (S (List.length pre))) in IH by lia.
  rewrite IH, <- app_assoc. reflexivity.
Qed.

Lemma hinge_lower c : Ascii.eqb (lower_c c) "h" = true <-> hinge c.
Proof.
  unfold hinge. destruct c as [[] [] [] [] [] [] [] []]; cbv; split; intros H; try discriminate; try reflexivity; try tauto;
    destruct H; discriminate.
Qed.
Lemma fe_lower c : (Ascii.eqb (lower_c c) "f" || Ascii.eqb (lower_c c) "e")%bool = true <-> free_or_encastre c.
Proof.
  unfold free_or_encastre.
  destruct c as [[] [] [] [] [] [] [] []]; cbv; split; intros H; try discriminate; try reflexivity;
    repeat (destruct H as [H|H]; [discriminate H|]); try (destruct H); tauto.
Qed.
Lemma type_lower c : (if Ascii.eqb (lower_c c) "h" then 2%nat else 1%nat) = type_left_of c.
Proof. destruct c as [[] [] [] [] [] [] [] []]; reflexivity. Qed.

Lemma removelast_map {A B} (f : A -> B) l : removelast (map f l) = map f (removelast l).
Proof. induction l as [|x [|y l] IH]; [reflexivity|reflexivity|]. cbn in *. rewrite IH. reflexivity. Qed.
Lemma last_map {A B} (f : A -> B) l d d' : l <> [] -> last (map f l) d' = f (last l d).
Proof. induction l as [|x [|y l] IH]; [congruence|reflexivity|]. intros _. cbn in *. apply IH. discriminate. Qed.
Lemma mapM_length {A B} (f : A -> result B) l r : mapM f l = Ok r -> List.length r = List.length l.
Proof.
  revert r. induction l as [|x l IH]; intros r H; cbn in H; [injection H as <-; reflexivity|].
  apply rbind_ok in H as (y & _ & H). apply rbind_ok in H as (ys & H1 & H2). injection H2 as <-. cbn. f_equal. auto.
Qed.

(** Every string is either free of terminal letters or a description with text around it. *)
Lemma string_cases s : plain s \/ exists pre d post, s = pre ++ render d ++ post /\ plain pre /\ plain post /\ written d.
Proof.
  induction s as [|c s IH]; [left; exact I|].
  destruct (is_terminal (lower_c c)) eqn:E.
  - apply term_lower in E. right. destruct IH as [P|(pre & [t l] & post & -> & P1 & P2 & W1 & W2)].
    + exists "", (c, []), s. split; [reflexivity|]. split; [exact I|]. split; [exact P|].
      split; [constructor; [exact E|constructor]|constructor].
    + exists "", (c, (pre, t) :: l), post. split; [|split; [exact I|split; [exact P2|split]]].
      * unfold render. cbn. rewrite app_assoc_s. reflexivity.
      * constructor; [exact E|]. exact W1.
      * constructor; [exact P1|exact W2].
  - assert (N : ~ term_letter c) by (rewrite <- term_lower; congruence).
    destruct IH as [P|(pre & d & post & -> & P1 & P2 & W)]; [left; split; auto|].
    right. exists (String c pre), d, post. repeat split; auto; apply W.
Qed.

Lemma parse_description pre d post : plain pre -> plain post -> written d ->
  parse_beam_string float (pre ++ render d ++ post) =
  if (Nat.ltb (List.length (snd d)) 1 || (Ascii.eqb (lower_c (fst d)) "h" || Ascii.eqb (lower_c (last (all_terms d) (fst d))) "h")
      || existsb (fun t => Ascii.eqb (lower_c t) "f" || Ascii.eqb (lower_c t) "e") (removelast (map snd (snd d))))%bool
  then Err ValueError
  else do L <- mapM (fun q => float (lower (fst q))) (snd d);
       Ok {| bs_L := L; bs_EI := repeat (30 * 1e10 * 1e-6) (List.length L);
             bs_R := concat (map pair_of (all_terms d)); bs_types := map (fun q => type_left_of (snd q)) (snd d) |}.
Proof.
  intros P1 P2 [W1 W2]. destruct d as [t0 l]. unfold all_terms in *. cbn [fst snd] in *.
  inversion W1 as [|? ? H0 HT]. subst.
  assert (HL : Forall (fun q => plain (fst q) /\ term_letter (snd q)) l).
  { apply Forall_forall. intros q Hq. split; [exact (proj1 (Forall_forall _ _) W2 q Hq)|].
    apply (proj1 (Forall_forall _ _) HT). apply in_map. exact Hq. }
  set (str := pre ++ render (t0, l) ++ post).
  assert (ET : terminals (lower str) = map lower_c (t0 :: map snd l)).
  { unfold str. rewrite lower_app, terminals_app. destruct (plain_none pre P1) as [-> _]. unfold render. cbn.
    rewrite (proj2 (term_lower t0) H0). f_equal. rewrite map_map. apply terms_render; auto. }
  assert (EE : span_lengths float (lower str) (term_ends (lower str) 0) = mapM (fun q => float (lower (fst q))) l).
  { unfold str. rewrite lower_app, term_ends_app. destruct (plain_none pre P1) as [_ ->]. cbn [List.app].
    replace (0 + String.length (lower pre))%nat with (String.length (lower pre)) by lia.
    apply spans_rest; auto. }
  unfold parse_beam_string. cbv zeta. rewrite ET, EE. clear ET EE.
  rewrite map_length. cbn [List.length]. rewrite map_length.
  destruct l as [|q l]; [reflexivity|]. set (l' := q :: l) in *.
  assert (NL : (1 <= List.length l')%nat) by (cbn; lia).
  replace (Nat.ltb (S (List.length l')) 2) with false by (symmetry; apply Nat.ltb_ge; lia).
  replace (Nat.ltb (List.length l') 1) with false by (symmetry; apply Nat.ltb_ge; lia). cbn [orb].
  rewrite (last_map lower_c (t0 :: map snd l') t0 zero) by discriminate. change (hd zero (map lower_c (t0 :: map snd l'))) with (lower_c t0).
  destruct (Ascii.eqb (lower_c t0) "h") eqn:E0; [reflexivity|]. cbn [orb].
  destruct (Ascii.eqb (lower_c (last (t0 :: map snd l') t0)) "h"); [reflexivity|]. cbn [orb].
  change (tl (map lower_c (t0 :: map snd l'))) with (map lower_c (map snd l')). rewrite removelast_map.
  assert (EX : (Nat.ltb 2 (S (List.length l')) && existsb (fun t => Ascii.eqb t "f" || Ascii.eqb t "e") (map lower_c (removelast (map snd l'))))%bool
     = existsb (fun t => Ascii.eqb (lower_c t) "f" || Ascii.eqb (lower_c t) "e") (removelast (map snd l'))).
  { assert (ExM : forall m, existsb (fun t => Ascii.eqb t "f" || Ascii.eqb t "e")%bool (map lower_c m)
       = existsb (fun t => Ascii.eqb (lower_c t) "f" || Ascii.eqb (lower_c t) "e")%bool m).
    { induction m as [|x m IH]; [reflexivity|]. cbn. rewrite IH. reflexivity. }
    rewrite ExM. destruct (Nat.ltb_spec 2 (S (List.length l'))); [reflexivity|].
    destruct l as [|q' l]; [reflexivity|]. cbn in *. lia. }
  rewrite EX. destruct (existsb _ (removelast (map snd l'))); [reflexivity|].
  destruct (mapM _ l') as [L|e] eqn:EM; [|reflexivity]. cbn [rbind]. assert (LL := mapM_length _ _ _ EM).
  replace (S (List.length l') - 1)%nat with (List.length L) by lia. rewrite Nat.eqb_refl. cbn [negb].
  rewrite (terminal_loop_spec (t0 :: map snd l')) by exact W1. cbn [rbind fst snd List.app].
  cbn [List.length seq combine fold_left fst snd]. rewrite E0.
  assert (TF := types_fold (map snd l') []). cbn [List.length List.app] in TF.
  rewrite map_length in *. rewrite LL, TF, map_map. do 2 f_equal.
  apply map_ext. intros a. apply type_lower.
Qed.

Lemma illegal_iff d : (Nat.ltb (List.length (snd d)) 1 || (Ascii.eqb (lower_c (fst d)) "h" || Ascii.eqb (lower_c (last (all_terms d) (fst d))) "h")
      || existsb (fun t => Ascii.eqb (lower_c t) "f" || Ascii.eqb (lower_c t) "e") (removelast (map snd (snd d))))%bool = false <-> legal d.
Proof.
  unfold legal. rewrite !Bool.orb_false_iff, <- !hinge_lower, !Bool.not_true_iff_false, Forall_forall.
  assert (A : Nat.ltb (List.length (snd d)) 1 = false <-> snd d <> []).
  { rewrite Nat.ltb_ge. destruct (snd d); cbn; split; intros; try congruence; lia. }
  assert (B : existsb (fun t => Ascii.eqb (lower_c t) "f" || Ascii.eqb (lower_c t) "e")%bool (removelast (map snd (snd d))) = false
     <-> (forall x, In x (removelast (map snd (snd d))) -> ~ free_or_encastre x)).
  { rewrite <- Bool.not_true_iff_false, existsb_exists. split.
    - intros H x Hx F. apply H. exists x. split; [exact Hx|]. apply fe_lower. exact F.
    - intros H (x & Hx & F). apply (H x Hx). apply fe_lower. exact F. }
  rewrite A, B. tauto.
Qed.

Lemma parse_ok d pre post Ls : plain pre -> plain post -> written d -> legal d ->
  Forall2 (fun q L => float (lower (fst q)) = Ok L) (snd d) Ls ->
  exists b, parse_beam_string float (pre ++ render d ++ post) = Ok b /\ bs_L b = Ls /\
    bs_R b = concat (map pair_of (all_terms d)) /\ bs_types b = map (fun q => type_left_of (snd q)) (snd d).
Proof.
  intros P1 P2 W LG F. rewrite (parse_description pre d post P1 P2 W), (proj2 (illegal_iff d) LG).
  assert (E : mapM (fun q => float (lower (fst q))) (snd d) = Ok Ls).
  { clear -F. induction F as [|q L l Ls H _ IH]; [reflexivity|]. cbn [mapM]. rewrite H. cbn [rbind]. rewrite IH. reflexivity. }
  rewrite E. cbn [rbind]. eexists. split; [reflexivity|]. auto.
Qed.

Lemma parse_only s b : parse_beam_string float s = Ok b ->
  exists pre d post, s = pre ++ render d ++ post /\ plain pre /\ plain post /\ written d /\ legal d /\
    Forall2 (fun q L => float (lower (fst q)) = Ok L) (snd d) (bs_L b).
Proof.
  intros H. destruct (string_cases s) as [P|(pre & d & post & -> & P1 & P2 & W)].
  - exfalso. unfold parse_beam_string in H. destruct (plain_none s P) as [E _]. rewrite E in H. discriminate.
  - exists pre, d, post. rewrite (parse_description pre d post P1 P2 W) in H.
    destruct (_ || _)%bool eqn:E; [discriminate|]. repeat split; auto; try apply W.
    1-4: apply illegal_iff in E; apply E.
    apply rbind_ok in H as (L & EM & H). injection H as <-. cbn [bs_L].
    clear -EM. revert L EM. induction (snd d) as [|q l IH]; intros L H; cbn [mapM] in H; [injection H as <-; constructor|].
    apply rbind_ok in H as (y & H1 & H). apply rbind_ok in H as (ys & H2 & H). injection H as <-. constructor; auto.
Qed.

Lemma parse_reject d pre post : plain pre -> plain post -> written d -> ~ legal d ->
  parse_beam_string float (pre ++ render d ++ post) = Err ValueError.
Proof.
  intros P1 P2 W N. rewrite (parse_description pre d post P1 P2 W).
  destruct (_ || _)%bool eqn:E; [reflexivity|]. exfalso. apply N. apply illegal_iff. exact E.
Qed.
Lemma parse_no_terminals s : plain s -> parse_beam_string float s = Err ValueError.
Proof. intros P. unfold parse_beam_string. destruct (plain_none s P) as [E _]. rewrite E. reflexivity. Qed.
End S.
