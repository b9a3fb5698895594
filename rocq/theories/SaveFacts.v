(** Lemmas on file names, and on [plot] against [SaveSpec]. *)
From Coq Require Import Ascii String ZArith.
From Verif Require Import Base BaseFacts BeamModel UnitsModel RenderModel SchemModel SaveModel SaveSpec.
Local Notation length := List.length.
Local Open Scope string_scope.

(** ** File names *)
Lemma rfind_none c s : rfind c s = None -> forall a r, s <> a ++ String c r.
Proof.
  induction s as [|x s IH]; intros H a r E; [destruct a; discriminate|]. cbn in H. destruct (rfind c s) eqn:F; [discriminate|].
  destruct (Ascii.eqb x c) eqn:X; [discriminate|]. destruct a as [|y a]; cbn in E; injection E as -> E.
  - rewrite Ascii.eqb_refl in X. discriminate.
  - exact (IH eq_refl a r E).
Qed.
Lemma rfind_some c s i : rfind c s = Some i -> exists a r, s = a ++ String c r /\ String.length a = i /\ forall a' r', r <> a' ++ String c r'.
Proof.
  revert i; induction s as [|x s IH]; intros i H; [discriminate|]. cbn in H. destruct (rfind c s) eqn:F.
  - injection H as <-. destruct (IH _ eq_refl) as (a & r & -> & L & D). exists (String x a), r. split; [reflexivity|]. split; [cbn; rewrite L; reflexivity|exact D].
  - destruct (Ascii.eqb x c) eqn:X; [|discriminate]. injection H as <-. apply Ascii.eqb_eq in X as ->. exists "", s. split; [reflexivity|]. split; [reflexivity|]. exact (rfind_none c s F).
Qed.
Lemma rfind_at c a r : (forall a' r', r <> a' ++ String c r') -> rfind c (a ++ String c r) = Some (String.length a).
Proof.
  intros D. induction a as [|x a IH]; cbn.
  - destruct (rfind c r) eqn:F; [destruct (rfind_some _ _ _ F) as (a' & r' & E & _); destruct (D a' r' E)|]. rewrite Ascii.eqb_refl. reflexivity.
  - cbn in IH. rewrite IH. reflexivity.
Qed.
Lemma length_app a b : String.length (a ++ b) = (String.length a + String.length b)%nat.
Proof. induction a as [|x a IH]; [reflexivity|]. cbn. rewrite IH. reflexivity. Qed.
Lemma substring_all r : substring 0 (String.length r) r = r.
Proof. induction r as [|x r IH]; [reflexivity|]. cbn. rewrite IH. reflexivity. Qed.
Lemma substring_tail a r : substring (String.length a) (String.length r) (a ++ r) = r.
Proof. induction a as [|x a IH]; [apply substring_all|exact IH]. Qed.
Lemma substring_head a r : substring 0 (String.length a) (a ++ r) = a.
Proof. induction a as [|x a IH]; [destruct r; reflexivity|]. cbn. rewrite IH. reflexivity. Qed.

Lemma suffix_splits name stem e : splits name stem e -> suffix name = "." ++ e.
Proof.
  intros (-> & NS & E & D). unfold suffix. cbn [append]. rewrite (rfind_at "." stem e D).
  rewrite length_app. cbn [String.length].
  assert (0 < String.length stem)%nat by (destruct stem; [destruct (NS eq_refl)|cbn; lia]).
  assert (0 < String.length e)%nat by (destruct e; [destruct (E eq_refl)|cbn; lia]).
  replace (0 <? String.length stem)%nat with true by (symmetry; apply Nat.ltb_lt; lia).
  replace (String.length stem <? String.length stem + S (String.length e) - 1)%nat with true by (symmetry; apply Nat.ltb_lt; lia). cbn [andb].
  replace (String.length stem + S (String.length e) - String.length stem)%nat with (String.length (String "." e)) by (cbn; lia).
  apply substring_tail.
Qed.
Lemma suffix_cases name : (exists stem e, splits name stem e /\ suffix name = "." ++ e) \/ ((forall e, ~ extension name e) /\ suffix name = "").
Proof.
  destruct (string_dec (suffix name) "") as [Z|Z].
  - right. split; [|exact Z]. intros e (stem & SP). rewrite (suffix_splits _ _ _ SP) in Z. discriminate.
  - left. unfold suffix in Z. destruct (rfind "." name) eqn:F; [|destruct (Z eq_refl)].
    destruct (rfind_some _ _ _ F) as (a & r & -> & L & D).
    destruct ((0 <? n)%nat && (n <? String.length (a ++ String "." r) - 1)%nat) eqn:B; [|destruct (Z eq_refl)].
    apply andb_prop in B as [B1 B2]. apply Nat.ltb_lt in B1, B2. rewrite length_app in B2. cbn in B2.
    assert (SP : splits (a ++ String "." r) a r).
    { split; [reflexivity|]. split; [intros ->; cbn in L; lia|]. split; [intros ->; cbn in B2; lia|exact D]. }
    exists a, r. split; [exact SP|]. exact (suffix_splits _ _ _ SP).
Qed.
Lemma append_inj a b : String "." a = String "." b -> a = b.
Proof. intros H. injection H as ->. reflexivity. Qed.
Lemma dot_app_inj a b : "." ++ a = "." ++ b -> a = b.
Proof. apply append_inj. Qed.

Lemma lower_char_cases a lo up : (97 <= nat_of_ascii lo <= 122)%nat -> nat_of_ascii up = (nat_of_ascii lo - 32)%nat -> (lower_char a = lo <-> either a lo up).
Proof.
  intros B U. unfold lower_char, either. split.
  - destruct ((65 <=? nat_of_ascii a)%nat && (nat_of_ascii a <=? 90)%nat) eqn:Q; [|left; assumption].
    apply andb_prop in Q as [Q1 Q2]. apply Nat.leb_le in Q1, Q2. intros H. right. rewrite <- (ascii_nat_embedding a), <- (ascii_nat_embedding up). f_equal.
    rewrite U, <- H. rewrite nat_ascii_embedding; lia.
  - intros [-> | ->].
    + replace (nat_of_ascii lo <=? 90)%nat with false by (symmetry; apply Nat.leb_gt; lia). rewrite Bool.andb_false_r. reflexivity.
    + replace (65 <=? nat_of_ascii up)%nat with true by (symmetry; apply Nat.leb_le; lia). replace (nat_of_ascii up <=? 90)%nat with true by (symmetry; apply Nat.leb_le; lia). cbn [andb].
      rewrite U. replace (nat_of_ascii lo - 32 + 32)%nat with (nat_of_ascii lo) by lia. apply ascii_nat_embedding.
Qed.
Ltac code := vm_compute; repeat split; lia.
Lemma lower_says e l1 u1 l2 u2 l3 u3 :
  (forall a, lower_char a = l1 <-> either a l1 u1) -> (forall a, lower_char a = l2 <-> either a l2 u2) -> (forall a, lower_char a = l3 <-> either a l3 u3) ->
  lower e = String l1 (String l2 (String l3 "")) <-> says e l1 u1 l2 u2 l3 u3.
Proof.
  intros H1 H2 H3. split.
  - destruct e as [|a [|b [|c [|d e]]]]; cbn; try discriminate. intros E. injection E as E1 E2 E3. exists a, b, c. split; [reflexivity|]. split; [apply H1, E1|]. split; [apply H2, E2|apply H3, E3].
  - intros (a & b & c & -> & A & B & C). cbn. rewrite (proj2 (H1 a) A), (proj2 (H2 b) B), (proj2 (H3 c) C). reflexivity.
Qed.
Lemma lower_tex e : lower e = "tex" <-> says_tex e.
Proof. apply lower_says; intros a; apply lower_char_cases; code. Qed.
Lemma lower_pdf e : lower e = "pdf" <-> says_pdf e.
Proof. apply lower_says; intros a; apply lower_char_cases; code. Qed.

Lemma suffix_tex name : String.eqb (lower (suffix name)) ".tex" = true <-> exists e, extension name e /\ says_tex e.
Proof.
  rewrite String.eqb_eq. destruct (suffix_cases name) as [(st & e & SP & ->) | (N & ->)].
  - cbn. split.
    + intros H. exists e. split; [exists st; exact SP|]. apply lower_tex. injection H as H. exact H.
    + intros (e' & (st' & SP') & T). assert (E : "." ++ e = "." ++ e') by (rewrite <- (suffix_splits _ _ _ SP), <- (suffix_splits _ _ _ SP'); reflexivity).
      apply dot_app_inj in E as ->. apply lower_tex in T. rewrite T. reflexivity.
  - split; [discriminate|]. intros (e & X & _). destruct (N e X).
Qed.
Lemma suffix_pdf name : String.eqb (lower (suffix name)) ".pdf" = true <-> exists e, extension name e /\ says_pdf e.
Proof.
  rewrite String.eqb_eq. destruct (suffix_cases name) as [(st & e & SP & ->) | (N & ->)].
  - cbn. split.
    + intros H. exists e. split; [exists st; exact SP|]. apply lower_pdf. injection H as H. exact H.
    + intros (e' & (st' & SP') & T). assert (E : "." ++ e = "." ++ e') by (rewrite <- (suffix_splits _ _ _ SP), <- (suffix_splits _ _ _ SP'); reflexivity).
      apply dot_app_inj in E as ->. apply lower_pdf in T. rewrite T. reflexivity.
  - split; [discriminate|]. intros (e & X & _). destruct (N e X).
Qed.

Lemma path_eqb_eq p q : path_eqb p q = true <-> p = q.
Proof.
  unfold path_eqb. rewrite Bool.andb_true_iff, !String.eqb_eq. destruct p, q; cbn. split; [intros [-> ->]; reflexivity|intros E; injection E as -> ->; split; reflexivity].
Qed.
Lemma put_holds d q t : holds d (put d q t) q t.
Proof.
  unfold holds, put. split; [rewrite (proj2 (path_eqb_eq q q) eq_refl); reflexivity|]. intros q' N. destruct (path_eqb q' q) eqn:E; [apply path_eqb_eq in E; destruct (N E)|reflexivity].
Qed.

Lemma splits_unique name s1 e1 s2 e2 : splits name s1 e1 -> splits name s2 e2 -> s1 = s2 /\ e1 = e2.
Proof.
  intros H1 H2. assert (E : "." ++ e1 = "." ++ e2) by (rewrite <- (suffix_splits _ _ _ H1), <- (suffix_splits _ _ _ H2); reflexivity).
  apply dot_app_inj in E as ->. split; [|reflexivity]. destruct H1 as (-> & _), H2 as (E & _).
  assert (L : String.length s1 = String.length s2). { apply (f_equal String.length) in E. rewrite !length_app in E. cbn in E. lia. }
  rewrite <- (substring_head s1 ("." ++ e2)), L, E. apply substring_head.
Qed.
Lemma stem_unique name s1 s2 : stem_of name s1 -> stem_of name s2 -> s1 = s2.
Proof.
  intros [(e1 & A)|(A & ->)] [(e2 & B)|(B & ->)]; try reflexivity.
  - exact (proj1 (splits_unique _ _ _ _ _ A B)).
  - destruct (B e1). exists s1. exact A.
  - destruct (A e2). exists s2. exact B.
Qed.
Lemma sibling_unique p q1 q2 e : sibling p q1 e -> sibling p q2 e -> q1 = q2.
Proof. intros (D1 & s1 & S1 & F1) (D2 & s2 & S2 & F2). rewrite (stem_unique _ _ _ S1 S2) in F1. destruct q1, q2. cbn in *. congruence. Qed.

Lemma with_suffix_ok p e : file p <> "" -> exists q, with_suffix p ("." ++ e) = Ok q /\ sibling p q e.
Proof.
  intros N. unfold with_suffix. destruct (String.eqb (file p) "") eqn:Q; [apply String.eqb_eq in Q; destruct (N Q)|].
  eexists. split; [reflexivity|]. split; [reflexivity|]. cbn [file].
  destruct (suffix_cases (file p)) as [(st & x & SP & ->) | (NE & ->)].
  - cbn [append]. cbn [String.eqb]. exists st. split; [left; exists x; exact SP|]. destruct SP as (-> & _). cbn [append].
    rewrite length_app. replace (_ + _ - _)%nat with (String.length st) by lia. rewrite substring_head. reflexivity.
  - exists (file p). split; [right; split; [exact NE|reflexivity]|]. reflexivity.
Qed.
Lemma tex_dotless : dotless "tex".
Proof. intros [|a [|b [|c [|d x]]]] r; cbn; discriminate. Qed.
Lemma pdf_dotless : dotless "pdf".
Proof. intros [|a [|b [|c [|d x]]]] r; cbn; discriminate. Qed.
Lemma tex_path_ok p : file p <> "" -> exists q, tex_path p = Ok q /\ sibling p q "tex".
Proof.
  intros N. unfold tex_path. destruct (String.eqb (suffix (file p)) ".tex") eqn:T; [|exact (with_suffix_ok p "tex" N)].
  exists p. split; [reflexivity|]. split; [reflexivity|]. apply String.eqb_eq in T. destruct (suffix_cases (file p)) as [(st & x & SP & E) | (_ & E)]; [|rewrite E in T; discriminate].
  rewrite E in T. apply (dot_app_inj x "tex") in T as ->. exists st. split; [left; exists "tex"; exact SP|]. exact (proj1 SP).
Qed.
Lemma tex_path_err p : file p = "" -> exists e, tex_path p = Err e.
Proof. intros E. unfold tex_path, with_suffix. rewrite E. cbn. eexists. reflexivity. Qed.
Lemma stem_nonempty name s : name <> "" -> stem_of name s -> s <> "".
Proof. intros N [(e & _ & S & _)|(_ & ->)]; assumption. Qed.
Lemma tex_splits s : s <> "" -> splits (s ++ "." ++ "tex") s "tex".
Proof. intros N. split; [reflexivity|]. split; [exact N|]. split; [discriminate|exact tex_dotless]. Qed.
Lemma pdf_splits s : s <> "" -> splits (s ++ "." ++ "pdf") s "pdf".
Proof. intros N. split; [reflexivity|]. split; [exact N|]. split; [discriminate|exact pdf_dotless]. Qed.
Lemma pdf_of_tex p q : file p <> "" -> sibling p q "tex" -> exists r, with_suffix q ".pdf" = Ok r /\ sibling p r "pdf".
Proof.
  intros N (D & s & ST & F). assert (NQ : file q <> "") by (rewrite F; destruct s; discriminate).
  destruct (with_suffix_ok q "pdf" NQ) as (r & W & (D' & s' & ST' & F')). exists r. split; [exact W|]. split; [congruence|]. exists s. split; [exact ST|].
  replace s with s'; [exact F'|]. apply (stem_unique (file q)); [exact ST'|]. left. exists "tex". rewrite F. exact (tex_splits s (stem_nonempty _ _ N ST)).
Qed.
