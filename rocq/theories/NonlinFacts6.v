(** Events; moving loads. *)
From Coq Require Import ZArith Sorted.
From Verif Require SegmentFacts.
From Verif Require Import Base BaseFacts Linalg LinalgFacts LoadModel VehicleModel FoundationModel ElementSpec AnalysisSpec FoundSpec NonlinModel NonlinSpec NonlinFacts2 NonlinFacts3 NonlinFacts4 NonlinFacts5.
Open Scope R_scope.

Lemma ss_app (l1 l2 : list R) : StronglySorted Rle l1 -> StronglySorted Rle l2 -> (forall x y, In x l1 -> In y l2 -> x <= y) -> StronglySorted Rle (l1 ++ l2).
Proof.
  intros H1 H2 C. induction H1 as [|x l1 H1 IH F]; [exact H2|]. cbn [app]. constructor; [apply IH; intros z y Iz Iy; apply C; [right; exact Iz|exact Iy]|]. apply Forall_app. split; [exact F|]. apply Forall_forall. intros y Iy. apply C; [left; reflexivity|exact Iy].
Qed.
Lemma ss_const (l : list R) c : (forall x, In x l -> x = c) -> StronglySorted Rle l.
Proof. induction l as [|x l IH]; intros E; constructor; [apply IH; intros y Iy; apply E; right; exact Iy|]. apply Forall_forall. intros y Iy. rewrite (E x) by (left; reflexivity). rewrite (E y) by (right; exact Iy). lra. Qed.
Lemma rising_ss l : (forall i, (S i < length l)%nat -> nth i l 0 < nth (S i) l 0) -> StronglySorted Rle l.
Proof.
  intros Hl. apply Sorted_StronglySorted; [intros x y z; lra|]. induction l as [|x l IH]; constructor.
  - apply IH. intros i Hi. apply (Hl (S i)). cbn [length]. lia.
  - destruct l as [|y l]; constructor. specialize (Hl 0%nat ltac:(cbn [length]; lia)). cbn [nth] in Hl. lra.
Qed.
Section Events.
Variable a : nba.
Lemma ev_due h evs ev : events_of a h evs -> In ev evs -> exists pre t post, h = pre ++ t :: post /\ due a pre t ev.
Proof.
  intros E. induction E as [|pre t evs new E IH Hn Nd Or]; intros I; [destruct I|]. apply in_app_or in I. destruct I as [I|I].
  - destruct (IH I) as (p1 & t1 & p2 & -> & D). exists p1, t1, (p2 ++ [t]). split; [rewrite <- app_assoc; reflexivity|exact D].
  - exists pre, t, []. split; [reflexivity|]. apply Hn. exact I.
Qed.
Lemma due_kind (j : nat) (k : ekind) t pre : (j < nb_nodes a)%nat -> threshold a j k <= ratio a (snd t) j -> ~ reached a pre j (threshold a j k) -> due a pre t {| ev_lam := fst t; ev_x := coord a j; ev_node := j; ev_kind := k |}.
Proof. intros Hj G N. unfold due. cbn [ev_node ev_lam ev_x ev_kind]. repeat apply conj; try reflexivity; assumption. Qed.
Lemma reached_dec h j g : reached a h j g \/ ~ reached a h j g.
Proof.
  induction h as [|t h IH]; [right; intros (t & [] & _)|]. destruct (Rle_or_lt g (ratio a (snd t) j)) as [L|L]; [left; exists t; split; [left; reflexivity|exact L]|]. destruct IH as [(t' & I & G)|N]; [left; exists t'; split; [right; exact I|exact G]|]. right. intros (t' & [<-|I] & G); [lra|]. apply N. exists t'. split; assumption.
Qed.
Lemma ev_complete h evs j k : events_of a h evs -> (j < nb_nodes a)%nat -> reached a h j (threshold a j k) -> exists ev, In ev evs /\ ev_node ev = j /\ ev_kind ev = k.
Proof.
  intros E Hj. induction E as [|pre t evs new E IH Hn Nd Or]; intros Rc; [destruct Rc as (t & [] & _)|]. destruct (reached_dec pre j (threshold a j k)) as [D|D].
  - destruct (IH D) as (ev & I & Q). exists ev. split; [apply in_or_app; left; exact I|exact Q].
  - apply reached_snoc in Rc. destruct Rc as [Rc|Rc]; [contradiction|]. exists {| ev_lam := fst t; ev_x := coord a j; ev_node := j; ev_kind := k |}. split; [|split; reflexivity]. apply in_or_app. right. apply Hn. apply due_kind; assumption.
Qed.
Lemma ev_once h evs : events_of a h evs -> once_each evs.
Proof.
  intros E. unfold once_each. induction E as [|pre t evs new E IH Hn Nd Or]; [constructor|]. rewrite map_app. apply SegmentFacts.NoDup_app'; [exact IH|exact Nd|]. intros x I1 I2. apply in_map_iff in I1. apply in_map_iff in I2. destruct I1 as (e1 & <- & I1). destruct I2 as (e2 & Eq & I2). injection Eq as En Ek. apply Hn in I2. destruct I2 as (_ & _ & _ & _ & N). apply N. rewrite En, Ek.
  destruct (ev_due pre evs e1 E I1) as (p1 & t1 & p2 & -> & (_ & _ & _ & G & _)). exists t1. split; [apply in_or_app; right; left; reflexivity|exact G].
Qed.
Lemma ev_chrono h evs : events_of a h evs -> StronglySorted Rle (map fst h) -> chronological evs.
Proof.
  intros E. unfold chronological. induction E as [|pre t evs new E IH Hn Nd Or]; intros Hs; [constructor|]. rewrite map_app in Hs. cbn [map] in Hs. assert (Sp : StronglySorted Rle (map fst pre) /\ forall x, In x (map fst pre) -> x <= fst t).
  { clear - Hs. induction (map fst pre) as [|x l IHl]; [split; [constructor|intros x []]|]. cbn [app] in Hs. inversion Hs as [|x' l' S1 F1]. subst. destruct (IHl S1) as (A & B). apply Forall_app in F1. destruct F1 as [F1 F2]. inversion F2 as [|y l' F3 F4]. subst. split; [constructor; assumption|]. intros y [<-|Iy]; [exact F3|apply B; exact Iy]. }
  destruct Sp as [S1 S2]. rewrite map_app. apply ss_app; [apply IH; exact S1| |].
  - apply (ss_const _ (fst t)). intros x Ix. apply in_map_iff in Ix. destruct Ix as (ev & <- & Ie). apply Hn in Ie. apply Ie.
  - intros x y Ix Iy. apply in_map_iff in Ix. destruct Ix as (e1 & <- & I1). apply in_map_iff in Iy. destruct Iy as (e2 & <- & I2). apply Hn in I2. destruct I2 as (_ & -> & _). apply S2. destruct (ev_due pre evs e1 E I1) as (p1 & t1 & p2 & -> & (_ & -> & _)). apply in_map. apply in_or_app. right. left. reflexivity.
Qed.
Lemma split_two {A} (x y : A) l : In x l -> In y l -> x <> y -> (exists l1 l2 l3, l = l1 ++ x :: l2 ++ y :: l3) \/ (exists l1 l2 l3, l = l1 ++ y :: l2 ++ x :: l3).
Proof.
  intros Ix Iy N. apply in_split in Ix. destruct Ix as (l1 & l2 & ->). apply in_app_or in Iy. destruct Iy as [Iy|[E|Iy]]; [right|contradiction|left].
  - apply in_split in Iy. destruct Iy as (m1 & m2 & ->). exists m1, m2, l2. rewrite <- app_assoc. reflexivity.
  - apply in_split in Iy. destruct Iy as (m1 & m2 & ->). exists l1, m1, m2. reflexivity.
Qed.
Lemma ev_yield h evs : events_of a h evs -> (forall j, (j < nb_nodes a)%nat -> nb_gy a j <= 1) -> yield_first evs.
Proof.
  intros E Gy. induction E as [|pre t evs new E IH Hn Nd Or]; intros l1 ev l2 Es K; [destruct l1; discriminate Es|].
  assert (C : (exists m, evs = l1 ++ ev :: m) \/ exists m, l1 = evs ++ m /\ new = m ++ ev :: l2).
  { clear - Es. revert l1 Es. induction evs as [|e evs IHe]; intros l1 Es; [right; exists l1; split; [reflexivity|exact Es]|]. cbn [app] in Es. destruct l1 as [|z l1]; cbn [app] in Es; injection Es as -> Es; [left; exists evs; reflexivity|]. destruct (IHe l1 Es) as [(m & ->)|(m & -> & Em)]; [left; exists m; reflexivity|right; exists m; split; [reflexivity|exact Em]]. }
  destruct C as [(m & Em)|(m & -> & Em)].
  - apply (IH l1 ev m Em K).
  - assert (Dv : due a pre t ev) by (apply Hn; rewrite Em; apply in_or_app; right; left; reflexivity). destruct Dv as (Hj & El & Ex & G & N). rewrite K in G. cbn [threshold] in G. specialize (Gy _ Hj). destruct (reached_dec pre (ev_node ev) (nb_gy a (ev_node ev))) as [D|D].
    + destruct (ev_complete pre evs (ev_node ev) InitialYield E Hj D) as (y & Iy & Ey & Ky). exists y. split; [apply in_or_app; left; exact Iy|split; assumption].
    + assert (Iy : In {| ev_lam := fst t; ev_x := coord a (ev_node ev); ev_node := ev_node ev; ev_kind := InitialYield |} new) by (apply Hn, due_kind; [exact Hj|cbn [threshold]; lra|exact D]). set (y := {| ev_lam := fst t; ev_x := coord a (ev_node ev); ev_node := ev_node ev; ev_kind := InitialYield |}) in *.
      exists y. split; [|split; reflexivity]. apply in_or_app. right. rewrite Em in Iy. apply in_app_or in Iy. destruct Iy as [Iy|[Iy|Iy]]; [exact Iy|rewrite Iy in K; discriminate K|]. exfalso. apply in_split in Iy. destruct Iy as (n1 & n2 & En). rewrite En in Em. specialize (Or m ev n1 y n2 Em eq_refl). rewrite K in Or. discriminate Or.
Qed.
End Events.
