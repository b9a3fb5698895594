(** Facts about envelopes. *)
From Verif Require Import Base BaseFacts SectionModel LoadModel BeamModel AnalysisModel ResultsModel EnvelopeModel EnvelopeSpec.
Open Scope R_scope.

(** ** Arrays *)
Lemma map2_length {A B C} (f : A -> B -> C) l k : length (map2 f l k) = Nat.min (length l) (length k).
Proof. unfold map2. rewrite map_length, combine_length. reflexivity. Qed.
Lemma nth_map2 {A B C} (f : A -> B -> C) l k i da db dc : (i < length l)%nat -> (i < length k)%nat ->
  nth i (map2 f l k) dc = f (nth i l da) (nth i k db).
Proof.
  revert k i. induction l as [|a l IH]; intros [|b k] [|i] H1 H2; cbn in *; try lia; auto.
  apply IH; lia.
Qed.
Lemma where_length m a b : length (where_ m a b) = Nat.min (length m) (Nat.min (length a) (length b)).
Proof. unfold where_. rewrite map2_length, combine_length. reflexivity. Qed.
Lemma nth_combine' {A B} (l : list A) (k : list B) i da db : length l = length k ->
  nth i (combine l k) (da, db) = (nth i l da, nth i k db).
Proof. intros H. apply combine_nth. exact H. Qed.

(** One station of an update by mask. *)
Lemma where_gt n M A V B k : length M = n -> length A = n -> length V = n -> length B = n -> (k < n)%nat ->
  nth k (where_ (gt_mask M A) V B) 0 = if Rltb (nth k A 0) (nth k M 0) then nth k V 0 else nth k B 0.
Proof.
  intros HM HA HV HB Hk. unfold where_.
  rewrite (nth_map2 _ _ _ _ false (0, 0)).
  - unfold gt_mask. rewrite (nth_map2 _ _ _ _ 0 0) by lia. rewrite nth_combine' by lia. reflexivity.
  - unfold gt_mask. rewrite map2_length. lia.
  - rewrite combine_length. lia.
Qed.
Lemma where_lt n M A V B k : length M = n -> length A = n -> length V = n -> length B = n -> (k < n)%nat ->
  nth k (where_ (lt_mask M A) V B) 0 = if Rltb (nth k M 0) (nth k A 0) then nth k V 0 else nth k B 0.
Proof.
  intros HM HA HV HB Hk. unfold where_.
  rewrite (nth_map2 _ _ _ _ false (0, 0)).
  - unfold lt_mask. rewrite (nth_map2 _ _ _ _ 0 0) by lia. rewrite nth_combine' by lia. reflexivity.
  - unfold lt_mask. rewrite map2_length. lia.
  - rewrite combine_length. lia.
Qed.
Lemma where_gt_length n M A V B : length M = n -> length A = n -> length V = n -> length B = n ->
  length (where_ (gt_mask M A) V B) = n.
Proof. intros. rewrite where_length. unfold gt_mask. rewrite map2_length. lia. Qed.
Lemma where_lt_length n M A V B : length M = n -> length A = n -> length V = n -> length B = n ->
  length (where_ (lt_mask M A) V B) = n.
Proof. intros. rewrite where_length. unfold lt_mask. rewrite map2_length. lia. Qed.

Lemma list_eq n (a b : list R) : length a = n -> length b = n ->
  (forall k, (k < n)%nat -> nth k a 0 = nth k b 0) -> a = b.
Proof. intros HA HB H. apply (nth_ext a b 0 0); [lia|]. intros k Hk. apply H. lia. Qed.

(** ** One station: running extreme with its companion *)
Section Pick.
Context {A : Type}.
Definition up (f g : A -> R) (l : list A) (s : R * R) : R * R :=
  fold_left (fun s a => if Rltb (fst s) (f a) then (f a, g a) else s) l s.
Definition down (f g : A -> R) (l : list A) (s : R * R) : R * R :=
  fold_left (fun s a => if Rltb (f a) (fst s) then (f a, g a) else s) l s.

Lemma down_up f g l s : down f g l s = (- fst (up (fun a => - f a) g l (- fst s, snd s)), snd (up (fun a => - f a) g l (- fst s, snd s))).
Proof.
  revert s. induction l as [|a l IH]; intros [m c]; cbn [down up fold_left fst snd]; [f_equal; lra|].
  change (fold_left _ l ?s) with (down f g l s) at 1. rewrite IH.
  assert (E : (if Rltb (- m) (- f a) then (- f a, g a) else (- m, c))
              = (- fst (if Rltb (f a) m then (f a, g a) else (m, c)), snd (if Rltb (f a) m then (f a, g a) else (m, c)))).
  { unfold Rltb. destruct (Rlt_dec (f a) m), (Rlt_dec (- m) (- f a)); cbn; try lra; reflexivity. }
  cbn [fst snd] in E |- *. rewrite E. reflexivity.
Qed.

Lemma up_spec f g l s : fst s <= fst (up f g l s) /\ (forall a, In a l -> f a <= fst (up f g l s)) /\
  (up f g l s = s \/ fst s < fst (up f g l s) /\ exists a, In a l /\ up f g l s = (f a, g a)).
Proof.
  revert s. induction l as [|a l IH]; intros [m c]; cbn [up fold_left fst snd].
  - split; [lra|]. split; [intros a []|]. left. reflexivity.
  - change (fold_left _ l ?s) with (up f g l s). unfold Rltb. destruct (Rlt_dec m (f a)) as [Hl|Hn].
    + destruct (IH (f a, g a)) as (H1 & H2 & H3). cbn [fst] in *. split; [lra|].
      split; [intros b [->|Hb]; [lra|apply H2; exact Hb]|].
      right. split; [lra|]. destruct H3 as [E|(Hlt & b & Hb & E)].
      * exists a. split; [left; reflexivity|exact E].
      * exists b. split; [right; exact Hb|exact E].
    + destruct (IH (m, c)) as (H1 & H2 & H3). cbn [fst] in *. split; [lra|].
      split; [intros b [->|Hb]; [lra|apply H2; exact Hb]|].
      destruct H3 as [E|(Hlt & b & Hb & E)]; [left; exact E|right]. split; [exact Hlt|].
      exists b. split; [right; exact Hb|exact E].
Qed.

Lemma up_app f g l k s : up f g (l ++ k) s = up f g k (up f g l s).
Proof. unfold up. apply fold_left_app. Qed.
Lemma down_app f g l k s : down f g (l ++ k) s = down f g k (down f g l s).
Proof. unfold down. apply fold_left_app. Qed.

(** Restarting from a non-negative state is comparing with the run from zero. *)
Lemma up_merge f g l s : 0 <= fst s ->
  up f g l s = if Rltb (fst s) (fst (up f g l (0, 0))) then up f g l (0, 0) else s.
Proof.
  intros Hs. induction l as [|a l IH] using rev_ind.
  - cbn. unfold Rltb. destruct (Rlt_dec (fst s) 0); [lra|reflexivity].
  - rewrite !up_app. rewrite IH. set (z := up f g l (0, 0)) in *. cbn [up fold_left].
    unfold Rltb. destruct (Rlt_dec (fst s) (fst z)), (Rlt_dec (fst z) (f a)); cbn [fst];
      repeat match goal with |- context [Rlt_dec ?p ?q] => destruct (Rlt_dec p q) end; cbn [fst] in *; try lra; reflexivity.
Qed.
Lemma down_merge f g l s : fst s <= 0 ->
  down f g l s = if Rltb (fst (down f g l (0, 0))) (fst s) then down f g l (0, 0) else s.
Proof.
  intros Hs. rewrite !down_up. cbn [fst snd]. rewrite Ropp_0. rewrite up_merge by (cbn; lra). cbn [fst].
  set (z := up (fun a => - f a) g l (0, 0)). destruct s as [m c]. cbn [fst snd] in *.
  unfold Rltb. destruct (Rlt_dec (- m) (fst z)), (Rlt_dec (- fst z) m); cbn [fst snd]; try lra; try reflexivity.
  f_equal. lra.
Qed.

Lemma up_largest f g l : largest f l (fst (up f g l (0, 0))).
Proof.
  destruct (up_spec f g l (0, 0)) as (H1 & H2 & H3). split; [exact H1|]. split; [exact H2|].
  destruct H3 as [E|(_ & a & Ha & E)]; rewrite E; cbn; [left; reflexivity|right; exists a; auto].
Qed.
Lemma up_companion f g l : companion f g l (fst (up f g l (0, 0))) (snd (up f g l (0, 0))).
Proof.
  intros H. destruct (up_spec f g l (0, 0)) as (_ & _ & [E|(_ & a & Ha & E)]).
  - rewrite E in H. cbn in H. lra.
  - exists a. rewrite E. cbn. auto.
Qed.
Lemma down_smallest f g l : smallest f l (fst (down f g l (0, 0))).
Proof.
  rewrite down_up. cbn [fst snd]. rewrite Ropp_0. destruct (up_largest (fun a => - f a) g l) as (H1 & H2 & H3).
  split; [lra|]. split; [intros a Ha; specialize (H2 a Ha); lra|].
  destruct H3 as [E|(a & Ha & E)]; [left; lra|right; exists a; split; [exact Ha|lra]].
Qed.
Lemma down_companion f g l : companion f g l (fst (down f g l (0, 0))) (snd (down f g l (0, 0))).
Proof.
  rewrite down_up. cbn [fst snd]. rewrite Ropp_0. intros H.
  destruct (up_companion (fun a => - f a) g l) as (a & Ha & E1 & E2); [lra|].
  exists a. split; [exact Ha|]. split; [lra|exact E2].
Qed.
End Pick.

(** ** The loop over results *)
Record sized (n : nat) (s : vm) : Prop := {
  sz1 : length (v_Vmax s) = n; sz2 : length (v_Vmin s) = n; sz3 : length (v_Mmax s) = n; sz4 : length (v_Mmin s) = n;
  sz5 : length (v_VcoMmax s) = n; sz6 : length (v_VcoMmin s) = n; sz7 : length (v_McoVmax s) = n; sz8 : length (v_McoVmin s) = n }.
Definition pt_Mmax k s := (nth k (v_Mmax s) 0, nth k (v_VcoMmax s) 0).
Definition pt_Mmin k s := (nth k (v_Mmin s) 0, nth k (v_VcoMmin s) 0).
Definition pt_Vmax k s := (nth k (v_Vmax s) 0, nth k (v_McoVmax s) 0).
Definition pt_Vmin k s := (nth k (v_Vmin s) 0, nth k (v_McoVmin s) 0).

Definition fits (n : nat) (r : bres) : Prop := length (r_M (br_all r)) = n /\ length (r_V (br_all r)) = n.

Lemma vm_step_ok n s r : sized n s -> fits n r -> exists s', vm_step n s r = Ok s' /\ sized n s' /\
  forall k, (k < n)%nat ->
    pt_Mmax k s' = up (M_at k) (V_at k) [r] (pt_Mmax k s) /\
    pt_Mmin k s' = down (M_at k) (V_at k) [r] (pt_Mmin k s) /\
    pt_Vmax k s' = up (V_at k) (M_at k) [r] (pt_Vmax k s) /\
    pt_Vmin k s' = down (V_at k) (M_at k) [r] (pt_Vmin k s).
Proof.
  intros [S1 S2 S3 S4 S5 S6 S7 S8] [FM FV]. unfold vm_step. rewrite FM, FV, Nat.eqb_refl. cbn [negb orb].
  eexists. split; [reflexivity|]. split.
  - constructor; cbn; first [apply where_gt_length | apply where_lt_length]; assumption.
  - intros k Hk. unfold pt_Mmax, pt_Mmin, pt_Vmax, pt_Vmin, up, down, M_at, V_at. cbn [fold_left fst snd v_Mmax v_Mmin v_Vmax v_Vmin v_VcoMmax v_VcoMmin v_McoVmax v_McoVmin].
    repeat (rewrite (where_gt n) by assumption). repeat (rewrite (where_lt n) by assumption).
    repeat split;
    match goal with |- context [Rltb ?p ?q] => destruct (Rltb p q) end; reflexivity.
Qed.

Lemma vm_loop_ok n vr s : sized n s -> Forall (fits n) vr -> exists s', foldM (vm_step n) vr s = Ok s' /\ sized n s' /\
  forall k, (k < n)%nat ->
    pt_Mmax k s' = up (M_at k) (V_at k) vr (pt_Mmax k s) /\
    pt_Mmin k s' = down (M_at k) (V_at k) vr (pt_Mmin k s) /\
    pt_Vmax k s' = up (V_at k) (M_at k) vr (pt_Vmax k s) /\
    pt_Vmin k s' = down (V_at k) (M_at k) vr (pt_Vmin k s).
Proof.
  revert s. induction vr as [|r vr IH]; intros s Hs Hf.
  - exists s. split; [reflexivity|]. split; [exact Hs|]. intros k Hk. repeat split; reflexivity.
  - inversion_clear Hf as [|? ? F1 F2]. destruct (vm_step_ok n s r Hs F1) as (s1 & E1 & Z1 & P1).
    destruct (IH s1 Z1 F2) as (s' & E & Z & P). exists s'. cbn [foldM]. rewrite E1. cbn [rbind].
    split; [exact E|]. split; [exact Z|]. intros k Hk.
    destruct (P1 k Hk) as (a1 & a2 & a3 & a4). destruct (P k Hk) as (b1 & b2 & b3 & b4).
    change (r :: vr) with ([r] ++ vr). rewrite !up_app, !down_app, <- a1, <- a2, <- a3, <- a4. auto.
Qed.

Lemma vm_loop_fits n vr s s' : foldM (vm_step n) vr s = Ok s' -> Forall (fits n) vr.
Proof.
  revert s. induction vr as [|r vr IH]; intros s E; constructor.
  - cbn [foldM] in E. unfold vm_step in E at 1.
    destruct (Nat.eqb_spec (length (r_V (br_all r))) n) as [E1|]; [|discriminate].
    destruct (Nat.eqb_spec (length (r_M (br_all r))) n) as [E2|]; [|discriminate]. split; assumption.
  - cbn [foldM] in E. destruct (vm_step n s r) as [s1|]; [|discriminate]. exact (IH s1 E).
Qed.

Definition vm0 (n : nat) : vm :=
  {| v_Vmax := zeros n; v_Vmin := zeros n; v_Mmax := zeros n; v_Mmin := zeros n;
     v_VcoMmax := zeros n; v_VcoMmin := zeros n; v_McoVmax := zeros n; v_McoVmin := zeros n |}.
Lemma zeros_length n : length (zeros n) = n.
Proof. apply repeat_length. Qed.
Lemma nth_zeros n k : nth k (zeros n) 0 = 0.
Proof. unfold zeros. revert k. induction n as [|n IH]; intros [|k]; cbn; auto. Qed.
Lemma vm0_sized n : sized n (vm0 n).
Proof. constructor; apply zeros_length. Qed.

(** ** Reaction rows *)
Lemma fold_Rmax_spec l a : let m := fold_left Rmax l a in a <= m /\ (forall x, In x l -> x <= m) /\ (m = a \/ In m l).
Proof.
  revert a. induction l as [|b l IH]; intros a; cbn.
  - split; [lra|]. split; [intros x []|]. left. reflexivity.
  - destruct (IH (Rmax a b)) as (H1 & H2 & H3). cbn in *.
    assert (a <= Rmax a b /\ b <= Rmax a b) by (split; [apply Rmax_l|apply Rmax_r]).
    split; [lra|]. split; [intros x [->|Hx]; [lra|auto]|].
    destruct H3 as [E|Hi]; [|tauto]. rewrite E. unfold Rmax. destruct (Rle_dec a b); auto.
Qed.
Lemma fold_Rmin_spec l a : let m := fold_left Rmin l a in m <= a /\ (forall x, In x l -> m <= x) /\ (m = a \/ In m l).
Proof.
  revert a. induction l as [|b l IH]; intros a; cbn.
  - split; [lra|]. split; [intros x []|]. left. reflexivity.
  - destruct (IH (Rmin a b)) as (H1 & H2 & H3). cbn in *.
    assert (Rmin a b <= a /\ Rmin a b <= b) by (split; [apply Rmin_l|apply Rmin_r]).
    split; [lra|]. split; [intros x [->|Hx]; [lra|auto]|].
    destruct H3 as [E|Hi]; [|tauto]. rewrite E. unfold Rmin. destruct (Rle_dec a b); auto.
Qed.

Lemma row_max_largest {A} (f : A -> R) l : l <> [] -> largest f l (row_max (map (fun a => Rmax 0 (f a)) l)).
Proof.
  destruct l as [|a l]; [easy|intros _]. cbn [map row_max].
  destruct (fold_Rmax_spec (map (fun a => Rmax 0 (f a)) l) (Rmax 0 (f a))) as (H1 & H2 & H3). cbn zeta in *.
  set (m := fold_left Rmax _ _) in *.
  assert (Hall : forall b, In b (a :: l) -> Rmax 0 (f b) <= m).
  { intros b [->|Hb]; [exact H1|]. apply H2. apply in_map_iff. exists b. auto. }
  assert (Hin : exists b, In b (a :: l) /\ m = Rmax 0 (f b)).
  { destruct H3 as [E|Hi]; [exists a; split; [left; reflexivity|exact E]|].
    apply in_map_iff in Hi. destruct Hi as (b & E & Hb). exists b. split; [right; exact Hb|auto]. }
  split; [|split].
  - destruct Hin as (b & _ & ->). apply Rmax_l.
  - intros b Hb. specialize (Hall b Hb). pose proof (Rmax_r 0 (f b)). lra.
  - destruct Hin as (b & Hb & E). rewrite E. unfold Rmax. destruct (Rle_dec 0 (f b)); [right; exists b; auto|left; reflexivity].
Qed.
Lemma row_min_smallest {A} (f : A -> R) l : l <> [] -> smallest f l (row_min (map (fun a => Rmin 0 (f a)) l)).
Proof.
  destruct l as [|a l]; [easy|intros _]. cbn [map row_min].
  destruct (fold_Rmin_spec (map (fun a => Rmin 0 (f a)) l) (Rmin 0 (f a))) as (H1 & H2 & H3). cbn zeta in *.
  set (m := fold_left Rmin _ _) in *.
  assert (Hall : forall b, In b (a :: l) -> m <= Rmin 0 (f b)).
  { intros b [->|Hb]; [exact H1|]. apply H2. apply in_map_iff. exists b. auto. }
  assert (Hin : exists b, In b (a :: l) /\ m = Rmin 0 (f b)).
  { destruct H3 as [E|Hi]; [exists a; split; [left; reflexivity|exact E]|].
    apply in_map_iff in Hi. destruct Hi as (b & E & Hb). exists b. split; [right; exact Hb|auto]. }
  split; [|split].
  - destruct Hin as (b & _ & ->). apply Rmin_l.
  - intros b Hb. specialize (Hall b Hb). pose proof (Rmin_r 0 (f b)). lra.
  - destruct Hin as (b & Hb & E). rewrite E. unfold Rmin. destruct (Rle_dec 0 (f b)); [left; reflexivity|right; exists b; auto].
Qed.

Lemma largest_unique {A} (f : A -> R) l m1 m2 : largest f l m1 -> largest f l m2 -> m1 = m2.
Proof.
  intros (H1 & H2 & H3) (G1 & G2 & G3). apply Rle_antisym.
  - destruct H3 as [->|(a & Ha & <-)]; auto.
  - destruct G3 as [->|(a & Ha & <-)]; auto.
Qed.
Lemma smallest_unique {A} (f : A -> R) l m1 m2 : smallest f l m1 -> smallest f l m2 -> m1 = m2.
Proof.
  intros (H1 & H2 & H3) (G1 & G2 & G3). apply Rle_antisym.
  - destruct G3 as [->|(a & Ha & <-)]; auto.
  - destruct H3 as [->|(a & Ha & <-)]; auto.
Qed.
Lemma largest_app {A} (f : A -> R) l k m1 m2 : largest f l m1 -> largest f k m2 -> largest f (l ++ k) (Rmax m1 m2).
Proof.
  intros (H1 & H2 & H3) (G1 & G2 & G3). pose proof (Rmax_l m1 m2). pose proof (Rmax_r m1 m2). split; [lra|]. split.
  - intros a Ha. apply in_app_or in Ha. destruct Ha as [Ha|Ha]; [specialize (H2 a Ha)|specialize (G2 a Ha)]; lra.
  - unfold Rmax. destruct (Rle_dec m1 m2).
    + destruct G3 as [E|(a & Ha & E)]; [left; exact E|right; exists a; split; [apply in_or_app; auto|exact E]].
    + destruct H3 as [E|(a & Ha & E)]; [left; exact E|right; exists a; split; [apply in_or_app; auto|exact E]].
Qed.
Lemma smallest_app {A} (f : A -> R) l k m1 m2 : smallest f l m1 -> smallest f k m2 -> smallest f (l ++ k) (Rmin m1 m2).
Proof.
  intros (H1 & H2 & H3) (G1 & G2 & G3). pose proof (Rmin_l m1 m2). pose proof (Rmin_r m1 m2). split; [lra|]. split.
  - intros a Ha. apply in_app_or in Ha. destruct Ha as [Ha|Ha]; [specialize (H2 a Ha)|specialize (G2 a Ha)]; lra.
  - unfold Rmin. destruct (Rle_dec m1 m2).
    + destruct H3 as [E|(a & Ha & E)]; [left; exact E|right; exists a; split; [apply in_or_app; auto|exact E]].
    + destruct G3 as [E|(a & Ha & E)]; [left; exact E|right; exists a; split; [apply in_or_app; auto|exact E]].
Qed.

Lemma nth_map_seq0 {B} (f : nat -> B) n i d : (i < n)%nat -> nth i (map f (seq 0 n)) d = f i.
Proof.
  intros Hi. rewrite (nth_indep _ d (f 0%nat)) by (rewrite map_length, seq_length; exact Hi).
  rewrite map_nth, seq_nth by exact Hi. reflexivity.
Qed.

(** ** Construction *)
(** Complete per-station description of the constructed envelope. *)
Record built (vr : list bres) (e : env) : Prop := {
  bu_fits : Forall (fits (e_npts e)) vr;
  bu_sup : Forall (fun r => length (br_R r) = e_nsup e) vr;
  bu_l1 : length (e_Vmax e) = e_npts e; bu_l2 : length (e_Vmin e) = e_npts e;
  bu_l3 : length (e_Mmax e) = e_npts e; bu_l4 : length (e_Mmin e) = e_npts e;
  bu_l5 : length (e_VcoMmax e) = e_npts e; bu_l6 : length (e_VcoMmin e) = e_npts e;
  bu_l7 : length (e_McoVmax e) = e_npts e; bu_l8 : length (e_McoVmin e) = e_npts e;
  bu_l9 : length (e_Rmaxval e) = e_nsup e; bu_l10 : length (e_Rminval e) = e_nsup e;
  bu_Mmax : forall k, (k < e_npts e)%nat -> (nth k (e_Mmax e) 0, nth k (e_VcoMmax e) 0) = up (M_at k) (V_at k) vr (0, 0);
  bu_Mmin : forall k, (k < e_npts e)%nat -> (nth k (e_Mmin e) 0, nth k (e_VcoMmin e) 0) = down (M_at k) (V_at k) vr (0, 0);
  bu_Vmax : forall k, (k < e_npts e)%nat -> (nth k (e_Vmax e) 0, nth k (e_McoVmax e) 0) = up (V_at k) (M_at k) vr (0, 0);
  bu_Vmin : forall k, (k < e_npts e)%nat -> (nth k (e_Vmin e) 0, nth k (e_McoVmin e) 0) = down (V_at k) (M_at k) vr (0, 0);
  bu_R : forall i, (i < e_nsup e)%nat -> largest (R_at i) vr (nth i (e_Rmaxval e) 0) /\ smallest (R_at i) vr (nth i (e_Rminval e) 0) }.

Lemma env_built vr e : env_init vr = Ok e -> built vr e.
Proof.
  unfold env_init. destruct vr as [|r0 vr']; [discriminate|]. set (vr := r0 :: vr') in *.
  set (n := length (r_x (br_all r0))). set (s := length (br_R r0)). unfold envelopes_VM.
  change {| v_Vmax := zeros n; v_Vmin := zeros n; v_Mmax := zeros n; v_Mmin := zeros n;
     v_VcoMmax := zeros n; v_VcoMmin := zeros n; v_McoVmax := zeros n; v_McoVmin := zeros n |} with (vm0 n).
  destruct (foldM (vm_step n) vr (vm0 n)) as [v|] eqn:Ev; [|discriminate]. cbn [rbind].
  unfold envelope_R. destruct (forallb (fun r => Nat.eqb (length (br_R r)) s) vr) eqn:Es; [|discriminate].
  cbn [negb rbind fst snd]. intros E. injection E as <-.
  pose proof (vm_loop_fits _ _ _ _ Ev) as Hf.
  destruct (vm_loop_ok n vr (vm0 n) (vm0_sized n) Hf) as (v' & E' & [S1 S2 S3 S4 S5 S6 S7 S8] & P).
  rewrite Ev in E'. injection E' as <-.
  assert (N : vr <> []) by discriminate.
  constructor; cbn [e_npts e_nres e_nsup e_Vmax e_Vmin e_Mmax e_Mmin e_VcoMmax e_VcoMmin e_McoVmax e_McoVmin e_Rmaxval e_Rminval]; auto.
  - apply Forall_forall. intros r Hr. rewrite forallb_forall in Es. apply Nat.eqb_eq. apply Es. exact Hr.
  - rewrite !map_length, seq_length. reflexivity.
  - rewrite !map_length, seq_length. reflexivity.
  - intros k Hk. destruct (P k Hk) as (a & _). unfold pt_Mmax in a at 1. rewrite a. unfold pt_Mmax. cbn. rewrite nth_zeros. reflexivity.
  - intros k Hk. destruct (P k Hk) as (_ & a & _). unfold pt_Mmin in a at 1. rewrite a. unfold pt_Mmin. cbn. rewrite nth_zeros. reflexivity.
  - intros k Hk. destruct (P k Hk) as (_ & _ & a & _). unfold pt_Vmax in a at 1. rewrite a. unfold pt_Vmax. cbn. rewrite nth_zeros. reflexivity.
  - intros k Hk. destruct (P k Hk) as (_ & _ & _ & a). unfold pt_Vmin in a at 1. rewrite a. unfold pt_Vmin. cbn. rewrite nth_zeros. reflexivity.
  - intros i Hi. rewrite !map_map.
    rewrite !nth_map_seq0 by exact Hi.
    split; [apply (row_max_largest (R_at i)); exact N|apply (row_min_smallest (R_at i)); exact N].
Qed.

(** Construction succeeds exactly on non-empty compatible lists. *)
Lemma env_ok_iff n s r0 vr : length (r_x (br_all r0)) = n -> length (br_R r0) = s ->
  ((exists e, env_init (r0 :: vr) = Ok e) <-> Forall (fits n) (r0 :: vr) /\ Forall (fun r => length (br_R r) = s) (r0 :: vr)).
Proof.
  intros Hn Hs. split.
  - intros (e & E). pose proof (env_built _ _ E) as B. unfold env_init in E.
    destruct (envelopes_VM _ _) as [v|]; [|discriminate]. cbn [rbind] in E.
    destruct (envelope_R _ _) as [R|]; [|discriminate]. injection E as E.
    assert (e_npts e = n) by (rewrite <- E; exact Hn). assert (e_nsup e = s) by (rewrite <- E; exact Hs).
    destruct B. subst n s. rewrite H in *. rewrite H0 in *. auto.
  - intros (Hf & Hr). unfold env_init. rewrite Hn, Hs. unfold envelopes_VM.
    destruct (vm_loop_ok n (r0 :: vr) (vm0 n) (vm0_sized n) Hf) as (v & E & _). unfold vm0 in E. rewrite E. cbn [rbind].
    unfold envelope_R. assert (Es : forallb (fun r => Nat.eqb (length (br_R r)) s) (r0 :: vr) = true).
    { apply forallb_forall. intros r Hin. apply Nat.eqb_eq. rewrite Forall_forall in Hr. apply Hr. exact Hin. }
    rewrite Es. eexists. reflexivity.
Qed.

Lemma built_envelope vr e : built vr e -> envelope_of vr e.
Proof.
  intros []. constructor; auto.
  - intros k Hk. split.
    + pose proof (f_equal fst (bu_Mmax0 k Hk)) as E. cbn [fst] in E. rewrite E. apply up_largest.
    + pose proof (f_equal fst (bu_Mmin0 k Hk)) as E. cbn [fst] in E. rewrite E. apply down_smallest.
  - intros k Hk. split.
    + pose proof (f_equal fst (bu_Vmax0 k Hk)) as E. cbn [fst] in E. rewrite E. apply up_largest.
    + pose proof (f_equal fst (bu_Vmin0 k Hk)) as E. cbn [fst] in E. rewrite E. apply down_smallest.
  - repeat split; assumption.
Qed.

Lemma env_sizes vr e : env_init vr = Ok e -> vr <> [] /\ e_nres e = length vr /\
  e_Rmax e = map (fun i => map (fun r => Rmax 0 (R_at i r)) vr) (seq 0 (e_nsup e)) /\
  e_Rmin e = map (fun i => map (fun r => Rmin 0 (R_at i r)) vr) (seq 0 (e_nsup e)).
Proof.
  unfold env_init. destruct vr as [|r0 vr']; [discriminate|]. set (vr := r0 :: vr') in *.
  destruct (envelopes_VM _ _) as [v|]; [|discriminate]. cbn [rbind]. unfold envelope_R.
  destruct (forallb _ vr); [|discriminate]. cbn [negb rbind fst snd]. intros E. injection E as <-.
  split; [discriminate|]. split; [reflexivity|]. split; reflexivity.
Qed.

Lemma built_coincident vr e : built vr e -> coincident vr e.
Proof.
  intros []. constructor; intros k Hk.
  - pose proof (up_companion (M_at k) (V_at k) vr) as C. rewrite <- bu_Mmax0 in C by exact Hk. exact C.
  - pose proof (down_companion (M_at k) (V_at k) vr) as C. rewrite <- bu_Mmin0 in C by exact Hk. exact C.
  - pose proof (up_companion (V_at k) (M_at k) vr) as C. rewrite <- bu_Vmax0 in C by exact Hk. exact C.
  - pose proof (down_companion (V_at k) (M_at k) vr) as C. rewrite <- bu_Vmin0 in C by exact Hk. exact C.
Qed.

Lemma pair_lists n (f : nat -> R * R) l1 l2 m1 m2 :
  length l1 = n -> length l2 = n -> length m1 = n -> length m2 = n ->
  (forall k, (k < n)%nat -> (nth k l1 0, nth k l2 0) = f k) ->
  (forall k, (k < n)%nat -> (nth k m1 0, nth k m2 0) = f k) -> l1 = m1 /\ l2 = m2.
Proof.
  intros H1 H2 H3 H4 A B. split; apply (list_eq n); try assumption; intros k Hk;
    pose proof (A k Hk) as E; rewrite <- (B k Hk) in E; injection E as E1 E2; assumption.
Qed.

Lemma built_unique vr a b : built vr a -> built vr b -> e_npts a = e_npts b -> e_nsup a = e_nsup b ->
  same_extremes a b /\ same_coincidents a b.
Proof.
  intros Ha Hb Hn Hs.
  destruct (pair_lists (e_npts a) (fun k => up (M_at k) (V_at k) vr (0, 0)) (e_Mmax a) (e_VcoMmax a) (e_Mmax b) (e_VcoMmax b)) as [Q1 Q2];
    [apply Ha|apply Ha|rewrite Hn; apply Hb|rewrite Hn; apply Hb|apply Ha|rewrite Hn; apply Hb|].
  destruct (pair_lists (e_npts a) (fun k => down (M_at k) (V_at k) vr (0, 0)) (e_Mmin a) (e_VcoMmin a) (e_Mmin b) (e_VcoMmin b)) as [Q3 Q4];
    [apply Ha|apply Ha|rewrite Hn; apply Hb|rewrite Hn; apply Hb|apply Ha|rewrite Hn; apply Hb|].
  destruct (pair_lists (e_npts a) (fun k => up (V_at k) (M_at k) vr (0, 0)) (e_Vmax a) (e_McoVmax a) (e_Vmax b) (e_McoVmax b)) as [Q5 Q6];
    [apply Ha|apply Ha|rewrite Hn; apply Hb|rewrite Hn; apply Hb|apply Ha|rewrite Hn; apply Hb|].
  destruct (pair_lists (e_npts a) (fun k => down (V_at k) (M_at k) vr (0, 0)) (e_Vmin a) (e_McoVmin a) (e_Vmin b) (e_McoVmin b)) as [Q7 Q8];
    [apply Ha|apply Ha|rewrite Hn; apply Hb|rewrite Hn; apply Hb|apply Ha|rewrite Hn; apply Hb|].
  assert (Q9 : e_Rmaxval a = e_Rmaxval b).
  { apply (list_eq (e_nsup a)); [apply Ha|rewrite Hs; apply Hb|]. intros k Hk.
    refine (largest_unique _ _ _ _ (proj1 (bu_R _ _ Ha k Hk)) (proj1 (bu_R _ _ Hb k _))). rewrite <- Hs. exact Hk. }
  assert (Q10 : e_Rminval a = e_Rminval b).
  { apply (list_eq (e_nsup a)); [apply Ha|rewrite Hs; apply Hb|]. intros k Hk.
    refine (smallest_unique _ _ _ _ (proj2 (bu_R _ _ Ha k Hk)) (proj2 (bu_R _ _ Hb k _))). rewrite <- Hs. exact Hk. }
  split; repeat apply conj; assumption.
Qed.

Lemma zero_like_built e : built [] (zero_like e).
Proof.
  constructor; cbn; auto; try apply zeros_length; try (intros; rewrite !nth_zeros; reflexivity).
  intros i Hi. rewrite nth_zeros. split; (split; [lra|]; split; [intros a []|left; reflexivity]).
Qed.

Lemma sizes_eqb s e : e_npts s = e_npts e -> e_nsup s = e_nsup e ->
  negb (Nat.eqb (e_npts s) (e_npts e)) || negb (Nat.eqb (e_nsup s) (e_nsup e)) = false.
Proof. intros -> ->. rewrite !Nat.eqb_refl. reflexivity. Qed.

Lemma pair_if (b : bool) (x1 x2 y1 y2 : R) : ((if b then x1 else y1), (if b then x2 else y2)) = if b then (x1, x2) else (y1, y2).
Proof. destruct b; reflexivity. Qed.
Lemma Rmax_if x y : Rmax x y = if Rltb x y then y else x.
Proof. unfold Rmax, Rltb. destruct (Rle_dec x y), (Rlt_dec x y); lra. Qed.
Lemma Rmin_if x y : Rmin x y = if Rltb y x then y else x.
Proof. unfold Rmin, Rltb. destruct (Rle_dec x y), (Rlt_dec y x); lra. Qed.

Lemma merge_up n (f g : nat -> bres -> R) (A B : list bres) sM sV eM eV : length sM = n -> length sV = n -> length eM = n -> length eV = n ->
  (forall k, (k < n)%nat -> (nth k sM 0, nth k sV 0) = up (f k) (g k) A (0, 0)) ->
  (forall k, (k < n)%nat -> (nth k eM 0, nth k eV 0) = up (f k) (g k) B (0, 0)) ->
  forall k, (k < n)%nat -> (nth k (map2 Rmax sM eM) 0, nth k (where_ (gt_mask eM sM) eV sV) 0) = up (f k) (g k) (A ++ B) (0, 0).
Proof.
  intros H1 H2 H3 H4 HA HB k Hk. rewrite up_app, <- HA by exact Hk. rewrite up_merge.
  2:{ pose proof (up_largest (f k) (g k) A) as (P & _). rewrite <- HA in P by exact Hk. exact P. }
  rewrite <- HB by exact Hk. cbn [fst].
  rewrite (nth_map2 _ _ _ _ 0 0) by lia. rewrite (where_gt n) by assumption. rewrite Rmax_if. apply pair_if.
Qed.
Lemma merge_down n (f g : nat -> bres -> R) (A B : list bres) sM sV eM eV : length sM = n -> length sV = n -> length eM = n -> length eV = n ->
  (forall k, (k < n)%nat -> (nth k sM 0, nth k sV 0) = down (f k) (g k) A (0, 0)) ->
  (forall k, (k < n)%nat -> (nth k eM 0, nth k eV 0) = down (f k) (g k) B (0, 0)) ->
  forall k, (k < n)%nat -> (nth k (map2 Rmin sM eM) 0, nth k (where_ (lt_mask eM sM) eV sV) 0) = down (f k) (g k) (A ++ B) (0, 0).
Proof.
  intros H1 H2 H3 H4 HA HB k Hk. rewrite down_app, <- HA by exact Hk. rewrite down_merge.
  2:{ pose proof (down_smallest (f k) (g k) A) as (P & _). rewrite <- HA in P by exact Hk. exact P. }
  rewrite <- HB by exact Hk. cbn [fst].
  rewrite (nth_map2 _ _ _ _ 0 0) by lia. rewrite (where_lt n) by assumption. rewrite Rmin_if. apply pair_if.
Qed.
Lemma map2_len n (f : R -> R -> R) a b : length a = n -> length b = n -> length (map2 f a b) = n.
Proof. intros H1 H2. rewrite map2_length. lia. Qed.

Lemma augment_built A B s e : built A s -> built B e -> e_npts s = e_npts e -> e_nsup s = e_nsup e ->
  exists em, augment s e = Ok em /\ built (A ++ B) em /\ e_npts em = e_npts s /\ e_nsup em = e_nsup s /\ e_nres em = e_nres s.
Proof.
  intros Ha Hb Hn Hs. unfold augment. rewrite sizes_eqb by assumption. eexists. split; [reflexivity|].
  split; [|split; [reflexivity|split; reflexivity]].
  destruct Hb as [f1 f2 l1 l2 l3 l4 l5 l6 l7 l8 l9 l10 u1 u2 u3 u4 u5]. rewrite <- Hn, <- Hs in *.
  constructor; cbn [e_npts e_nres e_nsup e_Vmax e_Vmin e_Mmax e_Mmin e_VcoMmax e_VcoMmin e_McoVmax e_McoVmin e_Rmaxval e_Rminval].
  1,2: apply Forall_app; split; [apply Ha|assumption].
  1-4: apply map2_len; [apply Ha|assumption].
  1-4: first [apply where_gt_length|apply where_lt_length]; solve [apply Ha|assumption].
  1,2: apply map2_len; [apply Ha|assumption].
  - apply (merge_up (e_npts s) M_at V_at); solve [apply Ha|assumption].
  - apply (merge_down (e_npts s) M_at V_at); solve [apply Ha|assumption].
  - apply (merge_up (e_npts s) V_at M_at); solve [apply Ha|assumption].
  - apply (merge_down (e_npts s) V_at M_at); solve [apply Ha|assumption].
  - intros i Hi. destruct (bu_R _ _ Ha i Hi) as [R1 R2], (u5 i Hi) as [R3 R4].
    assert (La : (i < length (e_Rmaxval s))%nat) by (rewrite (bu_l9 _ _ Ha); exact Hi).
    assert (Lb : (i < length (e_Rminval s))%nat) by (rewrite (bu_l10 _ _ Ha); exact Hi).
    assert (Lc : (i < length (e_Rmaxval e))%nat) by (rewrite l9; exact Hi).
    assert (Ld : (i < length (e_Rminval e))%nat) by (rewrite l10; exact Hi).
    rewrite !(nth_map2 _ _ _ _ 0 0) by assumption. split; [apply largest_app|apply smallest_app]; assumption.
Qed.

(** Sequence of merges from a state that covers [A]. *)
Lemma augments_built vs es s A : built A s -> Forall2 built vs es ->
  Forall (fun e => e_npts e = e_npts s /\ e_nsup e = e_nsup s) es ->
  exists em, foldM augment es s = Ok em /\ built (A ++ concat vs) em /\ e_npts em = e_npts s /\ e_nsup em = e_nsup s /\ e_nres em = e_nres s.
Proof.
  intros Hs H. revert s A Hs. induction H as [|v e vs es Hb H IH]; intros s A Hs Hf.
  - exists s. cbn. rewrite app_nil_r. auto.
  - inversion_clear Hf as [|? ? [F1 F2] F3].
    destruct (augment_built A v s e Hs Hb (eq_sym F1) (eq_sym F2)) as (s1 & E1 & B1 & N1 & N2 & N3).
    destruct (IH s1 (A ++ v)) as (em & E & B & N4 & N5 & N6); [exact B1| |].
    + rewrite N1, N2. exact F3.
    + exists em. cbn [foldM]. rewrite E1. cbn [rbind]. split; [exact E|]. cbn [concat]. rewrite app_assoc.
      split; [exact B|]. split; [congruence|]. split; congruence.
Qed.

Lemma env_app A B ea eb : env_init A = Ok ea -> env_init B = Ok eb -> e_npts ea = e_npts eb -> e_nsup ea = e_nsup eb ->
  exists e, env_init (A ++ B) = Ok e /\ e_npts e = e_npts ea /\ e_nsup e = e_nsup ea.
Proof.
  intros EA EB Hn Hs. pose proof (env_built _ _ EA) as BA. pose proof (env_built _ _ EB) as BB.
  destruct A as [|r0 A]; [discriminate|].
  assert (X : e_npts ea = length (r_x (br_all r0)) /\ e_nsup ea = length (br_R r0)).
  { unfold env_init in EA. destruct (envelopes_VM _ _); [|discriminate]. cbn [rbind] in EA.
    destruct (envelope_R _ _); [|discriminate]. injection EA as <-. split; reflexivity. }
  destruct X as [X1 X2].
  destruct (proj2 (env_ok_iff _ _ r0 (A ++ B) (eq_sym X1) (eq_sym X2))) as (e & E).
  { destruct BA, BB. rewrite app_comm_cons. split; apply Forall_app; split; try assumption; [rewrite Hn|rewrite Hs]; assumption. }
  exists e. split; [exact E|].
  unfold env_init in E. cbn [app] in E. destruct (envelopes_VM _ _); [|discriminate]. cbn [rbind] in E.
  destruct (envelope_R _ _); [|discriminate]. injection E as <-. cbn. auto.
Qed.

Lemma merge_is_concat A B ea eb : env_init A = Ok ea -> env_init B = Ok eb -> e_npts ea = e_npts eb -> e_nsup ea = e_nsup eb ->
  exists em e, augment ea eb = Ok em /\ env_init (A ++ B) = Ok e /\ same_extremes em e /\ same_coincidents em e.
Proof.
  intros EA EB Hn Hs.
  destruct (augment_built A B ea eb (env_built _ _ EA) (env_built _ _ EB) Hn Hs) as (em & Em & Bm & N1 & N2 & _).
  destruct (env_app A B ea eb EA EB Hn Hs) as (e & E & M1 & M2). exists em, e. split; [exact Em|]. split; [exact E|].
  apply (built_unique _ _ _ Bm (env_built _ _ E)); congruence.
Qed.

Lemma env_concat vs es n s : vs <> [] -> Forall2 (fun v e => env_init v = Ok e) vs es ->
  Forall (fun e => e_npts e = n /\ e_nsup e = s) es ->
  exists e, env_init (concat vs) = Ok e /\ e_npts e = n /\ e_nsup e = s.
Proof.
  intros Hne H Hf. destruct H as [|v e vs es Hb H]; [easy|]. clear Hne.
  revert v e Hb Hf. induction H as [|v2 e2 vs es Hb2 H IH]; intros v e Hb Hf.
  - inversion_clear Hf as [|? ? [F1 F2] _]. exists e. cbn. rewrite app_nil_r. auto.
  - inversion_clear Hf as [|? ? [F1 F2] Hf']. inversion_clear Hf' as [|? ? [F3 F4] F5].
    destruct (env_app v v2 e e2 Hb Hb2) as (e12 & E12 & N1 & N2); [congruence|congruence|].
    destruct (IH (v ++ v2) e12 E12) as (ee & Ee & N3 & N4).
    + constructor; [split; congruence|exact F5].
    + exists ee. cbn [concat] in *. rewrite app_assoc. auto.
Qed.

Lemma combine_is_concat vs es n s : vs <> [] -> Forall2 (fun v e => env_init v = Ok e) vs es ->
  Forall (fun e => e_npts e = n /\ e_nsup e = s) es ->
  exists em e, combine_env es MEnvelope = Ok em /\ env_init (concat vs) = Ok e /\ same_extremes em e /\ same_coincidents em e.
Proof.
  intros Hne H Hf. destruct (env_concat vs es n s Hne H Hf) as (e & E & N1 & N2).
  destruct es as [|e0 es]; [destruct vs; [easy|inversion H]|].
  assert (H0 : e_npts e0 = n /\ e_nsup e0 = s) by (inversion_clear Hf; assumption). destruct H0 as [H1 H2].
  destruct (augments_built vs (e0 :: es) (zero_like e0) [] (zero_like_built e0)) as (em & Em & Bm & M1 & M2 & _).
  - clear - H. induction H; constructor; [apply env_built; assumption|assumption].
  - cbn [zero_like e_npts e_nsup]. rewrite H1, H2. exact Hf.
  - exists em, e. split; [exact Em|]. split; [exact E|]. cbn [app zero_like e_npts e_nsup] in *.
    apply (built_unique _ _ _ Bm (env_built _ _ E)); congruence.
Qed.

(** Order of merging does not matter for the extremes. *)
Lemma largest_same {A} (f : A -> R) l k m : (forall a, In a l <-> In a k) -> largest f l m -> largest f k m.
Proof.
  intros H (P1 & P2 & P3). split; [exact P1|]. split.
  - intros a Ha. apply P2, H, Ha.
  - destruct P3 as [P3|(a & Ha & E)]; [left; exact P3|right; exists a; split; [apply H, Ha|exact E]].
Qed.
Lemma smallest_same {A} (f : A -> R) l k m : (forall a, In a l <-> In a k) -> smallest f l m -> smallest f k m.
Proof.
  intros H (P1 & P2 & P3). split; [exact P1|]. split.
  - intros a Ha. apply P2, H, Ha.
  - destruct P3 as [P3|(a & Ha & E)]; [left; exact P3|right; exists a; split; [apply H, Ha|exact E]].
Qed.
Lemma envelope_same vr wr a b : envelope_of vr a -> envelope_of wr b -> (forall r, In r vr <-> In r wr) ->
  e_npts a = e_npts b -> e_nsup a = e_nsup b -> same_extremes a b.
Proof.
  intros [m1 v1 r1 (l1 & l2 & l3 & l4 & l5 & l6)] [m2 v2 r2 (k1 & k2 & k3 & k4 & k5 & k6)] H Hn Hs.
  rewrite <- Hn in *. rewrite <- Hs in *.
  assert (X : forall n (f : nat -> bres -> R) la lb, length la = n -> length lb = n ->
     (forall k, (k < n)%nat -> largest (f k) vr (nth k la 0)) -> (forall k, (k < n)%nat -> largest (f k) wr (nth k lb 0)) -> la = lb).
  { intros n f la lb e1 e2 h1 h2. apply (list_eq n); [exact e1|exact e2|]. intros k Hk.
    exact (largest_unique _ _ _ _ (largest_same _ _ _ _ H (h1 k Hk)) (h2 k Hk)). }
  assert (Y : forall n (f : nat -> bres -> R) la lb, length la = n -> length lb = n ->
     (forall k, (k < n)%nat -> smallest (f k) vr (nth k la 0)) -> (forall k, (k < n)%nat -> smallest (f k) wr (nth k lb 0)) -> la = lb).
  { intros n f la lb e1 e2 h1 h2. apply (list_eq n); [exact e1|exact e2|]. intros k Hk.
    exact (smallest_unique _ _ _ _ (smallest_same _ _ _ _ H (h1 k Hk)) (h2 k Hk)). }
  split; [exact Hn|]. split; [exact Hs|].
  split; [apply (X (e_npts a) V_at); try assumption; intros k Hk; first [apply v1|apply v2]; exact Hk|].
  split; [apply (Y (e_npts a) V_at); try assumption; intros k Hk; first [apply v1|apply v2]; exact Hk|].
  split; [apply (X (e_npts a) M_at); try assumption; intros k Hk; first [apply m1|apply m2]; exact Hk|].
  split; [apply (Y (e_npts a) M_at); try assumption; intros k Hk; first [apply m1|apply m2]; exact Hk|].
  split; [apply (X (e_nsup a) R_at); try assumption; intros k Hk; first [apply r1|apply r2]; exact Hk|].
  apply (Y (e_nsup a) R_at); try assumption; intros k Hk; first [apply r1|apply r2]; exact Hk.
Qed.

(** Algebra of the in-place operations on arbitrary envelopes. *)
Lemma map2_comm (f : R -> R -> R) : (forall x y, f x y = f y x) -> forall l k, map2 f l k = map2 f k l.
Proof.
  intros H. induction l as [|a l IH]; intros [|b k]; try reflexivity. unfold map2 in *. cbn. rewrite H, IH. reflexivity.
Qed.
Lemma map2_assoc (f : R -> R -> R) : (forall x y z, f (f x y) z = f x (f y z)) ->
  forall l k m, map2 f (map2 f l k) m = map2 f l (map2 f k m).
Proof.
  intros H. induction l as [|a l IH]; intros [|b k] [|c m]; try reflexivity. unfold map2 in *. cbn. rewrite H, IH. reflexivity.
Qed.
Lemma map2_idem (f : R -> R -> R) : (forall x, f x x = x) -> forall l, map2 f l l = l.
Proof. intros H. induction l as [|a l IH]; [reflexivity|]. unfold map2 in *. cbn. rewrite H, IH. reflexivity. Qed.
Lemma Rmax_self x : Rmax x x = x. Proof. unfold Rmax. destruct (Rle_dec x x); reflexivity. Qed.
Lemma Rmin_self x : Rmin x x = x. Proof. unfold Rmin. destruct (Rle_dec x x); reflexivity. Qed.
Lemma Rmax_asc x y z : Rmax (Rmax x y) z = Rmax x (Rmax y z).
Proof. unfold Rmax. repeat destruct (Rle_dec _ _); lra. Qed.
Lemma Rmin_asc x y z : Rmin (Rmin x y) z = Rmin x (Rmin y z).
Proof. unfold Rmin. repeat destruct (Rle_dec _ _); lra. Qed.

Lemma augment_inv a b m : augment a b = Ok m ->
  e_npts a = e_npts b /\ e_nsup a = e_nsup b /\ e_npts m = e_npts a /\ e_nsup m = e_nsup a /\ e_nres m = e_nres a /\
  e_Vmax m = map2 Rmax (e_Vmax a) (e_Vmax b) /\ e_Vmin m = map2 Rmin (e_Vmin a) (e_Vmin b) /\
  e_Mmax m = map2 Rmax (e_Mmax a) (e_Mmax b) /\ e_Mmin m = map2 Rmin (e_Mmin a) (e_Mmin b) /\
  e_Rmaxval m = map2 Rmax (e_Rmaxval a) (e_Rmaxval b) /\ e_Rminval m = map2 Rmin (e_Rminval a) (e_Rminval b).
Proof.
  unfold augment. destruct (Nat.eqb (e_npts a) (e_npts b)) eqn:E1; [|discriminate].
  destruct (Nat.eqb (e_nsup a) (e_nsup b)) eqn:E2; [|discriminate]. cbn [negb orb]. intros E. injection E as <-.
  apply Nat.eqb_eq in E1. apply Nat.eqb_eq in E2. cbn. repeat apply conj; try reflexivity; assumption.
Qed.
Lemma sum_inv a b m : sum_env a b = Ok m ->
  e_npts a = e_npts b /\ e_nsup a = e_nsup b /\ e_npts m = e_npts a /\ e_nsup m = e_nsup a /\ e_nres m = e_nres a /\
  e_Vmax m = map2 Rplus (e_Vmax a) (e_Vmax b) /\ e_Vmin m = map2 Rplus (e_Vmin a) (e_Vmin b) /\
  e_Mmax m = map2 Rplus (e_Mmax a) (e_Mmax b) /\ e_Mmin m = map2 Rplus (e_Mmin a) (e_Mmin b) /\
  e_Rmaxval m = map2 Rplus (e_Rmaxval a) (e_Rmaxval b) /\ e_Rminval m = map2 Rplus (e_Rminval a) (e_Rminval b).
Proof.
  unfold sum_env. destruct (Nat.eqb (e_npts a) (e_npts b)) eqn:E1; [|discriminate].
  destruct (Nat.eqb (e_nsup a) (e_nsup b)) eqn:E2; [|discriminate]. cbn [negb orb]. intros E. injection E as <-.
  apply Nat.eqb_eq in E1. apply Nat.eqb_eq in E2. cbn. repeat apply conj; try reflexivity; assumption.
Qed.

Lemma augment_comm a b m1 m2 : augment a b = Ok m1 -> augment b a = Ok m2 -> same_extremes m1 m2.
Proof.
  intros H1 H2. apply augment_inv in H1. apply augment_inv in H2.
  destruct H1 as (a1 & a2 & a3 & a4 & _ & a5 & a6 & a7 & a8 & a9 & a10), H2 as (b1 & b2 & b3 & b4 & _ & b5 & b6 & b7 & b8 & b9 & b10).
  unfold same_extremes. rewrite a3, a4, a5, a6, a7, a8, a9, a10, b3, b4, b5, b6, b7, b8, b9, b10.
  repeat apply conj; try assumption; first [apply (map2_comm Rmax Rmax_comm)|apply (map2_comm Rmin Rmin_comm)].
Qed.
Lemma augment_idem a m : augment a a = Ok m -> same_extremes m a.
Proof.
  intros H1. apply augment_inv in H1. destruct H1 as (a1 & a2 & a3 & a4 & _ & a5 & a6 & a7 & a8 & a9 & a10).
  unfold same_extremes. rewrite a3, a4, a5, a6, a7, a8, a9, a10.
  repeat apply conj; try reflexivity; first [apply (map2_idem Rmax Rmax_self)|apply (map2_idem Rmin Rmin_self)].
Qed.
Lemma augment_assoc a b c ab bc m1 m2 : augment a b = Ok ab -> augment ab c = Ok m1 -> augment b c = Ok bc -> augment a bc = Ok m2 ->
  same_extremes m1 m2.
Proof.
  intros H1 H2 H3 H4. apply augment_inv in H1, H2, H3, H4.
  destruct H1 as (a1 & a2 & a3 & a4 & _ & a5 & a6 & a7 & a8 & a9 & a10), H2 as (b1 & b2 & b3 & b4 & _ & b5 & b6 & b7 & b8 & b9 & b10).
  destruct H3 as (c1 & c2 & c3 & c4 & _ & c5 & c6 & c7 & c8 & c9 & c10), H4 as (d1 & d2 & d3 & d4 & _ & d5 & d6 & d7 & d8 & d9 & d10).
  unfold same_extremes. rewrite b3, b4, b5, b6, b7, b8, b9, b10, a3, a4, a5, a6, a7, a8, a9, a10,
    d3, d4, d5, d6, d7, d8, d9, d10, c5, c6, c7, c8, c9, c10.
  repeat apply conj; try reflexivity; first [apply (map2_assoc Rmax Rmax_asc)|apply (map2_assoc Rmin Rmin_asc)].
Qed.
Lemma sum_comm a b m1 m2 : sum_env a b = Ok m1 -> sum_env b a = Ok m2 -> same_extremes m1 m2.
Proof.
  intros H1 H2. apply sum_inv in H1. apply sum_inv in H2.
  destruct H1 as (a1 & a2 & a3 & a4 & _ & a5 & a6 & a7 & a8 & a9 & a10), H2 as (b1 & b2 & b3 & b4 & _ & b5 & b6 & b7 & b8 & b9 & b10).
  unfold same_extremes. rewrite a3, a4, a5, a6, a7, a8, a9, a10, b3, b4, b5, b6, b7, b8, b9, b10.
  repeat apply conj; try assumption; apply (map2_comm Rplus Rplus_comm).
Qed.
Lemma sum_assoc a b c ab bc m1 m2 : sum_env a b = Ok ab -> sum_env ab c = Ok m1 -> sum_env b c = Ok bc -> sum_env a bc = Ok m2 ->
  same_extremes m1 m2.
Proof.
  intros H1 H2 H3 H4. apply sum_inv in H1, H2, H3, H4.
  destruct H1 as (a1 & a2 & a3 & a4 & _ & a5 & a6 & a7 & a8 & a9 & a10), H2 as (b1 & b2 & b3 & b4 & _ & b5 & b6 & b7 & b8 & b9 & b10).
  destruct H3 as (c1 & c2 & c3 & c4 & _ & c5 & c6 & c7 & c8 & c9 & c10), H4 as (d1 & d2 & d3 & d4 & _ & d5 & d6 & d7 & d8 & d9 & d10).
  unfold same_extremes. rewrite b3, b4, b5, b6, b7, b8, b9, b10, a3, a4, a5, a6, a7, a8, a9, a10,
    d3, d4, d5, d6, d7, d8, d9, d10, c5, c6, c7, c8, c9, c10.
  repeat apply conj; try reflexivity; apply (map2_assoc Rplus Rplus_assoc).
Qed.

(** Summed envelopes. *)
Record sized_env (e : env) : Prop := {
  se_1 : length (e_Vmax e) = e_npts e; se_2 : length (e_Vmin e) = e_npts e;
  se_3 : length (e_Mmax e) = e_npts e; se_4 : length (e_Mmin e) = e_npts e;
  se_5 : length (e_Rmaxval e) = e_nsup e; se_6 : length (e_Rminval e) = e_nsup e }.
Lemma built_sized vr e : built vr e -> sized_env e.
Proof. intros H. constructor; apply H. Qed.

Lemma nth_map2R (f : R -> R -> R) n l k i : length l = n -> length k = n -> (i < n)%nat -> nth i (map2 f l k) 0 = f (nth i l 0) (nth i k 0).
Proof. intros H1 H2 Hi. apply nth_map2; lia. Qed.

Lemma total_snoc f rs r : total f (rs ++ [r]) = total f rs + f r.
Proof. unfold total. rewrite map_app, lsum_app. cbn. ring. Qed.

Lemma sum_bounds vs s v e : sized_env s -> bounds_sums vs s -> sized_env e -> envelope_of v e ->
  e_npts s = e_npts e -> e_nsup s = e_nsup e ->
  exists m, sum_env s e = Ok m /\ sized_env m /\ bounds_sums (vs ++ [v]) m /\ e_npts m = e_npts s /\ e_nsup m = e_nsup s.
Proof.
  intros Ss Bs Se Oe Hn Hs.
  destruct (sum_env s e) as [m|] eqn:E. 2:{ unfold sum_env in E. rewrite sizes_eqb in E by assumption. discriminate. }
  exists m. split; [reflexivity|]. apply sum_inv in E. destruct E as (_ & _ & E1 & E2 & _ & E3 & E4 & E5 & E6 & E7 & E8).
  destruct Ss as [s1 s2 s3 s4 s5 s6], Se as [t1 t2 t3 t4 t5 t6]. rewrite <- Hn in t1, t2, t3, t4. rewrite <- Hs in t5, t6.
  split; [constructor; rewrite ?E1, ?E2, ?E3, ?E4, ?E5, ?E6, ?E7, ?E8; apply map2_len; assumption|].
  split; [|split; assumption].
  intros rs Hr. apply Forall2_app_inv_r in Hr. destruct Hr as (r1 & r2 & H1 & H2 & ->).
  inversion H2 as [|r ? t ? Hrv Hnil]; subst. inversion Hnil; subst.
  destruct (Bs r1 H1) as [B1 B2]. rewrite E1, E2. split.
  - intros k Hk. destruct (B1 k Hk) as [[b1 b2] [b3 b4]].
    assert (Hk' : (k < e_npts e)%nat) by (rewrite <- Hn; exact Hk).
    destruct (eo_M _ _ Oe k Hk') as [(_ & c1 & _) (_ & c2 & _)], (eo_V _ _ Oe k Hk') as [(_ & c3 & _) (_ & c4 & _)].
    specialize (c1 r Hrv). specialize (c2 r Hrv). specialize (c3 r Hrv). specialize (c4 r Hrv).
    rewrite E3, E4, E5, E6, !total_snoc, !(nth_map2R Rplus (e_npts s)) by assumption. split; split; lra.
  - intros i Hi. destruct (B2 i Hi) as [b1 b2].
    assert (Hi' : (i < e_nsup e)%nat) by (rewrite <- Hs; exact Hi).
    destruct (eo_R _ _ Oe i Hi') as [(_ & c1 & _) (_ & c2 & _)]. specialize (c1 r Hrv). specialize (c2 r Hrv).
    rewrite E7, E8, !total_snoc, !(nth_map2R Rplus (e_nsup s)) by assumption. split; lra.
Qed.

Lemma sums_bound vs es : Forall2 (fun v e => env_init v = Ok e) vs es ->
  forall ws s, sized_env s -> bounds_sums ws s -> Forall (fun e => e_npts e = e_npts s /\ e_nsup e = e_nsup s) es ->
  exists m, foldM sum_env es s = Ok m /\ sized_env m /\ bounds_sums (ws ++ vs) m /\ e_npts m = e_npts s /\ e_nsup m = e_nsup s.
Proof.
  induction 1 as [|v e vs es Hv H IH]; intros ws s Ss Bs Hf.
  - exists s. cbn. rewrite app_nil_r. auto.
  - inversion_clear Hf as [|? ? [F1 F2] F3]. pose proof (env_built _ _ Hv) as Be.
    destruct (sum_bounds ws s v e Ss Bs (built_sized _ _ Be) (built_envelope _ _ Be) (eq_sym F1) (eq_sym F2)) as (m & Em & Sm & Bm & N1 & N2).
    destruct (IH (ws ++ [v]) m Sm Bm) as (m2 & E2 & S2 & B2 & N3 & N4).
    + rewrite N1, N2. exact F3.
    + exists m2. cbn [foldM]. rewrite Em. cbn [rbind]. split; [exact E2|]. split; [exact S2|].
      rewrite <- app_assoc in B2. split; [exact B2|]. split; congruence.
Qed.

Lemma combine_sum_bounds vs es n s : vs <> [] -> Forall2 (fun v e => env_init v = Ok e) vs es ->
  Forall (fun e => e_npts e = n /\ e_nsup e = s) es ->
  exists e, combine_env es MSum = Ok e /\ e_npts e = n /\ e_nsup e = s /\ bounds_sums vs e.
Proof.
  intros Hne H Hf. destruct es as [|e0 es]; [destruct vs; [easy|inversion H]|].
  assert (H0 : e_npts e0 = n /\ e_nsup e0 = s) by (inversion_clear Hf; assumption). destruct H0 as [H1 H2].
  destruct (sums_bound vs (e0 :: es) H [] (zero_like e0)) as (m & Em & _ & Bm & N1 & N2).
  - apply (built_sized []), zero_like_built.
  - intros rs Hr. inversion Hr. subst. cbn. split; intros; rewrite ?nth_zeros; unfold total; cbn; lra.
  - cbn [zero_like e_npts e_nsup]. rewrite H1, H2. exact Hf.
  - exists m. split; [exact Em|]. cbn [zero_like e_npts e_nsup] in N1, N2. split; [congruence|]. split; [congruence|]. exact Bm.
Qed.

(** Reaction history. *)
Lemma augment_zeroes a b m : augment a b = Ok m -> e_nres a <> e_nres b -> history_zeroed m.
Proof.
  unfold augment. destruct (_ || _); [discriminate|]. intros E Hn. apply Nat.eqb_neq in Hn. rewrite Hn in E.
  injection E as <-. split; reflexivity.
Qed.
Lemma sum_zeroes a b m : sum_env a b = Ok m -> e_nres a <> e_nres b -> history_zeroed m.
Proof.
  unfold sum_env. destruct (_ || _); [discriminate|]. intros E Hn. apply Nat.eqb_neq in Hn. rewrite Hn in E.
  injection E as <-. split; reflexivity.
Qed.
Lemma foldM_nres (op : env -> env -> result env) :
  (forall a b m, op a b = Ok m -> e_nres m = e_nres a) -> forall es s m, foldM op es s = Ok m -> e_nres m = e_nres s.
Proof.
  intros H. induction es as [|e es IH]; intros s m E; cbn in E; [injection E as <-; reflexivity|].
  destruct (op s e) as [s1|] eqn:E1; [|discriminate]. cbn in E. rewrite (IH _ _ E). exact (H _ _ _ E1).
Qed.
Lemma foldM_snoc {A B} (op : A -> B -> result A) l b s : foldM op (l ++ [b]) s = rbind (foldM op l s) (fun m => op m b).
Proof.
  revert s. induction l as [|a l IH]; intros s; cbn; [destruct (op s b); reflexivity|].
  destruct (op s a) as [s1|]; [|reflexivity]. cbn. apply IH.
Qed.
Lemma combine_zeroes e0 es el md m : combine_env (e0 :: es ++ [el]) md = Ok m -> e_nres e0 <> e_nres el -> history_zeroed m.
Proof.
  assert (N1 : forall a b x, augment a b = Ok x -> e_nres x = e_nres a) by (intros a b x E; apply augment_inv in E; apply E).
  assert (N2 : forall a b x, sum_env a b = Ok x -> e_nres x = e_nres a) by (intros a b x E; apply sum_inv in E; apply E).
  intros E Hn. unfold combine_env in E. change (e0 :: es ++ [el]) with ((e0 :: es) ++ [el]) in E.
  destruct md; [| |discriminate]; rewrite foldM_snoc in E.
  - destruct (foldM augment (e0 :: es) (zero_like e0)) as [s|] eqn:Es; [|discriminate]. cbn [rbind] in E.
    apply (augment_zeroes _ _ _ E). rewrite (foldM_nres _ N1 _ _ _ Es). exact Hn.
  - destruct (foldM sum_env (e0 :: es) (zero_like e0)) as [s|] eqn:Es; [|discriminate]. cbn [rbind] in E.
    apply (sum_zeroes _ _ _ E). rewrite (foldM_nres _ N2 _ _ _ Es). exact Hn.
Qed.

(** Compatible analyses always have an envelope. *)
Lemma env_compatible n s vr : vr <> [] -> compatible n s vr -> exists e, env_init vr = Ok e /\ e_npts e = n /\ e_nsup e = s.
Proof.
  intros Hne Hc. destruct vr as [|r0 vr]; [easy|]. inversion Hc as [|? ? (x1 & x2 & x3 & x4) Ht]. subst x l.
  destruct (proj2 (env_ok_iff n s r0 vr x1 x4)) as (e & E).
  - split; apply Forall_forall; intros r Hr; unfold compatible in Hc; rewrite Forall_forall in Hc; destruct (Hc r Hr) as (y1 & y2 & y3 & y4); [split|]; assumption.
  - exists e. split; [exact E|]. unfold env_init in E. destruct (envelopes_VM _ _); [|discriminate]. cbn [rbind] in E.
    destruct (envelope_R _ _); [|discriminate]. injection E as <-. cbn. auto.
Qed.
Lemma envs_compatible n s vs : Forall (fun v => v <> [] /\ compatible n s v) vs ->
  exists es, Forall2 (fun v e => env_init v = Ok e) vs es /\ Forall (fun e => e_npts e = n /\ e_nsup e = s) es.
Proof.
  induction 1 as [|v vs [H1 H2] H (es & E1 & E2)]; [exists []; split; constructor|].
  destruct (env_compatible n s v H1 H2) as (e & E & N1 & N2). exists (e :: es). split; constructor; auto.
Qed.

Lemma c21 n s vr : vr <> [] -> compatible n s vr ->
  exists e, env_init vr = Ok e /\ e_npts e = n /\ e_nsup e = s /\ e_nres e = length vr /\ envelope_of vr e.
Proof.
  intros H1 H2. destruct (env_compatible n s vr H1 H2) as (e & E & N1 & N2). exists e.
  split; [exact E|]. split; [exact N1|]. split; [exact N2|]. split; [apply (env_sizes _ _ E)|]. apply built_envelope, env_built, E.
Qed.
Lemma c22 vr e : env_init vr = Ok e -> coincident vr e.
Proof. intros E. apply built_coincident, env_built, E. Qed.

Lemma c23_combine n s vs : vs <> [] -> Forall (fun v => v <> [] /\ compatible n s v) vs ->
  exists es em e, Forall2 (fun v x => env_init v = Ok x) vs es /\ combine_env es MEnvelope = Ok em /\
    env_init (concat vs) = Ok e /\ same_extremes em e /\ same_coincidents em e.
Proof.
  intros Hne H. destruct (envs_compatible n s vs H) as (es & E1 & E2).
  destruct (combine_is_concat vs es n s Hne E1 E2) as (em & e & P). exists es, em, e. split; [exact E1|exact P].
Qed.
Lemma c23_augment n s A B : A <> [] -> B <> [] -> compatible n s A -> compatible n s B ->
  exists a b m e, env_init A = Ok a /\ env_init B = Ok b /\ augment a b = Ok m /\ env_init (A ++ B) = Ok e /\
    same_extremes m e /\ same_coincidents m e.
Proof.
  intros H1 H2 H3 H4. destruct (env_compatible n s A H1 H3) as (a & Ea & N1 & N2), (env_compatible n s B H2 H4) as (b & Eb & N3 & N4).
  destruct (merge_is_concat A B a b Ea Eb) as (m & e & P); [congruence|congruence|]. exists a, b, m, e. split; [exact Ea|]. split; [exact Eb|exact P].
Qed.
Lemma c23_order n s vs ws es fs a b : Forall (fun v => v <> [] /\ compatible n s v) vs ->
  Forall2 (fun v x => env_init v = Ok x) vs es -> Forall2 (fun v x => env_init v = Ok x) ws fs ->
  Permutation.Permutation es fs -> Permutation.Permutation vs ws ->
  combine_env es MEnvelope = Ok a -> combine_env fs MEnvelope = Ok b -> same_extremes a b.
Proof.
  intros Hc H1 H2 P Q Ea Eb.
  assert (Hf : Forall (fun e => e_npts e = n /\ e_nsup e = s) es).
  { destruct (envs_compatible n s vs Hc) as (es' & X1 & X2). replace es with es'; [exact X2|].
    clear - X1 H1. revert es H1. induction X1 as [|v x vs xs E X1 IH]; intros es H; inversion H; subst; [reflexivity|].
    f_equal; [congruence|]. apply IH. assumption. }
  assert (Hf' : Forall (fun e => e_npts e = n /\ e_nsup e = s) fs) by (apply (Permutation.Permutation_Forall P); exact Hf).
  assert (Hv : vs <> []) by (intros ->; inversion H1; subst; discriminate).
  assert (Hw : ws <> []) by (intros ->; inversion H2; subst; discriminate).
  destruct (combine_is_concat vs es n s Hv H1 Hf) as (a' & ea & A1 & A2 & A3 & _).
  destruct (combine_is_concat ws fs n s Hw H2 Hf') as (b' & eb & B1 & B2 & B3 & _).
  rewrite Ea in A1. injection A1 as <-. rewrite Eb in B1. injection B1 as <-.
  destruct (env_concat vs es n s Hv H1 Hf) as (e1 & X1 & X2 & X3). rewrite A2 in X1. injection X1 as <-.
  destruct (env_concat ws fs n s Hw H2 Hf') as (e2 & Y1 & Y2 & Y3). rewrite B2 in Y1. injection Y1 as <-.
  assert (S : same_extremes ea eb).
  { apply (envelope_same (concat vs) (concat ws)); [apply built_envelope, env_built, A2|apply built_envelope, env_built, B2| |congruence|congruence].
    intros r. rewrite !in_concat. split; intros (l & L1 & L2); exists l; (split; [|exact L2]).
    - apply (Permutation.Permutation_in _ Q L1).
    - apply (Permutation.Permutation_in _ (Permutation.Permutation_sym Q) L1). }
  unfold same_extremes in *. destruct A3 as (a1 & a2 & a3 & a4 & a5 & a6 & a7 & a8), B3 as (b1 & b2 & b3 & b4 & b5 & b6 & b7 & b8), S as (s1 & s2 & s3 & s4 & s5 & s6 & s7 & s8).
  repeat apply conj; congruence.
Qed.
Lemma c24 n s vs : vs <> [] -> Forall (fun v => v <> [] /\ compatible n s v) vs ->
  exists es e, Forall2 (fun v x => env_init v = Ok x) vs es /\ combine_env es MSum = Ok e /\
    e_npts e = n /\ e_nsup e = s /\ bounds_sums vs e.
Proof.
  intros Hne H. destruct (envs_compatible n s vs H) as (es & E1 & E2).
  destruct (combine_sum_bounds vs es n s Hne E1 E2) as (e & P). exists es, e. split; [exact E1|exact P].
Qed.
Lemma c25_extremes n s vs : vs <> [] -> Forall (fun v => v <> [] /\ compatible n s v) vs ->
  exists es e, Forall2 (fun v x => env_init v = Ok x) vs es /\ combine_env es MEnvelope = Ok e /\
    e_nsup e = s /\ forall i, (i < s)%nat -> largest (R_at i) (concat vs) (nth i (e_Rmaxval e) 0) /\ smallest (R_at i) (concat vs) (nth i (e_Rminval e) 0).
Proof.
  intros Hne H. destruct (c23_combine n s vs Hne H) as (es & em & e & P1 & P2 & P3 & P4 & _).
  destruct (envs_compatible n s vs H) as (es' & E1 & E2).
  destruct (env_concat vs es' n s Hne E1 E2) as (e' & X1 & X2 & X3). rewrite P3 in X1. injection X1 as <-.
  exists es, em. split; [exact P1|]. split; [exact P2|]. destruct P4 as (_ & Q2 & _ & _ & _ & _ & Q7 & Q8). split; [congruence|].
  intros i Hi. rewrite Q7, Q8. apply (eo_R _ _ (built_envelope _ _ (env_built _ _ P3))). congruence.
Qed.

(** Sizes of a merge decide success. *)
Lemma augment_ok_iff a b : (exists m, augment a b = Ok m) <-> e_npts a = e_npts b /\ e_nsup a = e_nsup b.
Proof.
  split.
  - intros (m & E). apply augment_inv in E. destruct E as (E1 & E2 & _). auto.
  - intros [E1 E2]. unfold augment. rewrite sizes_eqb by assumption. eexists. reflexivity.
Qed.

(** Counts 2, 3, 2: the last merge brings the history back. *)
Definition one (r : R) : bres :=
  {| br_mem := []; br_all := {| r_x := [0]; r_M := [r]; r_V := [0]; r_R := [0]; r_D := [0] |};
     br_D := fun _ => 0; br_R := [r]; br_Rs := [] |}.
Lemma augment_history a b m : augment a b = Ok m ->
  e_Rmax m = if Nat.eqb (e_nres a) (e_nres b) then map2 (map2 Rmax) (e_Rmax a) (e_Rmax b) else repeat (zeros (e_nres a)) (e_nsup a).
Proof. unfold augment. destruct (_ || _); [discriminate|]. intros E. injection E as <-. reflexivity. Qed.
Lemma one_compatible l : compatible 1 1 (map one l).
Proof. apply Forall_forall. intros r Hr. apply in_map_iff in Hr. destruct Hr as (x & <- & _). cbn. auto. Qed.
Lemma c25_refute : exists es e, Forall2 (fun v x => env_init v = Ok x) [[one 1; one 1]; [one 1; one 1; one 1]; [one 1; one 1]] es /\
  combine_env es MEnvelope = Ok e /\ ~ history_zeroed e.
Proof.
  destruct (env_compatible 1 1 [one 1; one 1]) as (a & Ea & Na & Sa); [discriminate|exact (one_compatible [1; 1])|].
  destruct (env_compatible 1 1 [one 1; one 1; one 1]) as (b & Eb & Nb & Sb); [discriminate|exact (one_compatible [1; 1; 1])|].
  pose proof (env_sizes _ _ Ea) as (_ & Ra & Ha & _). pose proof (env_sizes _ _ Eb) as (_ & Rb & _ & _).
  cbn [length] in Ra, Rb.
  destruct (proj2 (augment_ok_iff (zero_like a) a)) as (m1 & E1); [split; reflexivity|].
  pose proof (augment_inv _ _ _ E1) as (_ & _ & N1 & S1 & R1 & _).
  destruct (proj2 (augment_ok_iff m1 b)) as (m2 & E2); [rewrite N1, S1; cbn; split; congruence|].
  pose proof (augment_inv _ _ _ E2) as (_ & _ & N2 & S2 & R2 & _).
  destruct (proj2 (augment_ok_iff m2 a)) as (m3 & E3); [rewrite N2, S2, N1, S1; cbn; split; congruence|].
  pose proof (augment_inv _ _ _ E3) as (_ & _ & N3 & S3 & R3 & _).
  cbn [zero_like e_npts e_nsup e_nres] in *.
  exists [a; b; a], m3. split; [repeat constructor; assumption|]. split.
  - unfold combine_env. cbn [foldM]. rewrite E1. cbn [rbind]. rewrite E2. cbn [rbind]. rewrite E3. reflexivity.
  - intros [Z _]. rewrite (augment_history _ _ _ E3) in Z. rewrite R2, R1, Nat.eqb_refl in Z.
    rewrite (augment_history _ _ _ E2) in Z. rewrite R1, Ra, Rb in Z. cbn [Nat.eqb] in Z.
    rewrite S1, Sa, Ha, Sa, S3, S2, S1, Sa, R3, R2, R1, Ra in Z. cbn in Z. injection Z as Z _.
    revert Z. unfold R_at, Rmax. cbn. repeat destruct (Rle_dec _ _); lra.
Qed.
