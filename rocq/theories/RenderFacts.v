(** Proofs about the inferred supports, hinges and loads. *)
From Coq Require Import ZArith String.
From Verif Require Import Base BaseFacts SectionModel LoadModel LoadSpec FoundationModel ElementModel UtilsModel BeamModel BeamSpec AnalysisModel AnalysisSpec ResultsModel ResultsSpec
  BridgeSpec RenderModel RenderSpec.
Open Scope R_scope.

Lemma filter_snoc {A} (f : A -> bool) l a : filter f (l ++ [a]) = (filter f l ++ if f a then [a] else [])%list.
Proof. rewrite filter_app. reflexivity. Qed.

Lemma doc_restraint b i : documented b -> restraint b i = -1 \/ restraint b i = 0 \/ 0 < restraint b i.
Proof.
  intros D. unfold restraint. destruct (Nat.lt_ge_cases i (List.length (b_R b))).
  - unfold documented in D. rewrite Forall_forall in D. apply D. apply nth_In. assumption.
  - rewrite nth_overflow by assumption. auto.
Qed.

Lemma get_restraint b i v : get (b_R b) i = Ok v -> v = restraint b i.
Proof. unfold get, restraint. destruct (nth_error _ _) eqn:E; [|discriminate]. intros H; injection H as <-. symmetry. apply nth_error_nth. exact E. Qed.

Lemma any_fixed_spec b is r : documented b -> any_fixed (b_R b) is = Ok r -> (r = true <-> exists j, In j is /\ clamped_node b j).
Proof.
  intros D. revert r. induction is as [|i t IH]; cbn [any_fixed]; intros r Hr.
  - injection Hr as <-. split; [discriminate|]. intros (j & [] & _).
  - apply rbind_ok in Hr as (v & Ev & Hr). apply get_restraint in Ev.
    destruct (doc_restraint b (2 * i) D) as [V|[V|V]].
    + destruct (Reqb_spec v (-1)) as [_|N]; [|congruence].
      apply rbind_ok in Hr as (w & Ew & Hr). apply get_restraint in Ew.
      destruct (Reqb_spec w (-1)) as [W|W].
      * injection Hr as <-. split; [|reflexivity]. intros _. exists i. split; [left; reflexivity|]. unfold clamped_node, vert, rot. lra.
      * rewrite (IH r Hr). split; intros (j & Hj & C); exists j; split; auto; [right; exact Hj|].
        destruct Hj as [<-|Hj]; [|exact Hj]. destruct C as [_ C]. unfold rot in C. destruct (doc_restraint b (2 * i + 1) D) as [Q|[Q|Q]]; lra.
    + destruct (Reqb_spec v (-1)) as [N|_]; [lra|].
      rewrite (IH r Hr). split; intros (j & Hj & C); exists j; split; auto; [right; exact Hj|].
      destruct Hj as [<-|Hj]; [|exact Hj]. destruct C as [C _]. unfold vert in C. lra.
    + destruct (Reqb_spec v (-1)) as [N|_]; [lra|].
      rewrite (IH r Hr). split; intros (j & Hj & C); exists j; split; auto; [right; exact Hj|].
      destruct Hj as [<-|Hj]; [|exact Hj]. destruct C as [C _]. unfold vert in C. lra.
Qed.

Definition held_clamp (b : beam) : Prop := exists j, (j <= b_nspans b)%nat /\ clamped_node b j.

Record walked (b : beam) (n : nat) (st : list support * bool) : Prop := {
  wk_nodes : map s_node (fst st) = filter (fun i => negb (Reqb (vert b i) 0 && Reqb (rot b i) 0)) (seq 0 n);
  wk_each : forall s, In s (fst st) -> s_x s = node_at b (s_node s) /\ symbol b (s_node s) (s_kind s) /\
    (s_left s = true <-> s_node s = 0%nat) /\ (s_right s = true <-> s_node s = b_nspans b) /\
    (s_rot s = true <-> vert b (s_node s) < 0 /\ 0 < rot b (s_node s));
  wk_pin : snd st = true <-> held_clamp b \/ exists j, (j < n)%nat /\ vert b j < 0 }.

Lemma bool_iff (p q : bool) (P Q : Prop) : reflect P p -> (P <-> Q) -> (p = true <-> Q).
Proof. intros [H|H] E; split; intros X; try tauto; discriminate. Qed.

Lemma support_step_walks b n st st' : documented b -> deck b -> (n <= b_nspans b)%nat ->
  walked b n st -> support_step (b_terminal b) (b_R b) st n = Ok st' -> walked b (S n) st'.
Proof.
  intros D K Hn [W1 W2 W3] H. unfold support_step in H.
  apply rbind_ok in H as (v & Ev & H). apply rbind_ok in H as (r & Er & H).
  apply get_restraint in Ev. apply get_restraint in Er. fold (vert b n) in Ev. fold (rot b n) in Er.
  assert (Dv := doc_restraint b (2 * n) D). assert (Dr := doc_restraint b (2 * n + 1) D).
  fold (vert b n) in Dv. fold (rot b n) in Dr. rewrite <- Ev in Dv. rewrite <- Er in Dr.
  assert (LT : List.length (b_terminal b) = S (b_nspans b)) by (rewrite (dk_term b K), map_length, seq_length; lia).
  assert (GX : get (b_terminal b) n = Ok (node_at b n)).
  { unfold get. rewrite (dk_term b K). rewrite nth_error_map. rewrite (nth_error_nth' _ 0%nat) by (rewrite seq_length; lia).
    rewrite seq_nth by lia. reflexivity. }
  assert (PIN : forall q : bool, (q = true <-> snd st = true \/ v < 0) -> (q = true <-> held_clamp b \/ exists j, (j < S n)%nat /\ vert b j < 0)).
  { intros q Q. rewrite Q, W3. split.
    - intros [[P|(j & J1 & J2)]|P]; [left; exact P|right; exists j; split; [lia|exact J2]|right; exists n; split; [lia|lra]].
    - intros [P|(j & J1 & J2)]; [left; left; exact P|]. destruct (Nat.eq_dec j n) as [->|J3]; [right; lra|]. left; right. exists j. split; [lia|exact J2]. }
  assert (ADD : forall k pin' z, Reqb v 0 && Reqb r 0 = false -> symbol b n k -> (pin' = true <-> snd st = true \/ v < 0) ->
     z = (v = -1 /\ 0 < r) -> reflect z (Reqb v (-1) && Rltb 0 r) ->
     walked b (S n) ((fst st ++ [{| s_x := node_at b n; s_kind := k; s_node := n; s_left := Nat.eqb n 0;
        s_right := Nat.eqb n (List.length (b_terminal b) - 1); s_rot := Reqb v (-1) && Rltb 0 r |}])%list, pin')).
  { intros k pin' z Nz Sy Pi -> Rf. constructor; cbn [fst snd].
    - rewrite map_app, seq_S. cbn [Nat.add map s_node]. rewrite filter_snoc, W1. rewrite <- Ev, <- Er, Nz. reflexivity.
    - intros s Hs. apply in_app_or in Hs as [Hs|[<-|[]]]; [exact (W2 s Hs)|]. cbn [s_x s_node s_kind s_left s_right s_rot].
      split; [reflexivity|]. split; [exact Sy|]. split; [apply Nat.eqb_eq|]. split; [rewrite Nat.eqb_eq, LT; lia|].
      apply (bool_iff _ true _ _ Rf). rewrite <- Ev, <- Er. split; [intros; lra|]. intros [? ?]. split; [|assumption]. lra.
    - apply PIN. exact Pi. }
  assert (RF : reflect (v = -1 /\ 0 < r) (Reqb v (-1) && Rltb 0 r)).
  { destruct (Reqb_spec v (-1)); destruct (Rltb_spec 0 r); cbn; constructor; tauto || lra. }
  unfold support_kind in H.
  destruct (Reqb_spec v (-1)) as [V1|V1]; destruct (Reqb_spec r (-1)) as [R1|R1]; cbn [andb] in H.
  - rewrite GX in H. cbn [rbind] in H. injection H as <-. apply ADD with (z := v = -1 /\ 0 < r); auto.
    + destruct (Reqb_spec v 0); [lra|reflexivity].
    + split; [rewrite <- Ev; lra|rewrite <- Er; lra].
    + split; [auto|]. intros _. apply W3. left. exists n. split; [lia|]. split; [rewrite <- Ev; lra|rewrite <- Er; lra].
  - destruct (snd st) eqn:EP.
    + rewrite GX in H. cbn [rbind] in H. injection H as <-. apply ADD with (z := v = -1 /\ 0 < r); auto.
      * destruct (Reqb_spec v 0); [lra|reflexivity].
      * split; [rewrite <- Ev; lra|]. split; [rewrite <- Er; lra|]. apply W3. reflexivity.
      * tauto.
    + rewrite GX in H. cbn [rbind] in H. injection H as <-. apply ADD with (z := v = -1 /\ 0 < r); auto.
      * destruct (Reqb_spec v 0); [lra|reflexivity].
      * split; [rewrite <- Ev; lra|]. split; [rewrite <- Er; lra|]. split.
        -- intros j Hj C. enough (false = true) by discriminate. apply W3. left. exists j. auto.
        -- intros j Hj. destruct (Rle_lt_dec 0 (vert b j)) as [|G]; [assumption|]. enough (false = true) by discriminate. apply W3. right. exists j. auto.
      * split; [intros _; right; lra|reflexivity].
  - destruct (Rltb_spec 0 v) as [V2|V2].
    + rewrite GX in H. cbn [rbind] in H. injection H as <-. apply ADD with (z := v = -1 /\ 0 < r); auto.
      * destruct (Reqb_spec v 0); [lra|reflexivity].
      * cbn. rewrite <- Ev. exact V2.
      * split; [auto|intros [|]; [assumption|lra]].
    + destruct (Reqb_spec v 0) as [V3|V3]; [|lra]. cbn [andb] in H.
      rewrite GX in H. cbn [rbind] in H. injection H as <-. apply ADD with (z := v = -1 /\ 0 < r); auto.
      * cbn. destruct (Reqb_spec r 0); [lra|reflexivity].
      * cbn. rewrite <- Ev, <- Er. lra.
      * split; [auto|intros [|]; [assumption|lra]].
  - destruct (Rltb_spec 0 v) as [V2|V2].
    + rewrite GX in H. cbn [rbind] in H. injection H as <-. apply ADD with (z := v = -1 /\ 0 < r); auto.
      * destruct (Reqb_spec v 0); [lra|reflexivity].
      * cbn. rewrite <- Ev. exact V2.
      * split; [auto|intros [|]; [assumption|lra]].
    + destruct (Reqb_spec v 0) as [V3|V3]; [|lra]. cbn [andb] in H.
      destruct (Rltb_spec 0 r) as [R2|R2].
      * rewrite GX in H. cbn [rbind] in H. injection H as <-. apply ADD with (z := v = -1 /\ 0 < r); auto.
        -- cbn. destruct (Reqb_spec r 0); [lra|reflexivity].
        -- cbn. rewrite <- Ev, <- Er. lra.
        -- split; [auto|intros [|]; [assumption|lra]].
      * injection H as <-. constructor; cbn [fst snd].
        -- rewrite seq_S. cbn [Nat.add]. rewrite filter_snoc, <- W1, <- Ev, <- Er.
           destruct (Reqb_spec v 0); [|lra]. destruct (Reqb_spec r 0); [|lra]. cbn. rewrite app_nil_r. reflexivity.
        -- exact W2.
        -- apply PIN. split; [auto|intros [|]; [assumption|lra]].
Qed.

Lemma supports_shown b sup : documented b -> deck b -> infer_supports (b_terminal b) (b_R b) = Ok sup -> shows_supports b sup.
Proof.
  intros D K H. unfold infer_supports in H. apply rbind_ok in H as (pin & Hp & H). apply rbind_ok in H as (st & Hst & H). injection H as <-.
  assert (LT : List.length (b_terminal b) = (b_nspans b + 1)%nat) by (rewrite (dk_term b K), map_length, seq_length; lia).
  rewrite LT in *. apply (any_fixed_spec b _ _ D) in Hp.
  enough (G : walked b (b_nspans b + 1) st) by (destruct G as [G1 G2 G3]; constructor; assumption).
  assert (GEN : forall n st, (n <= b_nspans b + 1)%nat -> foldM (support_step (b_terminal b) (b_R b)) (seq 0 n) ([], pin) = Ok st -> walked b n st).
  { induction n as [|n IH]; intros s Hn Hs.
    - cbn in Hs. injection Hs as <-. constructor; cbn [fst snd]; [reflexivity|intros ? []|].
      rewrite Hp. split.
      + intros (j & J & C). left. exists j. split; [apply in_seq in J; lia|exact C].
      + intros [(j & J & C)|(j & J & _)]; [|lia]. exists j. split; [apply in_seq; lia|exact C].
    - rewrite seq_S, foldM_app in Hs. apply rbind_ok in Hs as (s1 & H1 & Hs). cbn [Nat.add foldM] in Hs.
      apply rbind_ok in Hs as (s2 & H2 & Hs). injection Hs as <-. apply (support_step_walks b n s1 s2 D K); auto; [lia|]. apply IH; [lia|exact H1]. }
  apply GEN; [lia|exact Hst].
Qed.

(** ** Hinges *)
Lemma hinges_shown b : deck b -> forall h, In h (infer_hinges (b_terminal b) (b_types b)) <->
  exists i, (0 < i < b_nspans b)%nat /\ (loose_right b (i - 1) \/ loose_left b i) /\ h = {| h_x := node_at b i; h_node := i |}.
Proof.
  intros K h. assert (LT : List.length (b_terminal b) = (b_nspans b + 1)%nat) by (rewrite (dk_term b K), map_length, seq_length; lia).
  unfold infer_hinges. rewrite in_map_iff, LT.
  assert (RA : forall i, released_at (b_types b) i = true <-> loose_right b (i - 1) \/ loose_left b i).
  { intros i. unfold released_at, loose_right, loose_left. rewrite orb_true_iff.
    destruct (nth_error (b_types b) (i - 1)) as [t|]; destruct (nth_error (b_types b) i) as [u|]; rewrite ?orb_true_iff, ?Nat.eqb_eq;
      split; intros [H|H]; try discriminate; try tauto;
      try (left; destruct H as [H|H]; [left|right]; congruence); try (right; destruct H as [H|H]; [left|right]; congruence);
      try (destruct H as [H|H]; discriminate). }
  assert (NX : forall i, (i <= b_nspans b)%nat -> nth i (b_terminal b) 0 = node_at b i).
  { intros i Hi. rewrite (dk_term b K). rewrite (nth_indep _ 0 (node_at b 0)) by (rewrite map_length, seq_length; lia). rewrite map_nth, seq_nth by lia. reflexivity. }
  split.
  - intros (i & <- & Hi). apply filter_In in Hi as [Hi Hr]. apply in_seq in Hi. exists i. rewrite <- RA. rewrite NX by lia. repeat split; auto; lia.
  - intros (i & Hi & Hr & ->). exists i. rewrite NX by lia. split; [reflexivity|]. apply filter_In. rewrite in_seq, RA. split; [lia|exact Hr].
Qed.

(** ** Loads *)
Lemma shows_ext b m d A A' : shows_action b m d A -> (forall t, intensity A t = intensity A' t) -> forces A = forces A' -> moments A = moments A' ->
  shows_action b m d A'.
Proof.
  intros [(en & S1) S2 S3] E1 E2 E3. constructor; [|congruence|congruence]. exists en. intros t Ht Hn. rewrite <- E1. auto.
Qed.

Lemma forces_snoc L l ld : forces (actions L (l ++ [ld])) = (forces (actions L l) ++ forces (action_of L ld))%list.
Proof. induction l as [|a l IH]; cbn; [apply app_nil_r|]. unfold actions in IH. rewrite IH. apply app_assoc. Qed.
Lemma moments_snoc L l ld : moments (actions L (l ++ [ld])) = (moments (actions L l) ++ moments (action_of L ld))%list.
Proof. induction l as [|a l IH]; cbn; [apply app_nil_r|]. unfold actions in IH. rewrite IH. apply app_assoc. Qed.
Lemma intensity_snoc L l ld t : intensity (actions L (l ++ [ld])) t = intensity (actions L l) t + intensity (action_of L ld) t.
Proof. induction l as [|a l IH]; cbn; [ring|]. unfold actions in IH. rewrite IH. ring. Qed.

Lemma of_span_snoc {A} (sp : A -> Z) m l q : of_span sp m (l ++ [q]) = (of_span sp m l ++ if Z.eqb (sp q) (Z.of_nat m) then [q] else [])%list.
Proof. unfold of_span. exact (filter_snoc _ l q). Qed.

Lemma py_get_nat {A} (l : list A) (i : nat) (v : A) : py_get l (Z.of_nat i) = Ok v -> nth_error l i = Some v.
Proof.
  unfold py_get, py_index. destruct (Z.leb_spec 0 (Z.of_nat i)); [|lia]. destruct (Z.ltb_spec (Z.of_nat i) (Z.of_nat (List.length l))); cbn [rbind]; [|discriminate].
  rewrite Nat2Z.id. unfold get. destruct (nth_error l i); [|discriminate]. congruence.
Qed.

Lemma terminal_at b i x : deck b -> nth_error (b_terminal b) i = Some x -> x = node_at b i.
Proof.
  intros K H. rewrite (dk_term b K) in H. rewrite nth_error_map in H. destruct (nth_error (seq 0 (b_nspans b + 1)) i) as [j|] eqn:E; [|discriminate].
  injection H as <-. assert (i < List.length (seq 0 (b_nspans b + 1)))%nat by (apply nth_error_Some; congruence). rewrite seq_length in *.
  apply nth_error_nth with (d := 0%nat) in E. rewrite seq_nth in E by assumption. subst j. reflexivity.
Qed.

(** Drawn distributed load against the intensity of its action. *)
Lemma udl_ordinate sp off L w t : 0 <= t <= L ->
  ordinate {| d_span := sp; d_x0 := off; d_x1 := off + L; d_w0 := w; d_w1 := w |} (off + t) = w.
Proof. intros H. unfold ordinate. cbn. destruct (Rlt_dec _ _); [lra|]. destruct (Rlt_dec _ _); [lra|]. ring. Qed.

Lemma pudl_ordinate sp off w a c t :
  ordinate {| d_span := sp; d_x0 := off + a; d_x1 := off + a + c; d_w0 := w; d_w1 := w |} (off + t) =
  if Rlt_dec t a then 0 else if Rlt_dec (a + c) t then 0 else w.
Proof.
  unfold ordinate. cbn. destruct (Rlt_dec (off + t) (off + a)); destruct (Rlt_dec t a); try lra.
  destruct (Rlt_dec (off + a + c) (off + t)); destruct (Rlt_dec (a + c) t); lra.
Qed.

Lemma trap_ordinate sp off w1 w2 a c t : 0 < c ->
  ordinate {| d_span := sp; d_x0 := off + a; d_x1 := off + a + c; d_w0 := w1; d_w1 := w2 |} (off + t) =
  if Rlt_dec t a then 0 else if Rlt_dec (a + c) t then 0 else w1 + (w2 - w1) * ((t - a) / c).
Proof.
  intros Hc. unfold ordinate. cbn. destruct (Rlt_dec (off + t) (off + a)); destruct (Rlt_dec t a); try lra.
  destruct (Rlt_dec (off + a + c) (off + t)); destruct (Rlt_dec (a + c) t); try lra. f_equal. f_equal. f_equal; [lra|]. f_equal. lra.
Qed.

Lemma draw_shows b d sp ld d' m : deck b -> (m < b_nspans b)%nat ->
  draw_load (b_terminal b) (b_lengths b) d (sp, ld) = Ok d' ->
  forall A, shows_action b m d A ->
  shows_action b m d' (if Z.eqb sp (Z.of_nat m) then action_plus A (action_of (span_length b m) ld) else A).
Proof.
  intros K Hm H A [(en & S1) S2 S3]. unfold draw_load in H. cbn [fst snd] in H.
  apply rbind_ok in H as (off & Eo & H). apply rbind_ok in H as (L & EL & H). injection H as <-.
  destruct (Z.eqb_spec sp (Z.of_nat m)) as [->|N].
  - apply py_get_nat in Eo. apply py_get_nat in EL. apply (terminal_at b m off K) in Eo. subst off.
    assert (LL : L = span_length b m) by (unfold span_length; symmetry; apply nth_error_nth; exact EL). subst L.
    set (L := span_length b m) in *.
    assert (DIST : forall q en', d_span q = Z.of_nat m -> forces (action_of L ld) = [] -> moments (action_of L ld) = [] ->
      (forall t, 0 <= t <= L -> ~ In t en' -> ordinate q (node_at b m + t) = intensity (action_of L ld) t) ->
      shows_action b m (add_dist d q) (action_plus A (action_of L ld))).
    { intros q en' Q1 Q2 Q3 Q4. constructor; cbn [dr_dist dr_pts dr_moms add_dist action_plus intensity forces moments].
      - exists (en ++ en')%list. intros t Ht Hn. rewrite of_span_snoc, Q1, Z.eqb_refl, map_app, lsum_app. cbn [map lsum].
        rewrite S1, <- Q4; auto; [unfold lsum; cbn; ring| |]; intros X; apply Hn; apply in_or_app; auto.
      - rewrite Q2, app_nil_r. exact S2.
      - rewrite Q3, app_nil_r. exact S3. }
    assert (NONE : forall en', forces (action_of L ld) = [] -> moments (action_of L ld) = [] ->
      (forall t, 0 <= t <= L -> ~ In t en' -> intensity (action_of L ld) t = 0) -> shows_action b m d (action_plus A (action_of L ld))).
    { intros en' Q2 Q3 Q4. constructor; cbn [action_plus intensity forces moments].
      - exists (en ++ en')%list. intros t Ht Hn. rewrite S1, Q4; auto; [ring| |]; intros X; apply Hn; apply in_or_app; auto.
      - rewrite Q2, app_nil_r. exact S2.
      - rewrite Q3, app_nil_r. exact S3. }
    destruct ld as [w|P a|w a c|w1 w2 a co|Ma Mb|mo a|kap EI].
    + apply (DIST _ []); try reflexivity. intros t Ht _. apply udl_ordinate. exact Ht.
    + constructor; cbn [dr_dist dr_pts dr_moms add_pt action_plus action_of intensity forces moments].
      * exists en. intros t Ht Hn. rewrite S1 by assumption. ring.
      * rewrite of_span_snoc. cbn [p_span]. rewrite Z.eqb_refl, map_app, S2. cbn. do 3 f_equal. ring.
      * rewrite app_nil_r. exact S3.
    + apply (DIST _ []); try reflexivity. intros t Ht _. apply pudl_ordinate.
    + unfold trap_resolve. set (c := match co with Some c => c | None => L - a end).
      destruct (Rleb_spec L a) as [A1|A1]; cbn [orb].
      { destruct (Rltb_spec 0 0); [lra|]. apply (NONE [a]); try reflexivity. intros t Ht Hn. cbn.
        destruct (Rlt_dec t a); [reflexivity|]. exfalso. apply Hn. left. lra. }
      destruct (Rleb_spec c 0) as [C1|C1].
      { destruct (Rltb_spec 0 0); [lra|]. apply (NONE [a]); try reflexivity. intros t Ht Hn. cbn. fold c.
        destruct (Rlt_dec t a); [reflexivity|]. destruct (Rlt_dec (a + c) t); [reflexivity|]. exfalso. apply Hn. left. lra. }
      destruct (Rltb_spec L (a + c)) as [O|O].
      * destruct (Rltb_spec 0 (L - a)); [|lra]. apply (DIST _ []); try reflexivity. intros t Ht _. rewrite trap_ordinate by assumption.
        cbn. fold c. destruct (Rlt_dec t a); [reflexivity|]. destruct (Rlt_dec (a + (L - a)) t); [lra|]. destruct (Rlt_dec (a + c) t); [lra|].
        field. split; lra.
      * destruct (Rltb_spec 0 c); [|lra]. apply (DIST _ []); try reflexivity. intros t Ht _. rewrite trap_ordinate by assumption.
        cbn. fold c. reflexivity.
    + apply (NONE []); reflexivity.
    + constructor; cbn [dr_dist dr_pts dr_moms add_mom action_plus action_of intensity forces moments].
      * exists en. intros t Ht Hn. rewrite S1 by assumption. ring.
      * rewrite app_nil_r. exact S2.
      * rewrite of_span_snoc. cbn [m_span]. rewrite Z.eqb_refl, map_app, S3. cbn. do 3 f_equal. ring.
    + constructor; cbn [dr_dist dr_pts dr_moms add_skip action_plus action_of no_action intensity forces moments].
      * exists en. intros t Ht Hn. rewrite S1 by assumption. ring.
      * rewrite app_nil_r. exact S2.
      * rewrite app_nil_r. exact S3.
  - assert (NE : Z.eqb sp (Z.of_nat m) = false) by (apply Z.eqb_neq; exact N).
    destruct ld as [w|P a|w a c|w1 w2 a co|Ma Mb|mo a|kap EI];
      try (constructor; cbn [dr_dist dr_pts dr_moms add_dist add_pt add_mom add_skip]; rewrite ?of_span_snoc; cbn [d_span p_span m_span];
        rewrite ?NE, ?app_nil_r; [exists en; exact S1|exact S2|exact S3]).
    destruct (trap_resolve w1 w2 a co L) as [[[[v1 v2] dw] a'] c']. destruct (Rltb 0 c');
      (constructor; cbn [dr_dist dr_pts dr_moms add_dist]; rewrite ?of_span_snoc; cbn [d_span]; rewrite ?NE, ?app_nil_r; [exists en; exact S1|exact S2|exact S3]).
Qed.

Lemma loads_of_snoc ls p m : loads_of (ls ++ [p]) m = (loads_of ls m ++ if Z.eqb (fst p) (Z.of_nat m) then [snd p] else [])%list.
Proof. unfold loads_of. rewrite filter_snoc, map_app. destruct (Z.eqb _ _); reflexivity. Qed.

Lemma fold_shows b m ls : deck b -> (m < b_nspans b)%nat ->
  forall d, foldM (draw_load (b_terminal b) (b_lengths b)) ls {| dr_dist := []; dr_pts := []; dr_moms := []; dr_skip := [] |} = Ok d ->
  shows_action b m d (actions (span_length b m) (loads_of ls m)).
Proof.
  intros K Hm. induction ls as [|[sp ld] ls IH] using rev_ind; intros d H.
  - cbn in H. injection H as <-. constructor; cbn; auto. exists []. reflexivity.
  - rewrite foldM_app in H. apply rbind_ok in H as (d1 & H1 & H). cbn [foldM] in H. apply rbind_ok in H as (d2 & H2 & H). injection H as <-.
    specialize (IH d1 H1). pose proof (draw_shows b d1 sp ld d2 m K Hm H2 _ IH) as G.
    rewrite loads_of_snoc. cbn [fst snd]. destruct (Z.eqb sp (Z.of_nat m)).
    + apply (shows_ext _ _ _ _ _ G); cbn [action_plus intensity forces moments].
      * intros t. symmetry. apply intensity_snoc.
      * symmetry. apply forces_snoc.
      * symmetry. apply moments_snoc.
    + rewrite app_nil_r. exact G.
Qed.
