(** A beam with an extra node in a span. *)
From Coquelicot Require Import Coquelicot.
From Coq Require Import Lia Permutation.
From Verif Require Import Base BaseFacts Linalg SectionModel LoadModel LoadSpec ElementModel ElementSpec UtilsModel BeamModel AnalysisModel
  AnalysisSpec AnalysisFacts AnalysisFacts2 AnalysisFacts3 ResultsSpec ExactSpec ExactFacts ExactFacts3 MeshSpec MeshFacts.
Open Scope R_scope.

Lemma nodal_at n ef j r : (r < 2)%nat -> nodal_sum n ef (2 * j + r) =
  (if Nat.ltb j n then ef j r else 0) + (if Nat.leb 1 j then ef (j - 1)%nat (2 + r)%nat else 0).
Proof.
  intros Hr. unfold nodal_sum. assert (E1 : ((2 * j + r) / 2 = j)%nat) by (symmetry; apply (Nat.div_unique _ 2 j r); lia).
  assert (E2 : ((2 * j + r) mod 2 = r)%nat) by (symmetry; apply (Nat.mod_unique _ 2 j r); lia). rewrite E1, E2. f_equal.
  - destruct (Nat.ltb_spec (2 * j + r) (2 * n)), (Nat.ltb_spec j n); try reflexivity; lia.
  - destruct (Nat.leb_spec 2 (2 * j + r)), (Nat.leb_spec 1 j); try reflexivity; lia.
Qed.
Lemma dof_form i : exists j r, i = (2 * j + r)%nat /\ (r < 2)%nat.
Proof. exists (i / 2)%nat, (i mod 2)%nat. split; [apply Nat.div_mod; lia|apply Nat.mod_upper_bound; lia]. Qed.
Lemma joined_ext et d d' f L th y : eq4 d d' -> joined et d f L th y -> joined et d' f L th y.
Proof.
  intros E [a1 a2 a3 a4 a5]. constructor; try assumption.
  - rewrite <- E by lia. exact a1.
  - rewrite <- E by lia. exact a2.
  - intros N. rewrite <- E by lia. exact (a3 N).
  - intros N. rewrite <- E by lia. exact (a4 N).
Qed.

Lemma forces_in L lds p : Forall (within_member L) lds -> In p (forces (actions L lds)) -> 0 <= snd p <= L.
Proof.
  induction 1 as [|ld lds W F IH]; [intros []|]. unfold actions. cbn [fold_right]. change (fold_right _ no_action lds) with (actions L lds).
  cbn [forces action_plus]. rewrite in_app_iff. intros [H|H]; [|exact (IH H)]. destruct W as [W _]. destruct ld; cbn in H; try contradiction.
  destruct H as [<-|[]]. exact W.
Qed.
Lemma moments_in L lds p : Forall (within_member L) lds -> In p (moments (actions L lds)) -> 0 <= snd p <= L.
Proof.
  induction 1 as [|ld lds W F IH]; [intros []|]. unfold actions. cbn [fold_right]. change (fold_right _ no_action lds) with (actions L lds).
  cbn [moments action_plus]. rewrite in_app_iff. intros [H|H]; [|exact (IH H)]. destruct W as [W _]. destruct ld; cbn in H; try contradiction.
  destruct H as [<-|[]]. exact W.
Qed.

Definition new_D (k : nat) (D : vec) (u r : R) : vec := fun i =>
  if Nat.leb i (2 * k + 1) then D i else if Nat.eqb i (2 * k + 2) then u else if Nat.eqb i (2 * k + 3) then r else D (i - 2)%nat.
Definition new_ef (k : nat) (ef : nat -> vec) (f1 f2 : vec) : nat -> vec := fun m =>
  if Nat.ltb m k then ef m else if Nat.eqb m k then f1 else if Nat.eqb m (S k) then f2 else ef (m - 1)%nat.

Lemma new_D_dof k D u r i : new_D k D u r (new_dof k i) = D i.
Proof.
  unfold new_D, new_dof. destruct (Nat.leb_spec i (2 * k + 1)) as [h|h].
  - destruct (Nat.leb_spec i (2 * k + 1)); [reflexivity|lia].
  - destruct (Nat.leb_spec (i + 2) (2 * k + 1)); [lia|]. destruct (Nat.eqb_spec (i + 2) (2 * k + 2)); [lia|]. destruct (Nat.eqb_spec (i + 2) (2 * k + 3)); [lia|].
    f_equal. lia.
Qed.
Lemma new_ef_member k ef f1 f2 m : m <> k -> new_ef k ef f1 f2 (new_member k m) = ef m.
Proof.
  intros N. unfold new_ef, new_member. destruct (Nat.leb_spec m k).
  - destruct (Nat.ltb_spec m k); [reflexivity|lia].
  - destruct (Nat.ltb_spec (S m) k); [lia|]. destruct (Nat.eqb_spec (S m) k); [lia|]. destruct (Nat.eqb_spec (S m) (S k)); [lia|]. f_equal. lia.
Qed.

Lemma inserted_bent b b' n k x D ef : node_inserted b b' n k x -> members b n prismatic -> exact_loads b' (S n) -> bent_beam b n D ef ->
  exists D' ef', bent_beam b' (S n) D' ef' /\ (forall i, D' (new_dof k i) = D i) /\ (forall m, m <> k -> ef' (new_member k m) = ef m) /\
    ef' k 0%nat = ef k 0%nat /\ ef' k 1%nat = ef k 1%nat /\ ef' (S k) 2%nat = ef k 2%nat /\ ef' (S k) 3%nat = ef k 3%nat /\
    moves_at b D k (ef k) x (D' (2 * k + 2)%nat) (D' (2 * k + 3)%nat).
Proof.
  intros N HP HX [B H]. destruct (B k (ni_span _ _ _ _ _ N)) as (V & M & mb & ls & ei & ga & th & y & A1 & A2 & A3 & A4 & Bk & Jk).
  destruct (ni_parts _ _ _ _ _ N mb A1) as (Hx & P1 & P2). destruct (ni_loads _ _ _ _ _ N ls A2) as (ls' & Els' & LM & LC). specialize (LC mb A1).
  assert (Hk := ni_span _ _ _ _ _ N). assert (P := HP k mb Hk A1).
  assert (W1 : Forall (within_member x) (loads_of ls' k)).
  { eapply Forall_impl; [|exact (HX k _ ls' ltac:(lia) P1 Els')]. intros ld [W _]. exact W. }
  assert (W2 : Forall (within_member (mb_L mb - x)) (loads_of ls' (S k))).
  { eapply Forall_impl; [|exact (HX (S k) _ ls' ltac:(lia) P2 Els')]. intros ld [W _]. exact W. }
  destruct (bent_cut (mb_L mb) x ei ga _ (imposed (loads_of ls' k)) (imposed (loads_of ls' (S k))) _ (actions x (loads_of ls' k)) (actions (mb_L mb - x) (loads_of ls' (S k))) (ef k) V M th y Hx Bk
    (lc_left _ _ _ _ _ LC) (lc_right _ _ _ _ _ LC) (lc_forces _ _ _ _ _ LC) (lc_moments _ _ _ _ _ LC)) as (s & m & V1 & M1 & V2 & M2 & B1 & B2).
  { intros p Hp. apply (forces_in _ _ _ W1 Hp). }
  { intros p Hp. apply (forces_in _ _ _ W2 Hp). }
  { intros p Hp. apply (moments_in _ _ _ W1 Hp). }
  { intros p Hp. apply (moments_in _ _ _ W2 Hp). }
  { exact (lc_bow_left _ _ _ _ _ LC). }
  { exact (lc_bow_right _ _ _ _ _ LC). }
  set (f1 := vec4 _ _ s m) in *. set (f2 := vec4 (- s) _ _ _) in *. set (D' := new_D k D (y x) (th x)). set (ef' := new_ef k ef f1 f2).
  assert (DD : forall i, D' (new_dof k i) = D i) by (intros i; apply new_D_dof).
  assert (DE : forall i, (i <= 2 * k + 1)%nat -> D' i = D i).
  { intros i Hi. rewrite <- (DD i). unfold new_dof. destruct (Nat.leb_spec i (2 * k + 1)); [reflexivity|lia]. }
  assert (DL : forall i, (2 * k + 2 <= i)%nat -> D' (i + 2)%nat = D i).
  { intros i Hi. rewrite <- (DD i). unfold new_dof. destruct (Nat.leb_spec i (2 * k + 1)); [lia|reflexivity]. }
  assert (Du : D' (2 * k + 2)%nat = y x).
  { unfold D', new_D. destruct (Nat.leb_spec (2 * k + 2) (2 * k + 1)); [lia|]. rewrite Nat.eqb_refl. reflexivity. }
  assert (Dr : D' (2 * k + 3)%nat = th x).
  { unfold D', new_D. destruct (Nat.leb_spec (2 * k + 3) (2 * k + 1)); [lia|]. destruct (Nat.eqb_spec (2 * k + 3) (2 * k + 2)); [lia|]. rewrite Nat.eqb_refl. reflexivity. }
  assert (EK : ef' k = f1) by (unfold ef', new_ef; destruct (Nat.ltb_spec k k); [lia|]; rewrite Nat.eqb_refl; reflexivity).
  assert (EK' : ef' (S k) = f2).
  { unfold ef', new_ef. destruct (Nat.ltb_spec (S k) k); [lia|]. destruct (Nat.eqb_spec (S k) k); [lia|]. rewrite Nat.eqb_refl. reflexivity. }
  assert (EM : forall q, q <> k -> ef' (new_member k q) = ef q) by (intros q Hq; apply new_ef_member; exact Hq).
  assert (EMl : forall q, (q < k)%nat -> ef' q = ef q).
  { intros q Hq. rewrite <- (EM q) by lia. unfold new_member. destruct (Nat.leb_spec q k); [reflexivity|lia]. }
  assert (EMr : forall q, (k < q)%nat -> ef' (S q) = ef q).
  { intros q Hq. rewrite <- (EM q) by lia. unfold new_member. destruct (Nat.leb_spec q k); [lia|reflexivity]. }
  exists D', ef'. split; [|split; [exact DD|split; [exact EM|]]].
  2:{ rewrite EK, EK'. repeat (split; [reflexivity|]). exists mb, ls, ei, ga, V, M, th, y. rewrite Du, Dr. auto 10. }
  assert (OTHER : forall q, (q < n)%nat -> q <> k -> exists V M, member_bends b' D' (new_member k q) (ef q) V M).
  { intros q Hq Nq. destruct (B q Hq) as (Vq & Mq & mbq & lsq & eq & gq & tq & yq & C1 & C2 & C3 & C4 & Bq & Jq).
    rewrite A2 in C2. inversion C2; subst lsq. exists Vq, Mq, mbq, ls', eq, gq, tq, yq. split; [exact (ni_members _ _ _ _ _ N q mbq Hq Nq C1)|].
    split; [exact Els'|]. split; [exact C3|]. split; [exact C4|]. rewrite (LM q Hq Nq). split; [exact Bq|]. eapply joined_ext; [|exact Jq].
    intros p Hp. unfold ends, new_member. destruct (Nat.leb_spec q k).
    - symmetry. apply DE. lia.
    - rewrite <- (DL (2 * q + p)%nat) by lia. f_equal. lia. }
  split.
  - intros q Hq. destruct (lt_eq_lt_dec q k) as [[h|h]|h].
    + destruct (OTHER q ltac:(lia) ltac:(lia)) as (Vq & Mq & Bq). unfold new_member in Bq. destruct (Nat.leb_spec q k); [|lia]. rewrite (EMl q h). eauto.
    + subst q. exists V1, M1, (left_part mb x), ls', ei, ga, th, y. split; [exact P1|]. split; [exact Els'|]. split; [exact A3|]. split; [exact A4|].
      rewrite EK. split; [exact B1|]. destruct Jk as [j1 j2 j3 j4 j5]. assert (T := pr_type _ P). cbn [left_part mb_type mb_L].
      constructor.
      * unfold ends. rewrite DE by lia. exact j1.
      * unfold ends. exact (eq_sym Du).
      * intros R. unfold ends. rewrite DE by lia. apply j3. intros R'. apply R. destruct (mb_type mb) as [|[|[|[|e]]]]; cbn in R' |- *; try lia.
      * intros _. unfold ends. exact (eq_sym Dr).
      * intros p. destruct (Nat.eqb_spec (mb_type mb) 3) as [E|E]; [|intros []]. cbn. intros ->. cbn. apply j5. rewrite E. reflexivity.
    + destruct (Nat.eq_dec q (S k)) as [->|Nq].
      * exists V2, M2, (right_part mb x), ls', ei, ga, (fun t => th (x + t)), (fun t => y (x + t)). split; [exact P2|]. split; [exact Els'|]. split; [exact A3|]. split; [exact A4|].
        rewrite EK'. split; [exact B2|]. destruct Jk as [j1 j2 j3 j4 j5]. assert (T := pr_type _ P). cbn [right_part mb_type mb_L].
        replace (x + (mb_L mb - x)) with (mb_L mb) by ring. constructor.
        -- rewrite Rplus_0_r. unfold ends. rewrite <- Du. f_equal. lia.
        -- replace (x + (mb_L mb - x)) with (mb_L mb) by ring. unfold ends. rewrite j2. unfold ends. rewrite <- (DL (2 * k + 2)%nat) by lia. f_equal. lia.
        -- intros _. rewrite Rplus_0_r. unfold ends. rewrite <- Dr. f_equal. lia.
        -- intros R. replace (x + (mb_L mb - x)) with (mb_L mb) by ring. rewrite j4; [unfold ends; rewrite <- (DL (2 * k + 3)%nat) by lia; f_equal; lia|].
           intros R'. apply R. destruct (mb_type mb) as [|[|[|[|e]]]]; cbn in R' |- *; try lia.
        -- intros p. destruct (Nat.eqb_spec (mb_type mb) 2) as [E|E]; [|intros []]. cbn. intros ->. cbn. apply j5. rewrite E. reflexivity.
      * destruct q as [|q]; [lia|]. destruct (OTHER q ltac:(lia) ltac:(lia)) as (Vq & Mq & Bq). unfold new_member in Bq. destruct (Nat.leb_spec q k); [lia|].
        rewrite (EMr q) by lia. eauto.
  - intros i Hi. destruct (le_lt_dec i (2 * k + 1)) as [h|h]; [|destruct (le_lt_dec i (2 * k + 3)) as [h'|h']].
    + destruct (ni_supports _ _ _ _ _ N i ltac:(lia)) as [S1 S2]. unfold new_dof in S1, S2. destruct (Nat.leb_spec i (2 * k + 1)); [|lia].
      specialize (H i ltac:(lia)). rewrite S2, (DE i h). unfold spring_force. rewrite S1. destruct (prescribed b i); [exact H|]. destruct (Rlt_dec (restraint b i) 0); [exact H|].
      refine (eq_trans _ H). destruct (dof_form i) as (j & r & -> & Hr). rewrite !nodal_at by exact Hr. f_equal.
      * destruct (Nat.ltb_spec j (S n)), (Nat.ltb_spec j n); try lia. destruct (Nat.eq_dec j k) as [->|]; [|rewrite EMl by lia; reflexivity].
        rewrite EK. destruct r as [|[|r]]; [reflexivity|reflexivity|lia].
      * destruct (Nat.leb_spec 1 j); [|reflexivity]. rewrite EMl by lia. reflexivity.
    + destruct (ni_free _ _ _ _ _ N i ltac:(lia)) as [S1 S2]. rewrite S2. unfold spring_force. rewrite S1. destruct (Rlt_dec 0 0); [lra|].
      destruct (dof_form i) as (j & r & -> & Hr). assert (j = S k) by lia. subst j. rewrite nodal_at by exact Hr.
      destruct (Nat.ltb_spec (S k) (S n)); [|lia]. destruct (Nat.leb_spec 1 (S k)); [|lia]. rewrite EK'. replace (S k - 1)%nat with k by lia. rewrite EK.
      destruct r as [|[|r]]; [cbn; ring|cbn; ring|lia].
    + destruct (ni_supports _ _ _ _ _ N (i - 2)%nat ltac:(lia)) as [S1 S2]. unfold new_dof in S1, S2. destruct (Nat.leb_spec (i - 2) (2 * k + 1)); [lia|].
      replace (i - 2 + 2)%nat with i in S1, S2 by lia. specialize (H (i - 2)%nat ltac:(lia)). assert (ED := DL (i - 2)%nat ltac:(lia)). replace (i - 2 + 2)%nat with i in ED by lia.
      rewrite S2, ED. unfold spring_force. rewrite S1. destruct (prescribed b (i - 2)); [exact H|]. destruct (Rlt_dec (restraint b (i - 2)) 0); [exact H|].
      refine (eq_trans _ H). destruct (dof_form i) as (j & r & -> & Hr). destruct j as [|j]; [lia|]. replace (2 * S j + r - 2)%nat with (2 * j + r)%nat by lia.
      rewrite !nodal_at by exact Hr. f_equal.
      * destruct (Nat.ltb_spec (S j) (S n)), (Nat.ltb_spec j n); try lia; [|reflexivity]. rewrite EMr by lia. reflexivity.
      * destruct (Nat.leb_spec 1 (S j)), (Nat.leb_spec 1 j); try lia. replace (S j - 1)%nat with j by lia.
        destruct (Nat.eq_dec j (S k)) as [->|]; [rewrite EK'; replace (S k - 1)%nat with k by lia; destruct r as [|[|r]]; [reflexivity|reflexivity|lia]|].
        destruct j as [|j]; [lia|]. rewrite EMr by lia. replace (S j - 1)%nat with j by lia. reflexivity.
Qed.
