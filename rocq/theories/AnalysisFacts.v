(** Closed forms of the analysis loops. *)
From Verif Require Import Base BaseFacts Linalg LinalgFacts SectionModel FlexModel LoadModel
  FoundationModel ElementModel UtilsModel BeamModel AnalysisModel ElementSpec AnalysisSpec.
Open Scope R_scope.

Definition scat (p : nat) (v : vec) (i : nat) : R :=
  if Nat.leb p i && Nat.ltb i (p + 4) then v (i - p)%nat else 0.
Definition blk (p : nat) (kb : mat) (i j : nat) : R :=
  if Nat.leb p i && Nat.ltb i (p + 4) then scat p (kb (i - p)%nat) j else 0.
Definition Kcl (kb : nat -> mat) (b : beam) (n : nat) (i j : nat) : R :=
  rsum n (fun m => blk (2 * m) (kb m) i j)
  + (if Nat.eqb i j then (if Rlt_dec 0 (restraint b i) then restraint b i else 0) else 0).
Definition fcl (rf : nat -> vec) (n : nat) (i : nat) : R :=
  - rsum n (fun m => scat (2 * m) (rf m) i).
Definition bcv (b : beam) (i : nat) : option R :=
  match prescribed b i with
  | Some v => Some v
  | None => if Rlt_dec (restraint b i) 0 then Some 0 else None
  end.

Lemma seq_snoc n : seq 0 (S n) = seq 0 n ++ [n].
Proof. rewrite seq_S. reflexivity. Qed.

Definition ext1 {X} (g : nat -> X) (n : nat) (x : X) : nat -> X := fun m => if Nat.eqb m n then x else g m.
Lemma ext1_eq {X} (g : nat -> X) n x : ext1 g n x n = x.
Proof. unfold ext1. now rewrite Nat.eqb_refl. Qed.
Lemma ext1_lt {X} (g : nat -> X) n x m : (m < n)%nat -> ext1 g n x m = g m.
Proof. intros H. unfold ext1. now rewrite (proj2 (Nat.eqb_neq m n)) by lia. Qed.

Section G.
Variable gl : nat -> list (R * R).

Lemma forces_closed b ls n f :
  foldM (fun f i => do m <- member_at b i; do r <- span_ref gl m (loads_of ls i); Ok (sub4 f (2 * i) r))
    (seq 0 n) (fun _ => 0) = Ok f ->
  exists rf, (forall m, (m < n)%nat -> exists mb, member_at b m = Ok mb /\ span_ref gl mb (loads_of ls m) = Ok (rf m))
    /\ forall i, f i = fcl rf n i.
Proof.
  revert f. induction n as [|n IH]; intros f Hf.
  - exists (fun _ _ => 0). split; [lia|]. injection Hf as <-. intros i. unfold fcl. cbn. ring.
  - rewrite seq_snoc, foldM_app in Hf. apply rbind_ok in Hf as (g & Hg & Hf).
    destruct (IH g Hg) as (rf & H1 & H2). cbn [foldM] in Hf.
    apply rbind_ok in Hf as (h & Hh & Hf). injection Hf as <-.
    apply rbind_ok in Hh as (mb & Hm & Hh). apply rbind_ok in Hh as (r & Hr & Hh). injection Hh as <-.
    exists (ext1 rf n r). split.
    + intros m Hlt. destruct (Nat.eq_dec m n) as [->|Hne].
      * exists mb. rewrite ext1_eq. auto.
      * rewrite ext1_lt by lia. apply H1. lia.
    + intros i. unfold fcl. cbn [rsum]. rewrite ext1_eq.
      rewrite (rsum_ext n _ (fun m => scat (2 * m) (rf m) i)) by (intros m Hm'; rewrite ext1_lt; auto).
      assert (E := H2 i). unfold fcl in E. unfold sub4, scat at 2. rewrite E.
      change (n + (n + 0))%nat with (2 * n)%nat. destruct (Nat.leb (2 * n) i && Nat.ltb i (2 * n + 4)); ring.
Qed.

Lemma forces_total b ls n rf :
  (forall m, (m < n)%nat -> exists mb, member_at b m = Ok mb /\ span_ref gl mb (loads_of ls m) = Ok (rf m)) ->
  exists f, foldM (fun f i => do m <- member_at b i; do r <- span_ref gl m (loads_of ls i); Ok (sub4 f (2 * i) r))
    (seq 0 n) (fun _ => 0) = Ok f.
Proof.
  induction n as [|n IH]; intros H.
  - eexists; reflexivity.
  - destruct IH as (f & Hf); [intros; apply H; lia|].
    rewrite seq_snoc, foldM_app, Hf. cbn [rbind foldM].
    destruct (H n) as (mb & -> & Hr); [lia|]. cbn [rbind]. rewrite Hr. cbn [rbind]. eexists; reflexivity.
Qed.

Lemma blocks_closed b n k :
  foldM (fun k i => do m <- member_at b i; do kb <- span_k gl m; Ok (add_block k (2 * i) kb))
    (seq 0 n) (fun _ _ => 0) = Ok k ->
  exists kb, (forall m, (m < n)%nat -> exists mb, member_at b m = Ok mb /\ span_k gl mb = Ok (kb m))
    /\ forall i j, k i j = rsum n (fun m => blk (2 * m) (kb m) i j).
Proof.
  revert k. induction n as [|n IH]; intros k Hk.
  - exists (fun _ _ _ => 0). split; [lia|]. injection Hk as <-. reflexivity.
  - rewrite seq_snoc, foldM_app in Hk. apply rbind_ok in Hk as (g & Hg & Hk).
    destruct (IH g Hg) as (kb & H1 & H2). cbn [foldM] in Hk.
    apply rbind_ok in Hk as (h & Hh & Hk). injection Hk as <-.
    apply rbind_ok in Hh as (mb & Hm & Hh). apply rbind_ok in Hh as (r & Hr & Hh). injection Hh as <-.
    exists (ext1 kb n r). split.
    + intros m Hlt. destruct (Nat.eq_dec m n) as [->|Hne].
      * exists mb. rewrite ext1_eq. auto.
      * rewrite ext1_lt by lia. apply H1. lia.
    + intros i j. cbn [rsum]. rewrite ext1_eq.
      rewrite (rsum_ext n _ (fun m => blk (2 * m) (kb m) i j)) by (intros m Hm'; rewrite ext1_lt; auto).
      assert (E := H2 i j). unfold add_block. rewrite E. change (n + (n + 0))%nat with (2 * n)%nat. set (S0 := rsum n _). unfold blk, scat.
      destruct (Nat.leb (2 * n) i && Nat.ltb i (2 * n + 4)); cbn [andb]; [|ring].
      destruct (_ && _); ring.
Qed.

Lemma blocks_total b n kb :
  (forall m, (m < n)%nat -> exists mb, member_at b m = Ok mb /\ span_k gl mb = Ok (kb m)) ->
  exists k, foldM (fun k i => do m <- member_at b i; do kb <- span_k gl m; Ok (add_block k (2 * i) kb))
    (seq 0 n) (fun _ _ => 0) = Ok k.
Proof.
  induction n as [|n IH]; intros H.
  - eexists; reflexivity.
  - destruct IH as (f & Hf); [intros; apply H; lia|].
    rewrite seq_snoc, foldM_app, Hf. cbn [rbind foldM].
    destruct (H n) as (mb & -> & Hr); [lia|]. cbn [rbind]. rewrite Hr. cbn [rbind]. eexists; reflexivity.
Qed.

Lemma springs_closed b N k k' :
  foldM (fun k i => do r <- get (b_R b) i;
     if Rltb 0 r then Ok (fun p q => if Nat.eqb p i && Nat.eqb q i then k p q + r else k p q) else Ok k)
    (seq 0 N) k = Ok k' ->
  (N <= length (b_R b))%nat /\
  forall i j, k' i j = k i j + (if Nat.eqb i j && Nat.ltb i N then (if Rlt_dec 0 (restraint b i) then restraint b i else 0) else 0).
Proof.
  revert k'. induction N as [|N IH]; intros k' Hk.
  - split; [lia|]. injection Hk as <-. intros i j. rewrite (proj2 (Nat.ltb_ge i 0)) by lia. rewrite andb_false_r. ring.
  - rewrite seq_snoc, foldM_app in Hk. apply rbind_ok in Hk as (g & Hg & Hk).
    destruct (IH g Hg) as [HN H2]. cbn [foldM] in Hk.
    apply rbind_ok in Hk as (h & Hh & Hk). injection Hk as <-.
    apply rbind_ok in Hh as (r & Hr & Hh).
    assert (Er : restraint b N = r) by (unfold restraint; eapply get_nth; eauto).
    apply get_ok in Hr. assert (HlN : (N < length (b_R b))%nat) by (apply nth_error_Some; congruence).
    split; [lia|]. intros i j.
    assert (C : (Nat.eqb i j && Nat.ltb i (S N))%bool = (Nat.eqb i j && Nat.ltb i N) || (Nat.eqb i N && Nat.eqb j N)).
    { destruct (Nat.eqb_spec i j), (Nat.ltb_spec i N), (Nat.ltb_spec i (S N)), (Nat.eqb_spec i N), (Nat.eqb_spec j N); cbn; auto; lia. }
    rewrite C.
    assert (D : (Nat.eqb i N && Nat.eqb j N)%bool = true -> (Nat.eqb i j && Nat.ltb i N)%bool = false /\ i = N).
    { destruct (Nat.eqb_spec i N); [|discriminate]. intros _. subst. rewrite Nat.ltb_irrefl, andb_false_r. auto. }
    unfold Rltb in Hh. destruct (Rlt_dec 0 r) as [Hp|Hp]; injection Hh as <-.
    + destruct (Nat.eqb i N && Nat.eqb j N) eqn:E.
      * destruct (D eq_refl) as [D1 ->]. rewrite H2, D1. cbn [orb]. rewrite Er.
        destruct (Rlt_dec 0 r); [ring|contradiction].
      * rewrite orb_false_r. apply H2.
    + rewrite H2. destruct (Nat.eqb i N && Nat.eqb j N) eqn:E.
      * destruct (D eq_refl) as [D1 ->]. rewrite D1. cbn [orb]. rewrite Er.
        destruct (Rlt_dec 0 r); [contradiction|ring].
      * rewrite orb_false_r. reflexivity.
Qed.

Lemma springs_total b N k : (N <= length (b_R b))%nat -> exists k',
  foldM (fun k i => do r <- get (b_R b) i;
     if Rltb 0 r then Ok (fun p q => if Nat.eqb p i && Nat.eqb q i then k p q + r else k p q) else Ok k)
    (seq 0 N) k = Ok k'.
Proof.
  induction N as [|N IH]; intros HN; [eexists; reflexivity|].
  destruct IH as (f & Hf); [lia|]. rewrite seq_snoc, foldM_app, Hf. cbn [rbind foldM].
  destruct (get_lt (b_R b) N) as (r & ->); [lia|]. cbn [rbind].
  destruct (Rltb 0 r); eexists; reflexivity.
Qed.

(** Data of the solved system: member stiffnesses and load vectors. *)
Record system (b : beam) (n : nat) (kb : nat -> mat) (rf : nat -> vec) : Prop := {
  sy_k : forall m, (m < n)%nat -> exists mb, member_at b m = Ok mb /\ span_k gl mb = Ok (kb m);
  sy_r : exists ls, parsed_loads b = Ok ls /\
    forall m, (m < n)%nat -> exists mb, member_at b m = Ok mb /\ span_ref gl mb (loads_of ls m) = Ok (rf m) }.

Lemma an_assemble_ok b n k : an_assemble gl b n = Ok k ->
  exists kb, (forall m, (m < n)%nat -> exists mb, member_at b m = Ok mb /\ span_k gl mb = Ok (kb m)) /\
    (2 * (n + 1) <= length (b_R b))%nat /\
    forall i j, (i < 2 * (n + 1))%nat -> k i j = Kcl kb b n i j.
Proof.
  unfold an_assemble. intros H. apply rbind_ok in H as (k0 & H0 & H).
  destruct (blocks_closed _ _ _ H0) as (kb & H1 & H2).
  destruct (springs_closed _ _ _ _ H) as (H3 & H4).
  exists kb. split; [exact H1|]. split; [exact H3|]. intros i j Hi. rewrite H4, H2. unfold Kcl.
  rewrite (proj2 (Nat.ltb_lt i _)) by exact Hi. rewrite andb_true_r. reflexivity.
Qed.

Lemma an_assemble_total b n kb :
  (forall m, (m < n)%nat -> exists mb, member_at b m = Ok mb /\ span_k gl mb = Ok (kb m)) ->
  (2 * (n + 1) <= length (b_R b))%nat ->
  exists k, an_assemble gl b n = Ok k /\ forall i j, (i < 2 * (n + 1))%nat -> k i j = Kcl kb b n i j.
Proof.
  intros H HR. destruct (blocks_total _ _ _ H) as (k0 & H0).
  destruct (springs_total b _ k0 HR) as (k & Hk).
  assert (HA : an_assemble gl b n = Ok k).
  { unfold an_assemble. rewrite H0. cbn [rbind]. exact Hk. }
  exists k. split; [exact HA|].
  destruct (an_assemble_ok _ _ _ HA) as (kb' & H1 & _ & H2). intros i j Hi. rewrite H2 by exact Hi.
  unfold Kcl. f_equal. apply rsum_ext. intros m Hm.
  destruct (H m Hm) as (mb & E1 & E2), (H1 m Hm) as (mb' & E1' & E2').
  replace (kb' m) with (kb m) by congruence. reflexivity.
Qed.

Lemma an_forces_ok b n f : an_forces gl b n = Ok f ->
  exists ls rf, parsed_loads b = Ok ls /\
    (forall m, (m < n)%nat -> exists mb, member_at b m = Ok mb /\ span_ref gl mb (loads_of ls m) = Ok (rf m)) /\
    forall i, f i = fcl rf n i.
Proof.
  unfold an_forces. intros H. apply rbind_ok in H as (ls & Hl & H).
  destruct (forces_closed _ _ _ _ H) as (rf & H1 & H2). eauto.
Qed.

Lemma an_forces_total b n ls rf : parsed_loads b = Ok ls ->
  (forall m, (m < n)%nat -> exists mb, member_at b m = Ok mb /\ span_ref gl mb (loads_of ls m) = Ok (rf m)) ->
  exists f, an_forces gl b n = Ok f /\ forall i, f i = fcl rf n i.
Proof.
  intros Hl H. destruct (forces_total _ _ _ _ H) as (f & Hf).
  assert (HA : an_forces gl b n = Ok f) by (unfold an_forces; rewrite Hl; exact Hf).
  exists f. split; [exact HA|]. destruct (an_forces_ok _ _ _ HA) as (ls' & rf' & E & H1 & H2).
  intros i. rewrite H2. unfold fcl. f_equal. apply rsum_ext. intros m Hm.
  destruct (H m Hm) as (mb & E1 & E2), (H1 m Hm) as (mb' & E1' & E2').
  replace (rf' m) with (rf m) by congruence. reflexivity.
Qed.
End G.

(** Boundary conditions. *)
Lemma bc_value_ok b i c : bc_value (b_R b) (b_D b) i = Ok c -> c = bcv b i /\ (i < length (b_D b))%nat.
Proof.
  unfold bc_value, bcv. intros H. apply rbind_ok in H as (d & Hd & H).
  unfold prescribed. rewrite (get_nth _ _ _ None Hd).
  apply get_ok in Hd. split; [|apply nth_error_Some; congruence].
  destruct d as [v|]; [congruence|]. apply rbind_ok in H as (r & Hr & H).
  unfold restraint. rewrite (get_nth _ _ _ 0 Hr). unfold Rltb in H.
  destruct (Rlt_dec r 0); congruence.
Qed.

Lemma bc_value_total b i : (i < length (b_D b))%nat -> (i < length (b_R b))%nat ->
  bc_value (b_R b) (b_D b) i = Ok (bcv b i).
Proof.
  intros HD HR. unfold bc_value. destruct (get_lt _ _ HD) as (d & Hd). rewrite Hd. cbn [rbind].
  unfold bcv, prescribed. rewrite (get_nth _ _ _ None Hd). destruct d as [v|]; [reflexivity|].
  destruct (get_lt _ _ HR) as (r & Hr). rewrite Hr. cbn [rbind].
  unfold restraint. rewrite (get_nth _ _ _ 0 Hr). unfold Rltb. destruct (Rlt_dec r 0); reflexivity.
Qed.

Definition isc (b : beam) (m i : nat) : bool :=
  Nat.ltb i m && match bcv b i with Some _ => true | None => false end.
Definition bval (b : beam) (i : nat) : R := match bcv b i with Some v => v | None => 0 end.

Lemma apply_bc_closed b m k f k' f' :
  an_apply_bc (b_R b) (b_D b) m k f = Ok (k', f') ->
  (m <= length (b_D b))%nat /\
  (forall i j, k' i j = if isc b m i || isc b m j then (if Nat.eqb i j then 1 else 0) else k i j) /\
  (forall i, f' i = if isc b m i then bval b i
             else f i - rsum m (fun j => (if isc b m j then k i j else 0) * bval b j)).
Proof.
  unfold an_apply_bc. revert k' f'. induction m as [|m IH]; intros k' f' Hk.
  - injection Hk as <- <-. split; [lia|]. assert (E : forall i, isc b 0 i = false) by (intros; reflexivity).
    split; intros; rewrite ?E; cbn; try reflexivity. ring.
  - rewrite seq_snoc, foldM_app in Hk. apply rbind_ok in Hk as ([k1 f1] & H1 & Hk).
    destruct (IH _ _ H1) as (HD & HK & HF). clear IH H1. cbn [foldM] in Hk.
    apply rbind_ok in Hk as ([k2 f2] & H2 & Hk). injection Hk as <- <-.
    apply rbind_ok in H2 as (c & Hc & H2). destruct (bc_value_ok _ _ _ Hc) as [-> HDm].
    split; [lia|]. cbn [fst snd] in H2.
    assert (Hlt : forall i, i <> m -> isc b (S m) i = isc b m i).
    { intros i Hi. unfold isc. f_equal. destruct (Nat.ltb_spec i (S m)), (Nat.ltb_spec i m); auto; lia. }
    assert (Hm0 : isc b m m = false) by (unfold isc; rewrite Nat.ltb_irrefl; reflexivity).
    destruct (bcv b m) as [v|] eqn:Ev.
    + assert (Hm1 : isc b (S m) m = true).
      { unfold isc. rewrite (proj2 (Nat.ltb_lt m (S m))) by lia. rewrite Ev. reflexivity. }
      assert (Hv : bval b m = v) by (unfold bval; rewrite Ev; reflexivity).
      unfold eliminate in H2. injection H2 as <- <-. split.
      * intros i j. destruct (Nat.eqb_spec i m) as [->|Hi], (Nat.eqb_spec j m) as [->|Hj]; cbn [andb orb].
        -- rewrite Hm1. cbn. rewrite Nat.eqb_refl. reflexivity.
        -- rewrite Hm1. cbn. rewrite (proj2 (Nat.eqb_neq m j)) by auto. reflexivity.
        -- rewrite Hm1, orb_true_r. rewrite (proj2 (Nat.eqb_neq i m)) by auto. reflexivity.
        -- rewrite !Hlt by auto. apply HK.
      * intros i. destruct (Nat.eqb_spec i m) as [->|Hi].
        -- rewrite Hm1, Hv. reflexivity.
        -- rewrite Hlt by auto. rewrite HF, HK, Hm0, orb_false_r.
           destruct (isc b m i) eqn:Ei.
           ++ rewrite (proj2 (Nat.eqb_neq i m)) by auto. ring.
           ++ cbn [rsum]. rewrite Hm1, Hv.
              rewrite (rsum_ext m (fun j => (if isc b (S m) j then k i j else 0) * bval b j)
                        (fun j => (if isc b m j then k i j else 0) * bval b j)).
              { ring. }
              intros j Hj. rewrite Hlt by lia. reflexivity.
    + assert (Hm1 : isc b (S m) m = false) by (unfold isc; rewrite Ev; apply andb_false_r).
      assert (Hall : forall i, isc b (S m) i = isc b m i).
      { intros i. destruct (Nat.eq_dec i m) as [->|]; [congruence|auto]. }
      injection H2 as <- <-. split.
      * intros i j. rewrite !Hall. apply HK.
      * intros i. rewrite Hall, HF. destruct (isc b m i); [reflexivity|].
        cbn [rsum]. rewrite Hall, Hm0.
        rewrite (rsum_ext m (fun j => (if isc b (S m) j then k i j else 0) * bval b j)
                  (fun j => (if isc b m j then k i j else 0) * bval b j)).
        { ring. }
        intros j Hj. rewrite Hall. reflexivity.
Qed.

Lemma apply_bc_total b m k f : (m <= length (b_D b))%nat -> (m <= length (b_R b))%nat ->
  exists kf, an_apply_bc (b_R b) (b_D b) m k f = Ok kf.
Proof.
  unfold an_apply_bc. induction m as [|m IH]; intros HD HR; [eexists; reflexivity|].
  destruct IH as (kf & Hkf); [lia|lia|]. rewrite seq_snoc, foldM_app, Hkf. cbn [rbind foldM].
  rewrite bc_value_total by lia. cbn [rbind]. destruct (bcv b m); eexists; reflexivity.
Qed.

(** Solutions of the eliminated system are the solutions of the constrained problem. *)
Lemma constrained_iff b N k f k' f' d :
  an_apply_bc (b_R b) (b_D b) N k f = Ok (k', f') ->
  ((forall i, (i < N)%nat -> mulmv N k' d i = f' i) <->
   (forall i, (i < N)%nat -> match bcv b i with Some v => d i = v | None => mulmv N k d i = f i end)).
Proof.
  intros H. destruct (apply_bc_closed _ _ _ _ _ _ H) as (_ & HK & HF).
  assert (C1 : forall i v, (i < N)%nat -> bcv b i = Some v -> isc b N i = true /\ bval b i = v).
  { intros i v Hi E. unfold isc, bval. rewrite E, (proj2 (Nat.ltb_lt i N)) by auto. auto. }
  assert (C0 : forall i, bcv b i = None -> isc b N i = false).
  { intros i E. unfold isc. rewrite E. apply andb_false_r. }
  assert (R1 : forall i v, (i < N)%nat -> bcv b i = Some v -> mulmv N k' d i = d i /\ f' i = v).
  { intros i v Hi E. destruct (C1 i v Hi E) as [E1 E2]. split.
    - unfold mulmv. rewrite (rsum_single N i).
      + rewrite HK, E1, Nat.eqb_refl. cbn. ring.
      + exact Hi.
      + intros j Hj Hne. rewrite HK, E1. cbn. rewrite (proj2 (Nat.eqb_neq i j)) by auto. ring.
    - rewrite HF, E1. exact E2. }
  assert (R0 : forall i, (i < N)%nat -> bcv b i = None ->
    (forall j, (j < N)%nat -> forall v, bcv b j = Some v -> d j = v) ->
    (mulmv N k' d i = f' i <-> mulmv N k d i = f i)).
  { intros i Hi E Hd.
    rewrite HF, (C0 i E).
    assert (Es : mulmv N k d i = mulmv N k' d i + rsum N (fun j => (if isc b N j then k i j else 0) * bval b j)).
    { unfold mulmv. rewrite <- rsum_plus. apply rsum_ext. intros j Hj. rewrite HK, (C0 i E). cbn [orb].
      destruct (isc b N j) eqn:Ej.
      - unfold isc in Ej. destruct (bcv b j) as [v|] eqn:Ev; [|rewrite andb_false_r in Ej; discriminate].
        destruct (C1 j v Hj Ev) as [_ Ebv]. rewrite Ebv, (Hd j Hj v Ev).
        destruct (Nat.eqb_spec i j) as [->|]; [congruence|]. ring.
      - ring. }
    rewrite Es. split; intros; lra. }
  split.
  - intros Hs.
    assert (Hd : forall j, (j < N)%nat -> forall v, bcv b j = Some v -> d j = v).
    { intros j Hj v Ev. destruct (R1 j v Hj Ev) as [A B]. rewrite <- A, <- B. auto. }
    intros i Hi. destruct (bcv b i) as [v|] eqn:Ev; [auto|]. apply (R0 i Hi Ev Hd). auto.
  - intros Hs.
    assert (Hd : forall j, (j < N)%nat -> forall v, bcv b j = Some v -> d j = v).
    { intros j Hj v Ev. specialize (Hs j Hj). rewrite Ev in Hs. exact Hs. }
    intros i Hi. destruct (bcv b i) as [v|] eqn:Ev.
    + destruct (R1 i v Hi Ev) as [A B]. rewrite A, B. auto.
    + apply (R0 i Hi Ev Hd). specialize (Hs i Hi). rewrite Ev in Hs. exact Hs.
Qed.

(** The eliminated matrix has a kernel exactly when the constrained homogeneous problem has. *)
Lemma kernel_iff b N k f k' f' y :
  an_apply_bc (b_R b) (b_D b) N k f = Ok (k', f') ->
  ((forall i, (i < N)%nat -> mulmv N k' y i = 0) <->
   (forall i, (i < N)%nat -> match bcv b i with Some _ => y i = 0 | None => mulmv N k y i = 0 end)).
Proof.
  intros H. destruct (apply_bc_closed _ _ _ _ _ _ H) as (_ & HK & _).
  assert (C1 : forall i v, (i < N)%nat -> bcv b i = Some v -> isc b N i = true).
  { intros i v Hi E. unfold isc. rewrite E, (proj2 (Nat.ltb_lt i N)) by auto. auto. }
  assert (C0 : forall i, bcv b i = None -> isc b N i = false).
  { intros i E. unfold isc. rewrite E. apply andb_false_r. }
  assert (R1 : forall i v, (i < N)%nat -> bcv b i = Some v -> mulmv N k' y i = y i).
  { intros i v Hi E. unfold mulmv. rewrite (rsum_single N i).
    + rewrite HK, (C1 i v Hi E), Nat.eqb_refl. cbn. ring.
    + exact Hi.
    + intros j Hj Hne. rewrite HK, (C1 i v Hi E). cbn. rewrite (proj2 (Nat.eqb_neq i j)) by auto. ring. }
  assert (R0 : forall i, (i < N)%nat -> bcv b i = None ->
    (forall j, (j < N)%nat -> forall v, bcv b j = Some v -> y j = 0) -> mulmv N k' y i = mulmv N k y i).
  { intros i Hi E Hd. apply rsum_ext. intros j Hj. rewrite HK, (C0 i E). cbn [orb].
    destruct (isc b N j) eqn:Ej; [|reflexivity].
    unfold isc in Ej. destruct (bcv b j) as [v|] eqn:Ev; [|rewrite andb_false_r in Ej; discriminate].
    rewrite (Hd j Hj v Ev). ring. }
  split.
  - intros Hs.
    assert (Hd : forall j, (j < N)%nat -> forall v, bcv b j = Some v -> y j = 0).
    { intros j Hj v Ev. rewrite <- (R1 j v Hj Ev). auto. }
    intros i Hi. destruct (bcv b i) as [v|] eqn:Ev; [eauto|]. rewrite <- (R0 i Hi Ev Hd). auto.
  - intros Hs.
    assert (Hd : forall j, (j < N)%nat -> forall v, bcv b j = Some v -> y j = 0).
    { intros j Hj v Ev. specialize (Hs j Hj). rewrite Ev in Hs. exact Hs. }
    intros i Hi. destruct (bcv b i) as [v|] eqn:Ev.
    + rewrite (R1 i v Hi Ev). eauto.
    + rewrite (R0 i Hi Ev Hd). specialize (Hs i Hi). rewrite Ev in Hs. exact Hs.
Qed.

(** Scattered blocks acting on a displacement vector. *)
Lemma scat_dot p v d N : (p + 4 <= N)%nat ->
  rsum N (fun j => scat p v j * d j) = rsum 4 (fun q => v q * d (p + q)%nat).
Proof.
  intros H. replace N with (p + (4 + (N - p - 4)))%nat by lia. rewrite !rsum_split.
  rewrite (rsum_0 p), (rsum_0 (N - p - 4)).
  - rewrite Rplus_0_l, Rplus_0_r. apply rsum_ext. intros q Hq. unfold scat.
    rewrite (proj2 (Nat.leb_le p (p + q))), (proj2 (Nat.ltb_lt (p + q) (p + 4))) by lia. cbn [andb].
    replace (p + q - p)%nat with q by lia. reflexivity.
  - intros i Hi. unfold scat. rewrite (proj2 (Nat.ltb_ge (p + (4 + i)) (p + 4))) by lia. rewrite andb_false_r. ring.
  - intros i Hi. unfold scat. rewrite (proj2 (Nat.leb_gt p i)) by lia. cbn. ring.
Qed.

Lemma blk_mul p kb d N i : (p + 4 <= N)%nat ->
  rsum N (fun j => blk p kb i j * d j) = scat p (mulmv 4 kb (fun q => d (p + q)%nat)) i.
Proof.
  intros H. unfold blk. unfold scat at 2. destruct (_ && _).
  - apply scat_dot. exact H.
  - apply rsum_0. intros; ring.
Qed.

Lemma Kcl_mul kb b n d i : (i < 2 * (n + 1))%nat ->
  mulmv (2 * (n + 1)) (Kcl kb b n) d i
  = rsum n (fun m => scat (2 * m) (end_forces (kb m) (ends d m)) i) - spring_force b i (d i).
Proof.
  intros Hi. unfold mulmv, Kcl.
  rewrite (rsum_ext _ _ (fun j => rsum n (fun m => blk (2 * m) (kb m) i j * d j)
     + (if Nat.eqb i j then (if Rlt_dec 0 (restraint b i) then restraint b i else 0) else 0) * d j)).
  2:{ intros j Hj. rewrite Rmult_plus_distr_r, rsum_scal_r. reflexivity. }
  rewrite rsum_plus, rsum_swap.
  rewrite (rsum_single _ i (fun j => (if Nat.eqb i j then _ else 0) * d j)).
  - rewrite Nat.eqb_refl. unfold spring_force, Rminus. f_equal.
    + apply rsum_ext. intros m Hm. rewrite blk_mul by lia. reflexivity.
    + destruct (Rlt_dec 0 (restraint b i)); ring.
  - exact Hi.
  - intros j Hj Hne. rewrite (proj2 (Nat.eqb_neq i j)) by auto. ring.
Qed.

Lemma scat_nodal ef n i : (i < 2 * (n + 1))%nat ->
  rsum n (fun m => scat (2 * m) (ef m) i) = nodal_sum n ef i.
Proof.
  intros Hi. unfold nodal_sum.
  assert (Ei : (i = 2 * (i / 2) + i mod 2)%nat) by (apply Nat.div_mod; lia).
  assert (Hr : (i mod 2 < 2)%nat) by (apply Nat.mod_upper_bound; lia).
  set (q := (i / 2)%nat) in *. set (r := (i mod 2)%nat) in *.
  assert (S0 : forall m, m <> q -> (m + 1 <> q)%nat -> scat (2 * m) (ef m) i = 0).
  { intros m H1 H2. unfold scat. destruct (Nat.leb_spec (2 * m) i), (Nat.ltb_spec i (2 * m + 4)); cbn; auto. lia. }
  assert (Sq : scat (2 * q) (ef q) i = ef q r).
  { unfold scat. rewrite (proj2 (Nat.leb_le _ _)), (proj2 (Nat.ltb_lt _ _)) by lia. cbn [andb]. f_equal. lia. }
  assert (Sp : (1 <= q)%nat -> scat (2 * (q - 1)) (ef (q - 1)%nat) i = ef (q - 1)%nat (2 + r)%nat).
  { intros. unfold scat. rewrite (proj2 (Nat.leb_le _ _)), (proj2 (Nat.ltb_lt _ _)) by lia. cbn [andb]. f_equal. lia. }
  destruct (Nat.ltb_spec i (2 * n)) as [Hl|Hl].
  - assert (Hq : (q < n)%nat) by lia.
    destruct (Nat.leb_spec 2 i) as [H2|H2].
    + assert (E : n = ((q - 1) + (2 + (n - q - 1)))%nat) by lia. rewrite E, !rsum_split.
      rewrite (rsum_0 (q - 1)), (rsum_0 (n - q - 1)).
      * cbn [rsum]. replace (q - 1 + 0)%nat with (q - 1)%nat by lia. replace (q - 1 + 1)%nat with q by lia.
        rewrite Sq, Sp by lia. ring.
      * intros m Hm. apply S0; lia.
      * intros m Hm. apply S0; lia.
    + rewrite (rsum_single n q).
      * rewrite Sq. ring.
      * lia.
      * intros m Hm Hne. apply S0; lia.
  - destruct (Nat.eq_dec n 0) as [->|Hn].
    { rewrite (proj2 (Nat.leb_gt 2 i)) by lia. cbn. ring. }
    rewrite (proj2 (Nat.leb_le 2 i)) by lia.
    rewrite (rsum_single n (q - 1)).
    + rewrite Sp by lia. ring.
    + lia.
    + intros m Hm Hne. apply S0; lia.
Qed.
