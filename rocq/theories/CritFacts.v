(** Facts about the critical values of a traverse. *)
From Coq Require Import Lia ZArith Sorted.
From Verif Require Import Base BaseFacts Linalg SectionModel FlexModel LoadModel LoadSpec FoundationModel ElementModel UtilsModel BeamModel BeamSpec AnalysisModel AnalysisSpec
  ResultsModel ResultsSpec ResultsFacts EnvelopeModel EnvelopeSpec EnvelopeFacts LoadCasesModel LoadCasesSpec LoadCasesFacts SegmentFacts
  VehicleModel VehicleSpec BridgeModel BridgeSpec.
Open Scope R_scope.
Local Notation length := List.length.

Lemma index_of_spec x l : In x l -> (index_of x l < length l)%nat /\ nth (index_of x l) l 0 = x /\ forall j, (j < index_of x l)%nat -> nth j l 0 <> x.
Proof.
  induction l as [|y l IH]; [intros []|]. intros H. cbn [index_of]. destruct (Reqb_spec y x) as [->|N].
  - cbn. split; [lia|]. split; [reflexivity|]. intros; lia.
  - destruct H as [H|H]; [contradiction|]. destruct (IH H) as (A & B & C). cbn. split; [lia|]. split; [exact B|]. intros [|j] Hj; [exact N|]. apply C. lia.
Qed.
Lemma row_max_greatest l : l <> [] -> greatest l (row_max l).
Proof.
  destruct l as [|a l]; [congruence|]. intros _. cbn [row_max]. destruct (fold_Rmax_spec l a) as (A & B & C). cbn zeta in *. split.
  - destruct C as [C|C]; [left; auto|right; exact C].
  - intros x [<-|H]; [exact A|apply B; exact H].
Qed.
Lemma row_min_least l : l <> [] -> least l (row_min l).
Proof.
  destruct l as [|a l]; [congruence|]. intros _. cbn [row_min]. destruct (fold_Rmin_spec l a) as (A & B & C). cbn zeta in *. split.
  - destruct C as [C|C]; [left; auto|right; exact C].
  - intros x [<-|H]; [exact A|apply B; exact H].
Qed.
Lemma close_list (P : R -> bool) es : forall s, let js := map fst (filter (fun p => P (snd p)) (combine (seq s (length es)) es)) in
  StronglySorted lt js /\ forall j, In j js <-> (s <= j < s + length es)%nat /\ P (nth (j - s) es 0) = true.
Proof.
  induction es as [|x es IH]; intros s; cbn [length seq combine filter map].
  - split; [constructor|]. intros j. split; [intros []|intros [H _]; lia].
  - destruct (IH (S s)) as [A B]. cbn zeta in *. set (js := map fst (filter (fun p => P (snd p)) (combine (seq (S s) (length es)) es))) in *.
    assert (BB : forall j, In j js -> (s < j)%nat) by (intros j Hj; apply B in Hj; lia).
    assert (K : forall j, In j js <-> (S s <= j < s + S (length es))%nat /\ P (nth (j - s) (x :: es) 0) = true).
    { intros j. rewrite B. split.
      - intros [H1 H2]. split; [lia|]. replace (j - s)%nat with (S (j - S s)) by lia. exact H2.
      - intros [H1 H2]. split; [lia|]. replace (j - s)%nat with (S (j - S s)) in H2 by lia. exact H2. }
    cbn [snd]. destruct (P x) eqn:E; cbn [map fst]; fold js.
    + split; [constructor; [exact A|apply Forall_forall; exact BB]|]. intros j. cbn [In]. rewrite K. split.
      * intros [<-|[H1 H2]]; [split; [lia|]; rewrite Nat.sub_diag; exact E|split; [lia|exact H2]].
      * intros [H1 H2]. destruct (Nat.eq_dec s j); [left; assumption|right; split; [lia|exact H2]].
    + split; [exact A|]. intros j. rewrite K. split.
      * intros [H1 H2]. split; [lia|exact H2].
      * intros [H1 H2]. split; [|exact H2]. destruct (Nat.eq_dec s j) as [<-|]; [|lia]. rewrite Nat.sub_diag in H2. cbn in H2. congruence.
Qed.
Lemma mapM_const {A B} (f : A -> result B) (h : A -> B) l : (forall x, In x l -> f x = Ok (h x)) -> mapM f l = Ok (map h l).
Proof.
  induction l as [|x l IH]; intros H; [reflexivity|]. cbn [mapM map]. rewrite (H x) by (left; reflexivity). cbn [rbind]. rewrite IH by (intros; apply H; right; assumption). reflexivity.
Qed.
Lemma get_nth {A} (l : list A) i d : (i < length l)%nat -> get l i = Ok (nth i l d).
Proof. intros H. unfold get. rewrite (nth_error_nth' l d H). reflexivity. Qed.
Lemma isclose_close x y : isclose 1e-5 1e-8 x y = true <-> close x y.
Proof. apply isclose_iff. Qed.

Section Ext.
Variable le : R -> R -> Prop.
Variable ext : list R -> R.
Hypothesis antisym : forall x y, le x y -> le y x -> x = y.
Hypothesis ext_in : forall l, l <> [] -> In (ext l) l.
Hypothesis ext_le : forall l x, In x l -> le x (ext l).
Definition extreme (l : list R) (m : R) : Prop := In m l /\ forall x, In x l -> le x m.
Definition bound (f : bres -> R) (vr : list bres) (m : R) : Prop := le 0 m /\ (forall a, In a vr -> le (f a) m) /\ (m = 0 \/ exists a, In a vr /\ f a = m).
Hypothesis le_trans : forall x y z, le x y -> le y z -> le x z.

Lemma extreme_ext l m : extreme l m -> m = ext l.
Proof. intros [A B]. apply antisym; [apply ext_le; exact A|apply B, ext_in]. intros ->. destruct A. Qed.

Lemma crit_one (g : bridge) (f h : bres -> list R) xs C co vr n (rext : list R -> result R) :
  (forall l, l <> [] -> rext l = Ok (ext l)) ->
  (0 < n)%nat -> vr <> [] -> (forall r, In r vr -> length (f r) = n /\ nth 0 (f r) 0 = 0) -> length C = n -> length co = n -> length xs = n ->
  (forall k, (k < n)%nat -> bound (fun r => nth k (f r) 0) vr (nth k C 0)) ->
  (forall k, (k < n)%nat -> companion (fun r => nth k (f r) 0) (fun r => nth k (h r) 0) vr (nth k C 0) (nth k co 0)) ->
  bg_results g = vr -> length (bg_pos g) = length vr ->
  exists idx c, rext C = Ok (ext C) /\ close_runs f rext (ext C) (bg_results g) = Ok idx /\ idx <> [] /\
    one_crit g xs C co (fun l => index_of (ext l) l) (ext C) idx = Ok c /\ governs extreme f h xs (bg_pos g) vr c.
Proof.
  intros RX Hn Hvr HF HC Hco Hxs HB HK HR HP. set (v := ext C). set (k := index_of v C).
  assert (NC : C <> []) by (intros E; rewrite E in HC; cbn in HC; lia).
  destruct (index_of_spec v C (ext_in C NC)) as (Hk & Ek & Fk). fold k in Hk, Ek, Fk.
  assert (NF : forall r, In r vr -> f r <> []) by (intros r Hr E; destruct (HF r Hr) as [L _]; rewrite E in L; cbn in L; lia).
  (* all values are bounded by v *)
  assert (AB : forall r x, In r vr -> In x (f r) -> le x v).
  { intros r x Hr Hx. destruct (HF r Hr) as [L _]. apply (In_nth _ _ 0) in Hx. destruct Hx as (i & Hi & <-). destruct (HB i ltac:(lia)) as (_ & B & _).
    apply le_trans with (nth i C 0); [apply B; exact Hr|]. apply ext_le, nth_In. lia. }
  (* attained at station k *)
  assert (AT : exists r, In r vr /\ nth k (f r) 0 = v /\ (v <> 0 -> nth k (h r) 0 = nth k co 0)).
  { destruct (Req_EM_T v 0) as [Z|Z].
    - assert (k = 0)%nat as ->.
      { destruct k as [|k']; [reflexivity|]. exfalso. apply (Fk 0%nat ltac:(lia)). rewrite Z. apply antisym.
        - rewrite <- Z. apply ext_le, nth_In. lia.
        - apply (HB 0%nat Hn). }
      destruct vr as [|r vr']; [congruence|]. exists r. split; [left; reflexivity|]. split; [|intros X; contradiction]. rewrite Z. apply HF. left. reflexivity.
    - destruct (HK k ltac:(lia)) as (r & Hr & E1 & E2); [rewrite Ek; exact Z|]. exists r. rewrite Ek in E1. auto. }
  assert (GV : extreme (flat_map f vr) v).
  { split.
    - destruct AT as (r & Hr & E & _). apply in_flat_map. exists r. split; [exact Hr|]. rewrite <- E. apply nth_In. destruct (HF r Hr) as [-> _]. lia.
    - intros x Hx. apply in_flat_map in Hx. destruct Hx as (r & Hr & Hx). exact (AB r x Hr Hx). }
  set (es := map (fun r => ext (f r)) vr).
  assert (EM : mapM (fun r => rext (f r)) (bg_results g) = Ok es).
  { rewrite HR. apply mapM_const. intros r Hr. apply RX, NF, Hr. }
  assert (LE : length es = length vr) by (unfold es; apply map_length).
  destruct (close_list (fun x => isclose 1e-5 1e-8 x v) es 0) as [SS IN]. cbn zeta in SS, IN.
  set (idx := map fst (filter (fun p => isclose 1e-5 1e-8 (snd p) v) (combine (seq 0 (length es)) es))) in *.
  assert (ECR : close_runs f rext v (bg_results g) = Ok idx).
  { unfold close_runs. rewrite EM. cbn [rbind]. rewrite HR, <- LE. reflexivity. }
  assert (EN : forall j, (j < length vr)%nat -> exists r, In r vr /\ nth j (map f vr) [] = f r /\ nth j (map h vr) [] = h r /\ nth j es 0 = ext (f r)).
  { intros j Hj. destruct (nth_error vr j) as [r|] eqn:E; [|apply nth_error_None in E; lia]. exists r. split; [eapply nth_error_In; exact E|].
    assert (X : forall (T : Type) (q : bres -> T) d, nth j (map q vr) d = q r) by (intros T q d; apply nth_error_nth; rewrite nth_error_map, E; reflexivity).
    unfold es. rewrite !X. auto. }
  destruct AT as (r0 & Hr0 & E0 & C0). destruct (In_nth_error _ _ Hr0) as (j0 & Hj0).
  assert (J0 : (j0 < length vr)%nat) by (apply nth_error_Some; congruence).
  assert (X0 : forall (T : Type) (q : bres -> T) d, nth j0 (map q vr) d = q r0) by (intros T q d; apply nth_error_nth; rewrite nth_error_map, Hj0; reflexivity).
  assert (IJ : In j0 idx).
  { apply IN. split; [lia|]. rewrite Nat.sub_0_r. unfold es. rewrite X0.
    replace (ext (f r0)) with v; [apply isclose_close; unfold close; rewrite Rminus_eq_0, Rabs_R0; pose proof (Rabs_pos v); lra|].
    apply antisym; [|apply (AB r0); [exact Hr0|apply ext_in, NF, Hr0]]. apply ext_le. rewrite <- E0. apply nth_In. destruct (HF r0 Hr0) as [-> _]. lia. }
  assert (EP : mapM (get (bg_pos g)) idx = Ok (map (fun j => nth j (bg_pos g) 0) idx)).
  { apply mapM_const. intros j Hj. apply get_nth. apply IN in Hj. lia. }
  exists idx. eexists. split; [apply RX; exact NC|]. split; [exact ECR|]. split; [intros X; rewrite X in IJ; destruct IJ|]. split.
  - unfold one_crit. fold v k. rewrite (get_nth xs k 0) by lia. cbn [rbind]. rewrite EP. cbn [rbind]. rewrite (get_nth co k 0) by lia. cbn [rbind]. reflexivity.
  - constructor; cbn [cr_val cr_at cr_pos cr_co].
    + exact GV.
    + exists k, j0. split; [lia|]. split; [exact J0|]. split; [reflexivity|]. rewrite !X0. split; [exact E0|]. split; [|exact C0].
      apply in_map_iff. exists j0. auto.
    + exists idx. split; [reflexivity|]. split; [exact SS|]. intros j. rewrite IN. rewrite Nat.sub_0_r, LE. split.
      * intros [Hj Hc]. split; [lia|]. destruct (EN j ltac:(lia)) as (r & Hr & -> & _ & E). exists (ext (f r)). split; [split; [apply ext_in, NF, Hr|apply ext_le]|].
        rewrite <- E. apply isclose_close, Hc.
      * intros (Hj & m & Em & Hc). split; [lia|]. destruct (EN j Hj) as (r & Hr & Ef & _ & E). rewrite Ef in Em. rewrite E, <- (extreme_ext _ _ Em). apply isclose_close, Hc.
Qed.

(** Reactions: [z] is the larger (smaller) of zero and the argument. *)
Lemma reaction_one (g : bridge) (z : R -> R) i vr (rext : list R -> result R) : (forall l, l <> [] -> rext l = Ok (ext l)) ->
  (forall x, z x = 0 \/ z x = x) -> vr <> [] -> length (bg_pos g) = length vr ->
  let row := map (fun r => z (R_at i r)) vr in
  exists p, reaction_crit g rext (fun l => index_of (ext l) l) row = Ok (ext row, p) /\
    exists j, (j < length vr)%nat /\ p = nth j (bg_pos g) 0 /\ (ext row <> 0 -> nth i (nth j (map br_R vr) []) 0 = ext row).
Proof.
  intros RX Hz Hvr HP row. assert (N : row <> []) by (unfold row; destruct vr; [congruence|discriminate]).
  destruct (index_of_spec (ext row) row (ext_in _ N)) as (Hk & Ek & _). set (k := index_of (ext row) row) in *.
  assert (L : length row = length vr) by (unfold row; apply map_length).
  unfold reaction_crit. rewrite RX by exact N. cbn [rbind]. fold k. rewrite (get_nth (bg_pos g) k 0) by lia. cbn [rbind]. eexists. split; [reflexivity|].
  exists k. split; [lia|]. split; [reflexivity|]. intros NZ. destruct (nth_error vr k) as [r|] eqn:E; [|apply nth_error_None in E; lia].
  assert (X : forall (T : Type) (q : bres -> T) d, nth k (map q vr) d = q r) by (intros T q d; apply nth_error_nth; rewrite nth_error_map, E; reflexivity).
  rewrite X. unfold row in Ek at 1. rewrite X in Ek. destruct (Hz (R_at i r)) as [Y|Y]; [rewrite Y in Ek; congruence|]. rewrite <- Ek, Y. reflexivity.
Qed.
End Ext.
