(** Facts about the animation of a traverse, and instances. *)
From Coq Require Import String Ascii Lra Lia.
From Verif Require Import Base BaseFacts Linalg SectionModel LoadModel LoadSpec FoundationModel ElementModel UtilsModel BeamModel BeamSpec AnalysisModel AnalysisSpec UnitsModel ResultsModel ResultsSpec ResultsFacts ShapeFacts CombFacts
  EnvelopeModel EnvelopeSpec EnvelopeFacts EnvReadModel EnvReadSpec EnvReadFacts ExportModel ExportSpec ExportFacts VehicleModel VehicleSpec BridgeModel BridgeSpec BridgeFacts BridgeFacts2 BridgeFacts3 BridgeFacts4 CritFacts InfModel ModalModel NonlinModel PlotModel PlotSpec PlotFacts PlotFacts2 PlotFacts3.
Open Scope R_scope.
Local Notation length := List.length.
Local Open Scope list_scope.

(** ** Running extremes *)
Definition kth (k : nat) (row : list R) : R := nth k row 0.
Lemma map2_kth (f : R -> R -> R) (a b : list R) n k : length a = n -> length b = n -> (k < n)%nat -> kth k (map2 f a b) = f (kth k a) (kth k b).
Proof.
  revert b n k. induction a as [|x a IH]; intros [|y b] n k H1 H2 Hk; cbn in *; try lia. destruct k as [|k]; [reflexivity|]. change (kth k (map2 f a b) = f (kth k a) (kth k b)). apply (IH b (pred n)); lia.
Qed.
Lemma map2_len (f : R -> R -> R) (a b : list R) n : length a = n -> length b = n -> length (map2 f a b) = n.
Proof. intros A B. unfold map2. rewrite map_length, combine_length. lia. Qed.
Lemma accumulate_nth f n rows : Forall (fun r => length r = n) rows -> forall acc i, length acc = n -> (i < length rows)%nat ->
  length (nth i (accumulate f acc rows) []) = n /\ forall k, (k < n)%nat -> kth k (nth i (accumulate f acc rows) []) = fold_left f (map (kth k) (firstn (S i) rows)) (kth k acc).
Proof.
  induction 1 as [|r rows Hr F IH]; intros acc i Ha Hi; [cbn in Hi; lia|]. cbn [accumulate]. destruct i as [|i].
  - cbn [nth firstn map fold_left]. split; [apply map2_len; assumption|]. intros k Hk. apply (map2_kth f acc r n); assumption.
  - cbn [nth]. cbn in Hi. destruct (IH (map2 f acc r) i (map2_len f acc r n Ha Hr) ltac:(lia)) as (L & K). split; [exact L|]. intros k Hk. rewrite (K k Hk), (map2_kth f acc r n k Ha Hr Hk). reflexivity.
Qed.
Lemma accumulate_length f acc rows : length (accumulate f acc rows) = length rows.
Proof. revert acc. induction rows as [|r rows IH]; intros acc; [reflexivity|]. cbn. rewrite IH. reflexivity. Qed.
Lemma accumulated_length f rows : length (accumulated f rows) = length rows.
Proof. destruct rows; [reflexivity|]. cbn. rewrite accumulate_length. reflexivity. Qed.
Lemma accumulated_nth f n rows i : Forall (fun r => length r = n) rows -> (i < length rows)%nat ->
  length (nth i (accumulated f rows) []) = n /\ forall k, (k < n)%nat -> exists c t, map (kth k) (firstn (S i) rows) = c :: t /\ kth k (nth i (accumulated f rows) []) = fold_left f t c.
Proof.
  intros F Hi. destruct F as [|r rows Hr F]; [cbn in Hi; lia|]. cbn [accumulated]. destruct i as [|i].
  - cbn. split; [exact Hr|]. intros k Hk. exists (kth k r), []. split; reflexivity.
  - cbn [nth]. cbn in Hi. destruct (accumulate_nth f n rows F r i Hr ltac:(lia)) as (L & K). split; [exact L|]. intros k Hk. exists (kth k r), (map (kth k) (firstn (S i) rows)). split; [reflexivity|]. apply K; exact Hk.
Qed.
Lemma running_max n rows i k : Forall (fun r => length r = n) rows -> (i < length rows)%nat -> (k < n)%nat -> greatest (map (kth k) (firstn (S i) rows)) (kth k (nth i (accumulated Rmax rows) [])).
Proof.
  intros F Hi Hk. destruct (accumulated_nth Rmax n rows i F Hi) as (_ & K). destruct (K k Hk) as (c & t & E & V). rewrite V, E. apply (row_max_greatest (c :: t)). discriminate.
Qed.
Lemma running_min n rows i k : Forall (fun r => length r = n) rows -> (i < length rows)%nat -> (k < n)%nat -> least (map (kth k) (firstn (S i) rows)) (kth k (nth i (accumulated Rmin rows) [])).
Proof.
  intros F Hi Hk. destruct (accumulated_nth Rmin n rows i F Hi) as (_ & K). destruct (K k Hk) as (c & t & E & V). rewrite V, E. apply (row_min_least (c :: t)). discriminate.
Qed.

(** The limits hold every row and every running extreme. *)
Lemma lims_strict lo hi : lo <> [] -> hi <> [] -> (forall y, In y hi -> exists z, In z lo /\ z <= y) -> exists l, lims lo hi = Ok l /\ (forall y, In y hi -> y < snd l) /\ (forall y, In y lo -> fst l < y).
Proof.
  intros A B C. destruct (row_min_least lo A) as (A1 & A2), (row_max_greatest hi B) as (B1 & B2). unfold lims, np_min, np_max. destruct lo as [|x lo]; [congruence|]. destruct hi as [|y hi]; [congruence|]. cbn [rbind].
  eexists. split; [reflexivity|]. cbn [fst snd]. set (u := row_min (x :: lo)) in *. set (w := row_max (y :: hi)) in *. clearbody u w.
  assert (S : 0 < (if Rltb u w then w - u else Rabs w + 1)) by (unfold Rltb; destruct (Rlt_dec u w); [lra|pose proof (Rabs_pos w); lra]).
  split; intros z Hz; [specialize (B2 z Hz)|specialize (A2 z Hz)]; nra.
Qed.
Lemma last_nth {A} (l : list A) d : last l d = nth (pred (length l)) l d.
Proof. induction l as [|a l IH]; [reflexivity|]. destruct l as [|b l]; [reflexivity|]. change (last (a :: b :: l) d) with (last (b :: l) d). rewrite IH. reflexivity. Qed.
Lemma in_nth_kth (l : list R) y : In y l -> exists k, (k < length l)%nat /\ kth k l = y.
Proof. intros H. apply (In_nth l y 0) in H as (k & A & B). exists k. split; assumption. Qed.
Lemma firstn_in {A} (l : list A) i a : In a (firstn i l) -> In a l.
Proof. intros H. rewrite <- (firstn_skipn i l). apply in_or_app. left. exact H. Qed.

Section Bands.
Variables (n : nat) (rows : list (list R)).
Hypothesis (F : Forall (fun r => length r = n) rows) (NE : rows <> []) (Hn : (0 < n)%nat).
Let hi := accumulated Rmax rows.
Let lo := accumulated Rmin rows.
Lemma rows_pos : (0 < length rows)%nat.
Proof. destruct rows; [congruence|cbn; lia]. Qed.
Lemma last_hi_len : length (last hi []) = n /\ length (last lo []) = n.
Proof.
  pose proof rows_pos. rewrite !last_nth. unfold hi, lo. rewrite !accumulated_length. split.
  - exact (proj1 (accumulated_nth Rmax n rows (pred (length rows)) F ltac:(lia))).
  - exact (proj1 (accumulated_nth Rmin n rows (pred (length rows)) F ltac:(lia))).
Qed.
Lemma last_hi_bound k r : (k < n)%nat -> In r rows -> kth k (last lo []) <= kth k r <= kth k (last hi []).
Proof.
  intros Hk Hr. pose proof rows_pos as P. rewrite !last_nth. unfold hi, lo. rewrite !accumulated_length.
  destruct (running_max n rows (pred (length rows)) k F ltac:(lia) Hk) as (_ & A). destruct (running_min n rows (pred (length rows)) k F ltac:(lia) Hk) as (_ & B).
  replace (S (pred (length rows))) with (length rows) in * by lia. rewrite firstn_all in *. split; [apply B|apply A]; apply in_map; exact Hr.
Qed.
Lemma bands_limited : exists l, lims (last lo []) (last hi []) = Ok l /\ (forall r y, In r rows -> In y r -> fst l < y < snd l) /\
  (forall i y, (i < length rows)%nat -> In y (nth i hi []) -> fst l < y < snd l) /\ (forall i y, (i < length rows)%nat -> In y (nth i lo []) -> fst l < y < snd l).
Proof.
  destruct last_hi_len as (LH & LL). destruct (lims_strict (last lo []) (last hi [])) as (l & E & A & B).
  - intros X. rewrite X in LL. cbn in LL. lia.
  - intros X. rewrite X in LH. cbn in LH. lia.
  - intros y Hy. apply in_nth_kth in Hy as (k & Hk & <-). rewrite LH in Hk. exists (kth k (last lo [])). split; [apply nth_In; rewrite LL; exact Hk|]. pose proof rows_pos. assert (In (nth 0 rows []) rows) as Hr by (apply nth_In; lia).
    pose proof (last_hi_bound k _ Hk Hr). lra.
  - assert (G : forall r y, In r rows -> In y r -> fst l < y < snd l).
    { intros r y Hr Hy. apply in_nth_kth in Hy as (k & Hk & <-). assert (LR : length r = n) by (rewrite Forall_forall in F; apply F; exact Hr). rewrite LR in Hk.
      pose proof (last_hi_bound k r Hk Hr). assert (kth k (last hi []) < snd l) by (apply A, nth_In; lia). assert (fst l < kth k (last lo [])) by (apply B, nth_In; lia). lra. }
    assert (H : forall m i k, In m (map (kth k) (firstn (S i) rows)) -> (k < n)%nat -> fst l < m < snd l).
    { intros m i k Hm Hk. apply in_map_iff in Hm as (r & <- & Hr). apply firstn_in in Hr. apply (G r); [exact Hr|]. apply nth_In. rewrite Forall_forall in F. rewrite (F r Hr). exact Hk. }
    exists l. split; [exact E|]. split; [exact G|]. split.
    + intros i y Hi Hy. apply in_nth_kth in Hy as (k & Hk & <-). unfold hi, lo in *. rewrite (proj1 (accumulated_nth Rmax n rows i F Hi)) in Hk. apply (H _ i k); [exact (proj1 (running_max n rows i k F Hi Hk))|exact Hk].
    + intros i y Hi Hy. apply in_nth_kth in Hy as (k & Hk & <-). unfold hi, lo in *. rewrite (proj1 (accumulated_nth Rmin n rows i F Hi)) in Hk. apply (H _ i k); [exact (proj1 (running_min n rows i k F Hi Hk))|exact Hk].
Qed.
End Bands.

Lemma so_far_of (ext : list R -> R -> Prop) (f : nat -> bres -> R) (h : bres -> list R) rs n i band : (forall k r, In r rs -> (k < n)%nat -> kth k (h r) = f k r) -> length band = n ->
  (forall k, (k < n)%nat -> ext (map (kth k) (firstn (S i) (map h rs))) (kth k band)) -> so_far ext f rs i n band.
Proof.
  intros H L K. split; [exact L|]. intros k Hk. specialize (K k Hk). replace (map (f k) (firstn (S i) rs)) with (map (kth k) (firstn (S i) (map h rs))); [exact K|].
  rewrite firstn_map, map_map. apply map_ext_in. intros r Hr. apply H; [eapply firstn_in; exact Hr|exact Hk].
Qed.

(** ** The frames *)
Definition Mh (r : bres) : list R := map Ropp (r_M (br_all r)).
Definition Vh (r : bres) : list R := r_V (br_all r).
Lemma effect_drawn L x ys lo hi lab : length ys = length x -> length lo = length x -> length hi = length x ->
  exists a, draw_effect L x ys lo hi lab = Ok a /\ page a = [beam_line L; ("0.55"%string, above x hi); ("0.55"%string, above x lo); ("r"%string, above x ys)] /\ ax_ylabel a = lab /\ ax_inverted a = false.
Proof.
  intros A B C. unfold draw_effect, zero_line. rewrite (plot_ok [0; L] [0; 0]) by reflexivity. cbn [rbind]. rewrite (plot_ok x hi) by congruence. cbn [rbind]. rewrite (plot_ok x lo) by congruence. cbn [rbind]. rewrite (plot_ok x ys) by congruence. cbn [rbind].
  eexists. split; [reflexivity|]. split; [rewrite page_up by reflexivity; reflexivity|split; reflexivity].
Qed.
Lemma mapM_seq {B} (f : nat -> result B) (P : nat -> B -> Prop) n : (forall i, (i < n)%nat -> exists b, f i = Ok b /\ P i b) -> exists bs, mapM f (seq 0 n) = Ok bs /\ Forall2 P (seq 0 n) bs.
Proof. intros H. apply mapM_nth. intros i Hi. apply in_seq in Hi. apply H. lia. Qed.
Lemma frames_drawn us L pos x rs : on_stations x rs -> x <> [] -> rs <> [] -> length pos = length rs ->
  exists fs, frames us L pos rs = Ok fs /\ Forall2 (frame_of us L pos x rs) (seq 0 (length pos)) fs.
Proof.
  intros O NX NE LP. unfold frames. destruct rs as [|r0 rs0] eqn:ERS; [congruence|]. rewrite <- ERS in *. assert (X0 : r_x (br_all r0) = x) by (subst rs; inversion O as [|? ? (A & _) _]; exact A).
  rewrite X0. fold Mh. fold Vh. change (fun r => map Ropp (r_M (br_all r))) with Mh. change (fun r => r_V (br_all r)) with Vh.
  assert (ON : forall r, In r rs -> length (Mh r) = length x /\ length (Vh r) = length x). { intros r Hr. unfold on_stations in O. rewrite Forall_forall in O. destruct (O r Hr) as (_ & A & B). unfold Mh, Vh. rewrite map_length. auto. }
  assert (FM : Forall (fun r => length r = length x) (map Mh rs)) by (apply Forall_forall; intros q Hq; apply in_map_iff in Hq as (r & <- & Hr); apply (ON r Hr)).
  assert (FV : Forall (fun r => length r = length x) (map Vh rs)) by (apply Forall_forall; intros q Hq; apply in_map_iff in Hq as (r & <- & Hr); apply (ON r Hr)).
  assert (HM : length (hd [] (map Mh rs)) = length x) by (rewrite ERS; cbn [map hd]; apply (ON r0); rewrite ERS; left; reflexivity).
  assert (HV : length (hd [] (map Vh rs)) = length x) by (rewrite ERS; cbn [map hd]; apply (ON r0); rewrite ERS; left; reflexivity).
  assert (CK : (forallb (fun row => Nat.eqb (length row) (length (hd [] (map Mh rs)))) (map Mh rs) && forallb (fun row => Nat.eqb (length row) (length (hd [] (map Vh rs)))) (map Vh rs))%bool = true).
  { rewrite HM, HV. apply Bool.andb_true_iff. split; apply forallb_forall; intros q Hq; apply Nat.eqb_eq; [rewrite Forall_forall in FM; auto|rewrite Forall_forall in FV; auto]. }
  rewrite CK. cbn [negb].
  assert (N0 : (0 < length x)%nat) by (destruct x; [congruence|cbn; lia]).
  assert (NM : map Mh rs <> []) by (rewrite ERS; discriminate). assert (NV : map Vh rs <> []) by (rewrite ERS; discriminate).
  destruct (bands_limited (length x) (map Mh rs) FM NM N0) as (lb & EB & B1 & B2 & B3). destruct (bands_limited (length x) (map Vh rs) FV NV N0) as (ls & ES & S1 & S2 & S3). rewrite !map_length in *.
  rewrite EB, ES. cbn [rbind]. apply mapM_seq. intros i Hi. rewrite LP in Hi.
  assert (IM : (i < length (map Mh rs))%nat) by (rewrite map_length; exact Hi). assert (IV : (i < length (map Vh rs))%nat) by (rewrite map_length; exact Hi).
  rewrite (get_nth_ok pos i 0) by lia. cbn [rbind]. rewrite (get_nth_ok (map Mh rs) i []) by exact IM. cbn [rbind]. rewrite (get_nth_ok (accumulated Rmin (map Mh rs)) i []), (get_nth_ok (accumulated Rmax (map Mh rs)) i []) by (rewrite accumulated_length; exact IM). cbn [rbind].
  set (r := nth i rs r0). assert (Hr : In r rs) by (apply nth_In; exact Hi). assert (NthM : nth i (map Mh rs) [] = Mh r) by (rewrite (nth_indep _ [] (Mh r0)) by exact IM; apply map_nth). assert (NthV : nth i (map Vh rs) [] = Vh r) by (rewrite (nth_indep _ [] (Vh r0)) by exact IV; apply map_nth).
  destruct (accumulated_nth Rmax _ _ i FM IM) as (LHM & _), (accumulated_nth Rmin _ _ i FM IM) as (LLM & _), (accumulated_nth Rmax _ _ i FV IV) as (LHV & _), (accumulated_nth Rmin _ _ i FV IV) as (LLV & _).
  rewrite NthM. destruct (ON r Hr) as (LM & LV).
  destruct (effect_drawn L x (Mh r) _ _ (moment_axis us) LM LLM LHM) as (am & EM & PM & YM & _). rewrite EM. cbn [rbind].
  rewrite (get_nth_ok (map Vh rs) i []) by exact IV. cbn [rbind]. rewrite (get_nth_ok (accumulated Rmin (map Vh rs)) i []), (get_nth_ok (accumulated Rmax (map Vh rs)) i []) by (rewrite accumulated_length; exact IV). cbn [rbind]. rewrite NthV.
  destruct (effect_drawn L x (Vh r) _ _ (shear_axis us) LV LLV LHV) as (av & EV & PV & YV & _). rewrite EV. cbn [rbind]. eexists. split; [reflexivity|].
  unfold frame_of. cbn [fr_pos fr_M fr_V fr_Mlim fr_Vlim]. change (page (set_xlabel (distance_axis us) av)) with (page av). rewrite PM, PV. split; [reflexivity|].
  assert (KM : forall k q, In q rs -> (k < length x)%nat -> kth k (Mh q) = - M_at k q). { intros k q Hq Hk. unfold kth, Mh, M_at. rewrite (nth_indep _ 0 (- 0)) by (rewrite map_length; destruct (ON q Hq) as (A & _); unfold Mh in A; rewrite map_length in A; lia). apply map_nth. }
  assert (KV : forall k q, In q rs -> (k < length x)%nat -> kth k (Vh q) = V_at k q) by (intros; reflexivity).
  split; [exists r; split; [apply nth_error_nth'; exact Hi|]; split|].
  - do 2 eexists. split; [reflexivity|]. split; (eapply (so_far_of _ _ Mh); [exact KM|assumption|]); intros k Hk; [apply (running_max (length x))|apply (running_min (length x))]; assumption.
  - do 2 eexists. split; [reflexivity|]. split; (eapply (so_far_of _ _ Vh); [exact KV|assumption|]); intros k Hk; [apply (running_max (length x))|apply (running_min (length x))]; assumption.
  - split.
    { intros c xs ys y Hy NK Yi. cbn [In] in Hy. destruct Hy as [Hy|[Hy|[Hy|[Hy|[]]]]]; injection Hy as <- <- <-; [congruence|apply (B2 i); assumption|apply (B3 i); assumption|apply (B1 (Mh r)); [apply in_map; exact Hr|exact Yi]]. }
    split.
    { intros c xs ys y Hy NK Yi. cbn [In] in Hy. destruct Hy as [Hy|[Hy|[Hy|[Hy|[]]]]]; injection Hy as <- <- <-; [congruence|apply (S2 i); assumption|apply (S3 i); assumption|apply (S1 (Vh r)); [apply in_map; exact Hr|exact Yi]]. }
    auto.
Qed.
