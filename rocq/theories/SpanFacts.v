(** Facts about the per-span values of an envelope. *)
From Coq Require Import String Lia.
From Verif Require Import Base BaseFacts SectionModel LoadModel ElementModel BeamModel AnalysisModel AnalysisFacts ResultsModel ResultsSpec ResultsFacts ShapeFacts EnvelopeModel EnvelopeSpec EnvelopeFacts BridgeSpec CritFacts CombFacts SpanModel SpanSpec.
Open Scope R_scope.
Local Notation length := List.length.
Local Open Scope list_scope.

Lemma chunks_cut : forall ms vs, length vs = list_sum (map (fun m => length (r_x m)) ms) -> cut ms vs (chunks (map (fun m => length (r_x m)) ms) vs).
Proof.
  induction ms as [|m ms IH]; intros vs H; cbn [map chunks].
  - destruct vs; [split; [reflexivity|constructor]|discriminate].
  - change (list_sum (map (fun m => length (r_x m)) (m :: ms))) with (length (r_x m) + list_sum (map (fun m => length (r_x m)) ms))%nat in H.
    destruct (IH (skipn (length (r_x m)) vs)) as [A B]; [rewrite skipn_length; lia|]. split.
    + cbn [concat]. rewrite A. apply firstn_skipn.
    + constructor; [|exact B]. rewrite firstn_length. lia.
Qed.
Lemma cut_unique ms : forall vs cs cs', cut ms vs cs -> cut ms vs cs' -> cs = cs'.
Proof.
  induction ms as [|m ms IH]; intros vs cs cs' [A B] [A' B'].
  - inversion B. inversion B'. reflexivity.
  - destruct cs as [|y t]; [inversion B|]. destruct cs' as [|z t']; [inversion B'|].
    assert (L1 : length y = length (r_x m) /\ Forall2 (fun m c => length c = length (r_x m)) ms t) by (inversion B; auto).
    assert (L2 : length z = length (r_x m) /\ Forall2 (fun m c => length c = length (r_x m)) ms t') by (inversion B'; auto).
    destruct L1 as [L1 F1], L2 as [L2 F2]. cbn [concat] in A, A'. rewrite <- A in A'.
    assert (E : z = y /\ concat t' = concat t).
    { clear - L1 L2 A'. assert (L : length z = length y) by congruence. clear L1 L2. revert z L A'. induction y as [|a y IH]; intros [|b z] L E; cbn in *; try discriminate; [auto|].
      injection L as L. injection E as -> E. destruct (IH z L E) as [-> ->]. auto. }
    destruct E as [-> E]. f_equal. apply (IH (concat t)); split; auto.
Qed.
Lemma chunks_len cs : forall vs, length (chunks cs vs) = length cs.
Proof. induction cs as [|c cs IH]; intros vs; cbn; [reflexivity|]. rewrite IH. reflexivity. Qed.
Lemma skipn_twice {A} b : forall a (l : list A), skipn a (skipn b l) = skipn (b + a) l.
Proof. induction b as [|b IH]; intros a l; [reflexivity|]. destruct l as [|x l]; cbn [skipn Nat.add]; [destruct a; reflexivity|apply IH]. Qed.
Lemma chunks_nth cs : forall vs i c, nth_error cs i = Some c -> nth_error (chunks cs vs) i = Some (firstn c (skipn (list_sum (firstn i cs)) vs)).
Proof.
  induction cs as [|d cs IH]; intros vs [|i] c H; cbn [nth_error chunks] in *; try discriminate.
  - injection H as ->. reflexivity.
  - rewrite (IH _ _ _ H). change (list_sum (firstn (S i) (d :: cs))) with (d + list_sum (firstn i cs))%nat. rewrite skipn_twice. reflexivity.
Qed.
Lemma nth_firstn (l : list R) : forall n k, (k < n)%nat -> nth k (firstn n l) 0 = nth k l 0.
Proof. induction l as [|x l IH]; intros [|n] [|k] H; try lia; cbn; try reflexivity. apply IH. lia. Qed.
Lemma nth_skipn (l : list R) : forall n k, nth k (skipn n l) 0 = nth (n + k) l 0.
Proof. induction l as [|x l IH]; intros [|n] k; cbn; try reflexivity; [destruct k; reflexivity|apply IH]. Qed.
Lemma flat_nth (f : mres -> list R) ms : Forall (fun m => length (f m) = length (r_x m)) ms -> forall i m k, nth_error ms i = Some m -> (k < length (r_x m))%nat ->
  nth (list_sum (firstn i (map (fun m => length (r_x m)) ms)) + k) (flat_map f ms) 0 = nth k (f m) 0.
Proof.
  induction 1 as [|a ms Ha F IH]; intros [|i] m k H Hk; cbn [nth_error] in H; try discriminate.
  - injection H as ->. cbn [firstn map flat_map]. change (list_sum []) with 0%nat. cbn [Nat.add]. rewrite app_nth1 by lia. reflexivity.
  - cbn [map firstn flat_map]. change (list_sum (length (r_x a) :: firstn i (map (fun m => length (r_x m)) ms))) with (length (r_x a) + list_sum (firstn i (map (fun m => length (r_x m)) ms)))%nat.
    rewrite app_nth2 by lia. rewrite <- (IH i m k H Hk), Ha. f_equal. lia.
Qed.
Lemma flat_len (f : mres -> list R) ms : Forall (fun m => length (f m) = length (r_x m)) ms -> length (flat_map f ms) = list_sum (map (fun m => length (r_x m)) ms).
Proof. induction 1 as [|a ms Ha F IH]; [reflexivity|]. cbn [flat_map map]. rewrite app_length, IH, Ha. reflexivity. Qed.
Lemma reduced k cs vs : mapM (reduce_chunk k) cs = Ok vs -> Forall2 (match k with RedMax => greatest | RedMin => least end) cs vs.
Proof.
  revert vs. induction cs as [|c cs IH]; intros vs H; cbn [mapM] in H; [apply ok_inj in H; subst; constructor|].
  apply rbind_ok in H as (v & Hv & H). apply rbind_ok in H as (t & Ht & H). apply ok_inj in H. subst vs. constructor; [|exact (IH t Ht)].
  unfold reduce_chunk in Hv. destruct c as [|x c]; [discriminate|]. apply ok_inj in Hv. subst v. destruct k; [apply row_max_greatest|apply row_min_least]; discriminate.
Qed.
Lemma reduce_total k cs : Forall (fun c : list R => c <> []) cs -> exists vs, mapM (reduce_chunk k) cs = Ok vs.
Proof. induction 1 as [|c cs N F (vs & IH)]; cbn [mapM]; [eexists; reflexivity|]. destruct c as [|x c]; [congruence|]. cbn [reduce_chunk rbind]. rewrite IH. eexists. reflexivity. Qed.

(** ** Names ending in "min" *)
Local Open Scope string_scope.
Lemma append_length p q : String.length (p ++ q) = (String.length p + String.length q)%nat.
Proof. induction p as [|c p IH]; cbn; congruence. Qed.
Lemma substring_whole s : forall n, (String.length s <= n)%nat -> substring 0 n s = s.
Proof. induction s as [|c s IH]; intros [|n] H; cbn in *; try reflexivity; try lia. rewrite IH by lia. reflexivity. Qed.
Lemma substring_after p q : substring (String.length p) (String.length q) (p ++ q) = q.
Proof. induction p as [|c p IH]; cbn [String.length append substring]; [|exact IH]. apply substring_whole. lia. Qed.
Lemma substring_split s : forall k, (k <= String.length s)%nat -> s = substring 0 k s ++ substring k (String.length s - k) s.
Proof.
  induction s as [|c s IH]; intros [|k] H; cbn [String.length substring Nat.sub append] in *; try reflexivity; try lia.
  - f_equal. symmetry. apply substring_whole. lia.
  - f_equal. apply IH. lia.
Qed.
Lemma ends_with_spec suf s : ends_with suf s = true <-> exists p, s = p ++ suf.
Proof.
  unfold ends_with. rewrite String.eqb_eq. split.
  - intros H. destruct (Nat.le_gt_cases (String.length suf) (String.length s)) as [L|L].
    + exists (substring 0 (String.length s - String.length suf) s). rewrite <- H at 2. rewrite (substring_split s (String.length s - String.length suf)) at 1 by lia.
      replace (String.length s - (String.length s - String.length suf))%nat with (String.length suf) by lia. reflexivity.
    + replace (String.length s - String.length suf)%nat with 0%nat in H by lia. rewrite substring_whole in H by lia. exists "". exact H.
  - intros (p & ->). rewrite append_length. replace (String.length p + String.length suf - String.length suf)%nat with (String.length p) by lia. apply substring_after.
Qed.
Local Close Scope string_scope.

(** ** The claims *)
Lemma unreduced e r0 attr vs : station_attr e attr = Ok vs -> length vs = list_sum (map (fun m => length (r_x m)) (br_mem r0)) ->
  exists cs, per_span e r0 attr "none" = Ok (Chunks cs) /\ cut (br_mem r0) vs cs.
Proof. intros H L. eexists. split; [|apply chunks_cut; exact L]. unfold per_span. cbn [existsb String.eqb Ascii.eqb Bool.eqb orb negb]. rewrite H. reflexivity. Qed.
Definition extreme_of (reduce attr : string) : list R -> R -> Prop :=
  if String.eqb reduce "max" || (String.eqb reduce "auto" && negb (ends_with "min" attr)) then greatest else least.
Lemma reduces e r0 attr vs reduce : station_attr e attr = Ok vs -> length vs = list_sum (map (fun m => length (r_x m)) (br_mem r0)) ->
  Forall (fun m => r_x m <> []) (br_mem r0) -> In reduce ["auto"; "max"; "min"]%string ->
  exists cs out, per_span e r0 attr "none" = Ok (Chunks cs) /\ cut (br_mem r0) vs cs /\ per_span e r0 attr reduce = Ok (Values out) /\ Forall2 (extreme_of reduce attr) cs out.
Proof.
  intros H L N I. destruct (unreduced e r0 attr vs H L) as (cs & E & C). assert (NC : Forall (fun c : list R => c <> []) cs).
  { clear - C N. destruct C as [_ C]. induction C as [|m c ms cs Hc C IH]; [constructor|]. inversion N; subst. constructor; [|auto]. intros ->. destruct (r_x m); [congruence|discriminate]. }
  assert (EC : cs = chunks (map (fun m => length (r_x m)) (br_mem r0)) vs) by (apply (cut_unique _ _ _ _ C); apply chunks_cut; exact L).
  set (k := if String.eqb reduce "auto" then (if ends_with "min" attr then RedMin else RedMax) else if String.eqb reduce "max" then RedMax else RedMin).
  destruct (reduce_total k cs NC) as (out & Ho). exists cs, out. split; [exact E|]. split; [exact C|]. split.
  - unfold per_span. assert (B : existsb (String.eqb reduce) ["auto"; "max"; "min"; "none"]%string = true) by (apply existsb_exists; exists reduce; split; [|apply String.eqb_refl]; cbn in *; tauto).
    rewrite B. cbn [negb]. rewrite H. cbn [rbind]. rewrite <- EC. assert (B2 : String.eqb reduce "none" = false) by (apply String.eqb_neq; intros ->; cbn in I; intuition discriminate). rewrite B2. fold k. rewrite Ho. reflexivity.
  - assert (R := reduced k cs out Ho). unfold extreme_of. unfold k in R. destruct I as [<-|[<-|[<-|[]]]]; cbn [String.eqb Ascii.eqb Bool.eqb orb andb] in *; [destruct (ends_with "min" attr)|..]; exact R.
Qed.
Lemma stands attr reduce P : stands_for attr reduce P -> In reduce ["auto"; "max"; "min"]%string /\ extreme_of reduce attr = P.
Proof.
  unfold extreme_of. intros [| |p E|N]; cbn [String.eqb Ascii.eqb Bool.eqb orb andb In]; (split; [tauto|]); try reflexivity.
  - assert (X : ends_with "min" attr = true) by (apply ends_with_spec; eauto). rewrite X. reflexivity.
  - destruct (ends_with "min" attr) eqn:X; [|reflexivity]. apply ends_with_spec in X as (p & X). destruct (N p X).
Qed.
Lemma reduces_spec e r0 attr vs reduce P : station_attr e attr = Ok vs -> length vs = list_sum (map (fun m => length (r_x m)) (br_mem r0)) ->
  Forall (fun m => r_x m <> []) (br_mem r0) -> stands_for attr reduce P ->
  exists cs out, per_span e r0 attr "none" = Ok (Chunks cs) /\ cut (br_mem r0) vs cs /\ per_span e r0 attr reduce = Ok (Values out) /\ Forall2 P cs out.
Proof. intros H L N S. destruct (stands _ _ _ S) as [I <-]. exact (reduces e r0 attr vs reduce H L N I). Qed.
Lemma unknown_reduction e r0 attr reduce : ~ In reduce ["auto"; "max"; "min"; "none"]%string -> per_span e r0 attr reduce = Err ValueError.
Proof.
  intros N. unfold per_span. destruct (existsb _ _) eqn:E; [|reflexivity]. apply existsb_exists in E as (x & Hx & Ex). apply String.eqb_eq in Ex. subst x. contradiction.
Qed.

Lemma spanwise_compatible cs s vr : Forall (fun r => spanwise cs r /\ length (br_R r) = s) vr -> compatible (list_sum cs) s vr.
Proof.
  intros F. eapply Forall_impl; [|exact F]. intros r [[A B _ D] E]. rewrite A. unfold mres_concat. cbn [r_x r_M r_V]. subst cs.
  split; [apply (flat_len r_x); apply Forall_forall; reflexivity|]. split; [apply (flat_len r_M); eapply Forall_impl; [|exact D]; intros m [X _]; exact X|].
  split; [apply (flat_len r_V); eapply Forall_impl; [|exact D]; intros m [_ X]; exact X|exact E].
Qed.
Lemma in_members f i vr x : In x (member_values f i vr) <-> exists r m k, In r vr /\ nth_error (br_mem r) i = Some m /\ (k < length (f m))%nat /\ x = nth k (f m) 0.
Proof.
  unfold member_values. rewrite in_flat_map. split.
  - intros (r & Hr & Hx). destruct (nth_error (br_mem r) i) as [m|] eqn:E; [|destruct Hx]. apply (In_nth _ _ 0) in Hx as (k & Hk & <-). exists r, m, k. auto.
  - intros (r & m & k & Hr & E & Hk & ->). exists r. split; [exact Hr|]. rewrite E. apply nth_In. exact Hk.
Qed.
Lemma span_ext (f : mres -> list R) (g : nat -> bres -> R) cs vr arr : (f = r_M /\ g = M_at \/ f = r_V /\ g = V_at) -> Forall (spanwise cs) vr -> length arr = list_sum cs ->
  forall i c, nth_error cs i = Some c -> forall l, nth_error (chunks cs arr) i = Some l ->
  ((forall k, (k < list_sum cs)%nat -> largest (g k) vr (nth k arr 0)) -> forall v, greatest l v -> largest (fun x => x) (member_values f i vr) v) /\
  ((forall k, (k < list_sum cs)%nat -> smallest (g k) vr (nth k arr 0)) -> forall v, least l v -> smallest (fun x => x) (member_values f i vr) v).
Proof.
  intros FG F L i c Hc l Hl. rewrite (chunks_nth _ _ _ _ Hc) in Hl. injection Hl as <-. set (o := list_sum (firstn i cs)).
  assert (OC : (o + c <= list_sum cs)%nat).
  { unfold o. clear - Hc. revert i Hc. induction cs as [|d cs IH]; intros [|i] Hc; cbn [nth_error] in Hc; try discriminate.
    - injection Hc as ->. change (list_sum (c :: cs)) with (c + list_sum cs)%nat. cbn [firstn]. change (list_sum []) with 0%nat. lia.
    - specialize (IH i Hc). change (list_sum (d :: cs)) with (d + list_sum cs)%nat. cbn [firstn]. change (list_sum (d :: firstn i cs)) with (d + list_sum (firstn i cs))%nat. lia. }
  assert (LC : length (firstn c (skipn o arr)) = c) by (rewrite firstn_length, skipn_length; lia).
  assert (CN : forall k, (k < c)%nat -> nth k (firstn c (skipn o arr)) 0 = nth (o + k) arr 0) by (intros k Hk; rewrite nth_firstn by exact Hk; apply nth_skipn).
  assert (MV : forall r m, In r vr -> nth_error (br_mem r) i = Some m -> length (f m) = c /\ forall k, (k < c)%nat -> g (o + k)%nat r = nth k (f m) 0).
  { intros r m Hr Hm. rewrite Forall_forall in F. destruct (F r Hr) as [A B _ D]. assert (Ec : length (r_x m) = c).
    { rewrite <- B in Hc. rewrite nth_error_map, Hm in Hc. injection Hc as ->. reflexivity. }
    assert (FF : Forall (fun m => length (f m) = length (r_x m)) (br_mem r)) by (eapply Forall_impl; [|exact D]; intros z [X Y]; destruct FG as [[-> _]|[-> _]]; assumption).
    split; [rewrite Forall_forall in FF; rewrite (FF m (nth_error_In _ _ Hm)); exact Ec|]. intros k Hk. rewrite <- (flat_nth f (br_mem r) FF i m k Hm) by lia. rewrite B. fold o.
    destruct FG as [[-> ->]|[-> ->]]; unfold M_at, V_at; rewrite A; reflexivity. }
  assert (EX : forall r, In r vr -> exists m, nth_error (br_mem r) i = Some m).
  { intros r Hr. rewrite Forall_forall in F. destruct (F r Hr) as [_ B _ _]. rewrite <- B, nth_error_map in Hc. destruct (nth_error (br_mem r) i) as [m|]; [eauto|discriminate]. }
  split; intros LA v [Iv Gv]; apply (In_nth _ _ 0) in Iv as (k0 & Hk0 & Ev); rewrite LC in Hk0; rewrite CN in Ev by exact Hk0; destruct (LA (o + k0)%nat ltac:(lia)) as (P & _ & Q).
  - split; [lra|]. split.
    + intros x Hx. apply in_members in Hx as (r & m & k & Hr & Hm & Hk & ->). destruct (MV r m Hr Hm) as [Lm Vm]. rewrite Lm in Hk. rewrite <- Vm by exact Hk.
      destruct (LA (o + k)%nat ltac:(lia)) as (_ & U & _). eapply Rle_trans; [exact (U r Hr)|]. rewrite <- CN by exact Hk. apply Gv. apply nth_In. lia.
    + destruct Q as [Q|(r & Hr & Q)]; [left; congruence|right]. destruct (EX r Hr) as (m & Hm). destruct (MV r m Hr Hm) as [Lm Vm]. exists v. split; [|reflexivity]. apply in_members. exists r, m, k0. rewrite <- Vm by exact Hk0. repeat split; auto; [lia|congruence].
  - split; [lra|]. split.
    + intros x Hx. apply in_members in Hx as (r & m & k & Hr & Hm & Hk & ->). destruct (MV r m Hr Hm) as [Lm Vm]. rewrite Lm in Hk. rewrite <- Vm by exact Hk.
      destruct (LA (o + k)%nat ltac:(lia)) as (_ & U & _). eapply Rle_trans; [|exact (U r Hr)]. rewrite <- CN by exact Hk. apply Gv. apply nth_In. lia.
    + destruct Q as [Q|(r & Hr & Q)]; [left; congruence|right]. destruct (EX r Hr) as (m & Hm). destruct (MV r m Hr Hm) as [Lm Vm]. exists v. split; [|reflexivity]. apply in_members. exists r, m, k0. rewrite <- Vm by exact Hk0. repeat split; auto; [lia|congruence].
Qed.

Lemma F2_len' {A B} (P : A -> B -> Prop) l m : Forall2 P l m -> length l = length m.
Proof. induction 1; cbn; congruence. Qed.
Lemma F2_nth {A B} (P : A -> B -> Prop) l m : Forall2 P l m -> forall i y, nth_error m i = Some y -> exists x, nth_error l i = Some x /\ P x y.
Proof. induction 1 as [|x y l m Hp F IH]; intros [|i] z E; cbn in *; try discriminate; [injection E as <-; eauto|eauto]. Qed.
Lemma attr_reports e r0 attr arr cs (ext : nat -> R -> Prop) : station_attr e attr = Ok arr -> spanwise cs r0 -> length arr = list_sum cs ->
  (forall i c l v, nth_error cs i = Some c -> nth_error (chunks cs arr) i = Some l -> extreme_of "auto" attr l v -> ext i v) -> reports e r0 attr (length cs) ext.
Proof.
  intros H [A B S D] L X. destruct (reduces e r0 attr arr "auto" H) as (ch & out & E1 & C & E2 & F).
  - rewrite B. exact L.
  - rewrite <- B in S. clear - S. induction (br_mem r0) as [|m ms IH]; [constructor|]. inversion S; subst. constructor; [|auto]. intros E. rewrite E in *. cbn in *. lia.
  - left. reflexivity.
  - exists out. split; [exact E2|]. assert (EC : ch = chunks cs arr) by (rewrite <- B in *; apply (cut_unique _ _ _ _ C); apply chunks_cut; exact L). subst ch.
    split; [rewrite <- (F2_len' _ _ _ F), chunks_len; reflexivity|]. intros i v Hv. destruct (F2_nth _ _ _ F i v Hv) as (l & Hl & Hx).
    assert (Hc : exists c, nth_error cs i = Some c).
    { assert (i < length cs)%nat by (rewrite <- (chunks_len cs arr); apply nth_error_Some; congruence). destruct (nth_error cs i) eqn:Q; [eauto|apply nth_error_None in Q; lia]. }
    destruct Hc as (c & Hc). exact (X i c l v Hc Hl Hx).
Qed.
Lemma extremes cs s vr r0 : hd_error vr = Some r0 -> Forall (fun r => spanwise cs r /\ length (br_R r) = s) vr ->
  exists e, env_init vr = Ok e /\
    reports e r0 "Mmax" (length cs) (fun i => largest (fun x => x) (member_values r_M i vr)) /\ reports e r0 "Mmin" (length cs) (fun i => smallest (fun x => x) (member_values r_M i vr)) /\
    reports e r0 "Vmax" (length cs) (fun i => largest (fun x => x) (member_values r_V i vr)) /\ reports e r0 "Vmin" (length cs) (fun i => smallest (fun x => x) (member_values r_V i vr)).
Proof.
  intros H0 F. assert (FS : Forall (spanwise cs) vr) by (eapply Forall_impl; [|exact F]; intros r [X _]; exact X).
  assert (S0 : spanwise cs r0) by (rewrite Forall_forall in FS; apply FS; destruct vr; [discriminate|]; injection H0 as ->; left; reflexivity).
  destruct (c21 (list_sum cs) s vr) as (e & E & En & Es & _ & [eM eV _ (L1 & L2 & L3 & L4 & _)]); [intros ->; discriminate|apply spanwise_compatible; exact F|].
  rewrite En in *. exists e. split; [exact E|].
  split; [|split; [|split]].
  - apply (attr_reports e r0 "Mmax" (e_Mmax e) cs _ eq_refl S0 L1). intros i c l v Hc Hl Hx. apply (proj1 (span_ext r_M M_at cs vr (e_Mmax e) (or_introl (conj eq_refl eq_refl)) FS L1 i c Hc l Hl)); [intros k Hk; apply eM; exact Hk|exact Hx].
  - apply (attr_reports e r0 "Mmin" (e_Mmin e) cs _ eq_refl S0 L2). intros i c l v Hc Hl Hx. apply (proj2 (span_ext r_M M_at cs vr (e_Mmin e) (or_introl (conj eq_refl eq_refl)) FS L2 i c Hc l Hl)); [intros k Hk; apply eM; exact Hk|exact Hx].
  - apply (attr_reports e r0 "Vmax" (e_Vmax e) cs _ eq_refl S0 L3). intros i c l v Hc Hl Hx. apply (proj1 (span_ext r_V V_at cs vr (e_Vmax e) (or_intror (conj eq_refl eq_refl)) FS L3 i c Hc l Hl)); [intros k Hk; apply eV; exact Hk|exact Hx].
  - apply (attr_reports e r0 "Vmin" (e_Vmin e) cs _ eq_refl S0 L4). intros i c l v Hc Hl Hx. apply (proj2 (span_ext r_V V_at cs vr (e_Vmin e) (or_intror (conj eq_refl eq_refl)) FS L4 i c Hc l Hl)); [intros k Hk; apply eV; exact Hk|exact Hx].
Qed.

Section An.
Variable gl : nat -> list (R * R).
Variable ill : nat -> mat -> bool.
(** The results of an analysis are those of its members, one after the other. *)
Lemma analysed_spanwise a sps npts check a' r : analyze gl ill a sps npts check = (a', Ok r) -> (0 < an_npts a')%nat -> sound_grid (an_beam a) ->
  exists cs, length cs = b_nspans (an_beam a) /\ spanwise cs r /\
    forall i mb, (i < b_nspans (an_beam a))%nat -> member_at (an_beam a) i = Ok mb -> nth i cs 0%nat = (an_npts a' + 3 + 2 * inside_points (mb_L mb) (sps i))%nat.
Proof.
  intros E P SG. destruct (analyze_split _ _ _ _ _ _ _ _ E) as (o & Ho & Hv & EA & _). destruct (analyze_core_state _ _ _ _ _ _ _ Ho) as (EB & _). rewrite EB in Hv.
  destruct (member_analysis_spec _ _ _ _ _ _ _ Hv) as (ls & _ & Hlen & _). exists (map (fun m => length (r_x m)) (br_mem r)). split; [rewrite map_length; exact Hlen|]. split; [constructor|].
  - exact EA.
  - reflexivity.
  - apply Forall_forall. intros c Hc. apply in_map_iff in Hc as (m & <- & Hm). apply In_nth_error in Hm as (i & Hi). destruct (mem_at gl ill a sps npts check a' r E P SG i m Hi) as (mb & _ & _ & _ & _ & G). rewrite (sg_count _ _ _ _ G). lia.
  - apply Forall_forall. intros m Hm. apply In_nth_error in Hm as (i & Hi). destruct (mem_at gl ill a sps npts check a' r E P SG i m Hi) as (mb & _ & _ & _ & (V & M & C) & G). destruct (mc_len _ _ _ _ C) as (LV & LM & _). auto.
  - intros i mb Hi Hm. destruct (nth_error (br_mem r) i) as [m|] eqn:Em; [|apply nth_error_None in Em; lia]. destruct (mem_at gl ill a sps npts check a' r E P SG i m Em) as (mb' & _ & Hm' & _ & _ & G).
    rewrite Hm in Hm'. injection Hm' as <-. rewrite (nth_error_nth (map (fun m => length (r_x m)) (br_mem r)) i 0%nat (x := length (r_x m))) by (rewrite nth_error_map, Em; reflexivity). apply (sg_count _ _ _ _ G).
Qed.
End An.

Lemma names_cut e r0 attr vs : In (attr, vs) (named_arrays e) -> length vs = list_sum (map (fun m => length (r_x m)) (br_mem r0)) ->
  exists cs, per_span e r0 attr "none" = Ok (Chunks cs) /\ cut (br_mem r0) vs cs.
Proof.
  intros I L. apply unreduced; [|exact L]. unfold named_arrays in I. cbn [In] in I.
  repeat (destruct I as [I|I]; [injection I as <- <-; reflexivity|]). contradiction.
Qed.
