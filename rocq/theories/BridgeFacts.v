(** Facts about vehicle placement, lane loads and traverses. *)
From Coq Require Import Lia ZArith Sorted.
From Verif Require Import Base BaseFacts Linalg SectionModel FlexModel LoadModel LoadSpec FoundationModel ElementModel UtilsModel BeamModel BeamSpec AnalysisModel AnalysisSpec
  AnalysisFacts2 HistoryFacts CtorFacts ResultsModel ResultsSpec ResultsFacts EnvelopeModel EnvelopeSpec EnvelopeFacts LoadCasesModel LoadCasesSpec LoadCasesFacts SegmentFacts
  ShapeFacts VehicleModel VehicleSpec BridgeModel BridgeSpec.
Open Scope R_scope.
Local Notation length := List.length.

(** ** Rounding *)
Lemma py_round_near x : Rabs (x - IZR (py_round x)) <= 1/2.
Proof.
  unfold py_round. destruct (base_Int_part x) as [A B]. set (f := Int_part x) in *. clearbody f. cbv zeta.
  unfold Rltb. destruct (Rlt_dec (x - IZR f) (1/2)).
  - rewrite Rabs_pos_eq by lra. lra.
  - destruct (Rlt_dec (1/2) (x - IZR f)).
    + rewrite plus_IZR. rewrite Rabs_left1 by lra. lra.
    + destruct (Z.even f); [rewrite Rabs_pos_eq by lra; lra|]. rewrite plus_IZR, Rabs_left1 by lra. lra.
Qed.
Lemma py_round_unique x z : Rabs (x - IZR z) < 1/2 -> py_round x = z.
Proof.
  intros H. assert (N := py_round_near x). set (y := py_round x) in *. clearbody y.
  assert (-1 < IZR (y - z) < 1).
  { rewrite minus_IZR. unfold Rabs in *. destruct (Rcase_abs (x - IZR z)), (Rcase_abs (x - IZR y)); lra. }
  assert (-1 < y - z < 1)%Z by (split; apply lt_IZR; lra). lia.
Qed.

Lemma Forall2_len {A B} (P : A -> B -> Prop) l m : Forall2 P l m -> length l = length m.
Proof. induction 1; cbn; congruence. Qed.

(** ** Placement *)
Lemma deck_laid b : deck b -> laid_out b.
Proof. intros [A B C _ _]. constructor; assumption. Qed.
Lemma deck_nth b : deck b -> forall m, (m < b_nspans b)%nat -> 0 < nth m (b_lengths b) 0.
Proof. intros D m Hm. rewrite (dk_n _ D) in Hm. pose proof (dk_pos _ D) as F. rewrite Forall_forall in F. apply F, nth_In, Hm. Qed.
Lemma deck_lookup b pos : deck b ->
  (0 <= pos <= deck_length b -> exists i x, get_local_span_coords b pos = Ok (Z.of_nat i, x) /\ (i < b_nspans b)%nat /\
       pos = node_at b i + x /\ 0 <= x /\ (x < nth i (b_lengths b) 0 \/ x = nth i (b_lengths b) 0 /\ i = (b_nspans b - 1)%nat)) /\
  (pos < 0 \/ deck_length b < pos -> get_local_span_coords b pos = Ok ((-1)%Z, 0)).
Proof. intros D. exact (lookup_spec b pos (deck_laid _ D) (dk_some _ D) (deck_nth _ D)). Qed.

Lemma within_spec lo hi x : reflect (lo <= x <= hi) (within lo hi x).
Proof. unfold within. destruct (Rle_dec lo x); [destruct (Rle_dec x hi)|]; constructor; lra. Qed.

Lemma axle_LM_spec b v pos : deck b -> exists rows, axle_LM b v pos = Ok rows /\ axle_rows b v pos rows.
Proof.
  intros D. unfold axle_LM, axle_rows, axles_at, axles. induction (combine (v_coords v) (v_axw v)) as [|[c w] l IH]; cbn [map mapM].
  - exists []. split; [reflexivity|constructor].
  - destruct IH as (rows & E & F). destruct (deck_lookup b (pos - c) D) as [On Off]. cbn [fst snd].
    destruct (mapM _ l) as [rs|]; [|discriminate E]. cbn [rbind] in E. injection E as <-.
    cbn [on_deck filter fst]. destruct (within_spec 0 (deck_length b) (pos - c)) as [I|O].
    + destruct (On I) as (i & x & -> & Hi & Ex & X0 & X1). cbn [rbind fst snd].
      destruct (Z.eqb_spec (Z.of_nat i) (-1)); [lia|]. eexists. split; [reflexivity|]. cbn [concat app]. constructor; [|exact F].
      exists i, x. cbn. auto.
    + rewrite Off by lra. cbn [rbind fst snd]. change (Z.eqb (-1) (-1)) with true. cbv iota. eexists. split; [reflexivity|]. exact F.
Qed.
Lemma axle_row_unique b p r r' : deck b -> axle_row b p r -> axle_row b p r' -> r = r'.
Proof.
  intros D (i & x & -> & Hi & E & X0 & X1) (j & y & -> & Hj & E' & Y0 & Y1).
  assert (M : forall i j, (i <= j <= length (b_lengths b))%nat -> node_at b i <= node_at b j).
  { intros i0 j0. apply node_at_mono. intros m Hm. apply deck_nth; [exact D|]. rewrite (dk_n _ D). exact Hm. }
  rewrite (dk_n _ D) in *.
  assert (i = j) as ->.
  { destruct (Nat.lt_trichotomy i j) as [L|[L|L]]; [|exact L|].
    - exfalso. assert (A := M (S i) j ltac:(lia)). rewrite node_at_S in A. destruct X1 as [X1|[_ X1]]; [lra|lia].
    - exfalso. assert (A := M (S j) i ltac:(lia)). rewrite node_at_S in A. destruct Y1 as [Y1|[_ Y1]]; [lra|lia]. }
  replace y with x by lra. reflexivity.
Qed.
Lemma axle_rows_unique b v pos r r' : deck b -> axle_rows b v pos r -> axle_rows b v pos r' -> r = r'.
Proof.
  intros D H. revert r'. unfold axle_rows in *. induction H as [|p q l m A F IH]; intros r' H'; inversion H'; subst; [reflexivity|].
  f_equal; [eapply axle_row_unique; eassumption|]. apply IH. assumption.
Qed.
Lemma axle_rows_force b v pos rows : axle_rows b v pos rows -> lsum (map row_force rows) = lsum (map snd (on_deck b (axles_at v pos))).
Proof.
  unfold axle_rows, lsum. induction 1 as [|p r l m (i & x & -> & _) F IH]; [reflexivity|]. cbn [map fold_right]. rewrite IH. reflexivity.
Qed.
Lemma axle_rows_all b v pos rows : axle_rows b v pos rows -> 
  (forall p, In p (axles_at v pos) -> 0 <= fst p <= deck_length b) -> length rows = length (axles v) /\ lsum (map row_force rows) = lsum (map snd (axles v)).
Proof.
  intros H A. assert (E : on_deck b (axles_at v pos) = axles_at v pos).
  { unfold on_deck. induction (axles_at v pos) as [|p l IH]; [reflexivity|]. cbn [filter]. destruct (within_spec 0 (deck_length b) (fst p)) as [I|O].
    - f_equal. apply IH. intros q Hq. apply A. right. exact Hq.
    - exfalso. apply O, A. left. reflexivity. }
  rewrite (axle_rows_force _ _ _ _ H), E. split; [|unfold axles_at; rewrite map_map; reflexivity].
  unfold axle_rows in H. rewrite E in H. clear E A. unfold axles_at in H. apply Forall2_len in H. rewrite map_length in H. auto.
Qed.

(** ** Interval loads *)
Lemma rsum_start Ls i : (i <= length Ls)%nat -> rsum i (fun m => nth m Ls 0) = start Ls i.
Proof.
  induction i as [|i IH]; intros Hi; [reflexivity|]. rewrite start_S by lia. rewrite <- IH by lia. reflexivity.
Qed.
Definition ival_row (i : nat) (x L xa xb w : R) : list row :=
  if Rltb 1e-9 (Rmin xb (x + L) - Rmax xa x) then [Row (Z.of_nat i + 1) 3 [w; Rmax xa x - x; Rmin xb (x + L) - Rmax xa x]] else [].
Lemma ival_cons i x L t xa xb w : interval_from i x (L :: t) xa xb w = (ival_row i x L xa xb w ++ interval_from (i + 1) (x + L) t xa xb w)%list.
Proof. reflexivity. Qed.
Lemma pudl_loading Ls i w a c j x : loading Ls [Row (Z.of_nat i + 1) 3 [w; a; c]] j x =
  if Nat.eq_dec i j then (if Rlt_dec x a then 0 else if Rlt_dec (a + c) x then 0 else w) else 0.
Proof.
  unfold loading, row_intensity. cbn [map parse_row]. cbn [Z.eqb Pos.eqb get nth_error rbind]. replace (Z.of_nat i + 1 - 1)%Z with (Z.of_nat i) by lia.
  unfold lsum. cbn [fold_right]. destruct (Nat.eq_dec i j) as [->|N].
  - rewrite Z.eqb_refl. cbn. destruct (Rlt_dec x a); [ring|]. destruct (Rlt_dec _ x); ring.
  - destruct (Z.eqb_spec (Z.of_nat i) (Z.of_nat j)); [lia|ring].
Qed.
Lemma ival_row_loading Ls i x0 L xa xb w j x : loading Ls (ival_row i x0 L xa xb w) j x =
  if Nat.eq_dec i j then
    if Rlt_dec 1e-9 (Rmin xb (x0 + L) - Rmax xa x0) then if Rlt_dec (x0 + x) (Rmax xa x0) then 0 else if Rlt_dec (Rmin xb (x0 + L)) (x0 + x) then 0 else w else 0
  else 0.
Proof.
  unfold ival_row, Rltb. destruct (Rlt_dec 1e-9 _); [|change (loading Ls [] j x) with 0; destruct (Nat.eq_dec i j); reflexivity].
  rewrite pudl_loading. destruct (Nat.eq_dec i j); [|reflexivity]. set (lo := Rmax xa x0). set (hi := Rmin xb (x0 + L)). clearbody lo hi.
  destruct (Rlt_dec x (lo - x0)), (Rlt_dec (x0 + x) lo); try lra. destruct (Rlt_dec (lo - x0 + (hi - lo)) x), (Rlt_dec hi (x0 + x)); lra.
Qed.
Lemma ival_loading Ls xa xb w j x : forall Ks i0 x0, 
  loading Ls (interval_from i0 x0 Ks xa xb w) j x =
  if le_dec i0 j then if lt_dec j (i0 + length Ks) then loading Ls (ival_row j (x0 + start Ks (j - i0)) (nth (j - i0) Ks 0) xa xb w) j x else 0 else 0.
Proof.
  induction Ks as [|K Ks IH]; intros i0 x0.
  - change (interval_from i0 x0 [] xa xb w) with (@nil row). cbn [length]. destruct (le_dec i0 j); [destruct (lt_dec j (i0 + 0)); [lia|]|]; reflexivity.
  - rewrite ival_cons, loading_app, IH. cbn [length]. destruct (le_dec i0 j) as [L1|L1].
    + destruct (Nat.eq_dec i0 j) as [->|N].
      * destruct (le_dec (j + 1) j); [lia|]. destruct (lt_dec j (j + S (length Ks))); [|lia]. rewrite Nat.sub_diag.
        change (start (K :: Ks) 0) with 0. cbn [nth]. replace (x0 + 0) with x0 by ring. ring.
      * destruct (le_dec (i0 + 1) j); [|lia]. rewrite ival_row_loading at 1. destruct (Nat.eq_dec i0 j); [lia|].
        destruct (lt_dec j (i0 + 1 + length Ks)); destruct (lt_dec j (i0 + S (length Ks))); try lia; [|ring].
        replace (j - i0)%nat with (S (j - (i0 + 1))) by lia. cbn [nth]. replace (start (K :: Ks) (S (j - (i0 + 1)))) with (K + start Ks (j - (i0 + 1))) by reflexivity.
        replace (x0 + K + start Ks (j - (i0 + 1))) with (x0 + (K + start Ks (j - (i0 + 1)))) by ring. ring.
    + destruct (le_dec (i0 + 1) j); [lia|]. rewrite ival_row_loading. destruct (Nat.eq_dec i0 j); [lia|ring].
Qed.
Lemma interval_loading b xa xb w j x : deck b -> (j < b_nspans b)%nat ->
  loading (b_lengths b) (interval_udl_LM b xa xb w) j x = loading (b_lengths b) (ival_row j (node_at b j) (nth j (b_lengths b) 0) xa xb w) j x.
Proof.
  intros D Hj. unfold interval_udl_LM. rewrite (dk_n _ D) in *. rewrite firstn_all, ival_loading.
  destruct (le_dec 0 j); [|lia]. destruct (lt_dec j (0 + _)); [|lia]. rewrite Nat.sub_0_r, Rplus_0_l. unfold node_at. rewrite rsum_start by lia. reflexivity.
Qed.
Lemma interval_rows b xa xb w : deck b -> Forall (udl_row b w) (interval_udl_LM b xa xb w).
Proof.
  intros D. apply Forall_forall. intros r. unfold interval_udl_LM, udl_row. rewrite (dk_n _ D), firstn_all.
  assert (G : forall Ks i0 x0, In r (interval_from i0 x0 Ks xa xb w) -> exists i a c, parse_row r = Ok [(Z.of_nat i, LPUDL w a c)] /\ (i0 <= i < i0 + length Ks)%nat /\ 0 <= a /\ 0 < c /\ a + c <= nth (i - i0) Ks 0).
  { induction Ks as [|K Ks IH]; intros i0 x0 H; [destruct H|]. rewrite ival_cons in H. apply in_app_or in H. destruct H as [H|H].
    - unfold ival_row, Rltb in H. destruct (Rlt_dec _ _) as [T|]; [|destruct H]. destruct H as [<-|[]]. exists i0. do 2 eexists. cbn [parse_row]. cbn [Z.eqb Pos.eqb get nth_error rbind].
      replace (Z.of_nat i0 + 1 - 1)%Z with (Z.of_nat i0) by lia. split; [reflexivity|]. rewrite Nat.sub_diag. cbn [nth length]. split; [lia|].
      assert (x0 <= Rmax xa x0) by apply Rmax_r. assert (Rmin xb (x0 + K) <= x0 + K) by apply Rmin_r. lra.
    - destruct (IH _ _ H) as (i & a & c & E & Hi & A). exists i, a, c. split; [exact E|]. split; [cbn; lia|]. replace (i - i0)%nat with (S (i - (i0 + 1)))%nat by lia. exact A. }
  intros H. destruct (G _ _ _ H) as (i & a & c & E & Hi & A). exists i, a, c. split; [exact E|]. split; [lia|]. rewrite Nat.sub_0_r in A. exact A.
Qed.
Lemma interval_spec b xa xb w : deck b -> Forall (Rlt length_tol) (b_lengths b) ->
  Forall (udl_row b w) (interval_udl_LM b xa xb w) /\
  forall i x, (i < b_nspans b)%nat -> 0 < x < nth i (b_lengths b) 0 ->
  (xa + length_tol < node_at b i + x < xb - length_tol -> loading (b_lengths b) (interval_udl_LM b xa xb w) i x = w) /\
  (node_at b i + x < xa \/ xb < node_at b i + x -> loading (b_lengths b) (interval_udl_LM b xa xb w) i x = 0).
Proof.
  intros D F. split; [apply interval_rows; exact D|]. intros i x Hi Hx. rewrite interval_loading by assumption. rewrite ival_row_loading.
  destruct (Nat.eq_dec i i); [|lia]. assert (HL : length_tol < nth i (b_lengths b) 0).
  { rewrite (dk_n _ D) in Hi. rewrite Forall_forall in F. apply F, nth_In, Hi. }
  unfold length_tol in *. set (y := node_at b i) in *. set (L := nth i (b_lengths b) 0) in *. clearbody y L.
  assert (Elo : Rmax xa y = xa /\ y <= xa \/ Rmax xa y = y /\ xa <= y) by (unfold Rmax; destruct (Rle_dec xa y); [right|left]; lra).
  assert (Ehi : Rmin xb (y + L) = xb /\ xb <= y + L \/ Rmin xb (y + L) = y + L /\ y + L <= xb) by (unfold Rmin; destruct (Rle_dec xb (y + L)); [left|right]; lra).
  destruct (Rlt_dec 1e-9 _); [destruct (Rlt_dec (y + x) _); [|destruct (Rlt_dec _ (y + x))]|]; split; intros; lra.
Qed.

(** ** Lane loads *)
Lemma deck_bounds b i : deck b -> (i < b_nspans b)%nat -> 0 <= node_at b i /\ node_at b i + nth i (b_lengths b) 0 <= deck_length b.
Proof.
  intros D Hi. assert (M : forall i j, (i <= j <= length (b_lengths b))%nat -> node_at b i <= node_at b j).
  { intros i0 j0. apply node_at_mono. intros m Hm. apply deck_nth; [exact D|]. rewrite (dk_n _ D). exact Hm. }
  unfold deck_length. rewrite (dk_n _ D) in *. split; [apply (M 0%nat i); lia|]. rewrite <- node_at_S. apply M. lia.
Qed.
Lemma interval_all b w : deck b -> Forall (Rlt length_tol) (b_lengths b) -> covers_all b w (interval_udl_LM b 0 (b_length b) w).
Proof.
  intros D F. split; [apply interval_rows; exact D|]. intros i x Hi Hx. rewrite interval_loading by assumption. rewrite ival_row_loading.
  destruct (Nat.eq_dec i i); [|lia]. assert (HL : length_tol < nth i (b_lengths b) 0).
  { rewrite (dk_n _ D) in Hi. rewrite Forall_forall in F. apply F, nth_In, Hi. }
  destruct (deck_bounds b i D Hi) as [B0 B1]. rewrite (dk_len _ D). fold (deck_length b). rewrite Rmax_right, Rmin_right by lra. unfold length_tol in *.
  destruct (Rlt_dec 1e-9 _); [destruct (Rlt_dec _ _); [|destruct (Rlt_dec _ _)]|]; lra.
Qed.
Lemma ival_piece b xa xb w i x : deck b -> Forall (Rlt length_tol) (b_lengths b) -> (i < b_nspans b)%nat -> 0 < x < nth i (b_lengths b) 0 ->
  ((xa <= 0 \/ xa + length_tol < node_at b i + x) -> (deck_length b <= xb \/ node_at b i + x < xb - length_tol) -> loading (b_lengths b) (interval_udl_LM b xa xb w) i x = w) /\
  (node_at b i + x < xa \/ xb < node_at b i + x -> loading (b_lengths b) (interval_udl_LM b xa xb w) i x = 0).
Proof.
  intros D F Hi Hx. rewrite interval_loading by assumption. rewrite ival_row_loading.
  destruct (Nat.eq_dec i i); [|lia]. assert (HL : length_tol < nth i (b_lengths b) 0).
  { rewrite (dk_n _ D) in Hi. rewrite Forall_forall in F. apply F, nth_In, Hi. }
  destruct (deck_bounds b i D Hi) as [B0 B1].
  unfold length_tol in *. set (y := node_at b i) in *. set (L := nth i (b_lengths b) 0) in *. clearbody y L.
  assert (Elo : Rmax xa y = xa /\ y <= xa \/ Rmax xa y = y /\ xa <= y) by (unfold Rmax; destruct (Rle_dec xa y); [right|left]; lra).
  assert (Ehi : Rmin xb (y + L) = xb /\ xb <= y + L \/ Rmin xb (y + L) = y + L /\ y + L <= xb) by (unfold Rmin; destruct (Rle_dec xb (y + L)); [left|right]; lra).
  destruct (Rlt_dec 1e-9 _); [destruct (Rlt_dec (y + x) _); [|destruct (Rlt_dec _ (y + x))]|]; split; intros; lra.
Qed.
Lemma lane_spec b v c bf w pos : deck b -> Forall (Rlt length_tol) (b_lengths b) -> 0 <= v_L v -> validate_clearances c = Ok bf ->
  lane b v c w pos (lane_rows b v c bf w pos).
Proof.
  intros D F HL H. destruct c as [|bk fr|]; cbn [lane lane_rows].
  - apply interval_all; assumption.
  - unfold validate_clearances, Rltb in H. destruct (Rlt_dec bk 0) as [|Hb]; [discriminate|]. destruct (Rlt_dec fr 0) as [|Hf]; [discriminate|]. injection H as <-. cbn [fst snd].
    set (z0 := pos - v_L v - bk). set (z1 := pos + fr). assert (Z : z0 <= z1) by (unfold z0, z1; lra). clearbody z0 z1. rewrite (dk_len _ D). fold (deck_length b).
    split.
    + apply Forall_app. split; [destruct (Rltb 0 z0)|destruct (Rltb z1 (deck_length b))]; constructor || apply interval_rows; exact D.
    + intros i x Hi Hx. rewrite loading_app. destruct (deck_bounds b i D Hi) as [B0 B1].
      set (y := node_at b i + x) in *. set (L := deck_length b) in *. assert (Y : 0 < y < L) by (unfold y; lra).
      assert (P1 := ival_piece b 0 (Rmin z0 L) w i x D F Hi Hx). assert (P2 := ival_piece b (Rmax z1 0) L w i x D F Hi Hx). fold y L in P1, P2.
      assert (T : 0 < length_tol) by (unfold length_tol; lra).
      assert (E1 : Rmin z0 L = z0 /\ z0 <= L \/ Rmin z0 L = L /\ L <= z0) by (unfold Rmin; destruct (Rle_dec z0 L); [left|right]; lra).
      assert (E2 : Rmax z1 0 = z1 /\ 0 <= z1 \/ Rmax z1 0 = 0 /\ z1 <= 0) by (unfold Rmax; destruct (Rle_dec z1 0); [right|left]; lra).
      clearbody y L. change (loading (b_lengths b)) with (loading (b_lengths b)) in *.
      assert (N : loading (b_lengths b) [] i x = 0) by reflexivity.
      unfold Rltb. split.
      * intros [Hlo|Hhi].
        -- destruct (Rlt_dec 0 z0); [|lra]. rewrite (proj1 P1) by lra. destruct (Rlt_dec z1 L); [rewrite (proj2 P2) by lra|rewrite N]; ring.
        -- destruct (Rlt_dec z1 L); [|lra]. rewrite (proj1 P2) by lra. destruct (Rlt_dec 0 z0); [rewrite (proj2 P1) by lra|rewrite N]; ring.
      * intros Hz. destruct (Rlt_dec 0 z0); [rewrite (proj2 P1) by lra|rewrite N]; (destruct (Rlt_dec z1 L); [rewrite (proj2 P2) by lra|rewrite N]); ring.
  - discriminate.
Qed.

(** ** Traverses *)
Section Runs.
Variable gl : nat -> list (R * R).
Variable ill : nat -> mat -> bool.

(** [a] differs from [a0] in its loads, and in the outcome of the stability check if the
    structure of [a0] passes it. *)
Record kin (a0 a : analysis) : Prop := {
  k_beam : an_beam a = set_loads (an_beam a0) (b_LM (an_beam a));
  k_n : an_n a = an_n a0; k_npts : an_npts a = an_npts a0; k_out : an_out a = an_out a0;
  k_check : an_checked a = an_checked a0 \/ stable gl ill (an_beam a0) (an_n a0) }.
Lemma set_loads_same b : b = set_loads b (b_LM b).
Proof. destruct b; reflexivity. Qed.
Lemma kin_refl a : kin a a.
Proof. constructor; auto. apply set_loads_same. Qed.

Lemma core_stable a : stable gl ill (an_beam a) (an_n a) -> snd (analyze_core gl ill a None true) = snd (analyze_core gl ill a None false).
Proof.
  intros S. destruct (skips a true) eqn:E; [apply core_skip; exact E|]. rewrite <- core_recheck by exact E. apply core_passes. exact S.
Qed.
Lemma core_unchecked a : snd (analyze_core gl ill (with_checked a None) None false) = snd (analyze_core gl ill a None false).
Proof. exact (core_forget gl ill a None false). Qed.
Lemma analyze_snd a sps r : snd (analyze_core gl ill a None true) = r ->
  snd (analyze gl ill a sps None true) = match r with Ok o => beam_results gl (an_beam a) o (an_ndof a) (an_npts a) sps | Err e => Err e end.
Proof.
  intros E. unfold analyze. destruct (analyze_core gl ill a None true) as [a1 r1] eqn:EC. cbn in E. subst r1.
  destruct (analyze_core_state _ _ _ _ _ _ _ EC) as (-> & _ & -> & ->). destruct r; reflexivity.
Qed.
Lemma kin_result a0 a lm sps : kin a0 a ->
  snd (analyze gl ill (with_beam a (set_loads (an_beam a) lm)) sps None true) = analysed_with gl ill a0 sps lm.
Proof.
  intros [KB KN KP KO KC]. unfold analysed_with.
  assert (EB : set_loads (an_beam a) lm = set_loads (an_beam a0) lm) by (rewrite KB; reflexivity).
  assert (EW : with_beam a (set_loads (an_beam a) lm) = with_checked (with_beam a0 (set_loads (an_beam a0) lm)) (an_checked a)).
  { unfold with_beam, with_checked. cbn [an_beam an_n an_npts an_checked an_out]. rewrite EB, KN, KP, KO. reflexivity. }
  rewrite EW. clear EW EB. set (x := with_beam a0 (set_loads (an_beam a0) lm)). destruct KC as [KC|KC].
  - rewrite KC. reflexivity.
  - assert (S : stable gl ill (an_beam x) (an_n x)) by (apply (stable_ext gl ill (an_beam a0)); [reflexivity|reflexivity|reflexivity|exact KC]).
    rewrite (analyze_snd _ _ _ eq_refl), (analyze_snd x _ _ eq_refl). rewrite !core_stable by exact S. change (an_beam (with_checked x (an_checked a))) with (an_beam x).
    change (an_ndof (with_checked x (an_checked a))) with (an_ndof x). change (an_npts (with_checked x (an_checked a))) with (an_npts x).
    rewrite <- (core_unchecked (with_checked x (an_checked a))). change (with_checked (with_checked x (an_checked a)) None) with (with_checked x None).
    rewrite core_unchecked. reflexivity.
Qed.
Lemma core_checked a a' o : analyze_core gl ill a None true = (a', Ok o) -> an_out a' = an_out a /\ (an_checked a' = an_checked a \/ stable gl ill (an_beam a) (an_n a)).
Proof.
  intros H. split.
  - revert H. unfold analyze_core. cbn [negb orb]. destruct (rbind _ _) as [[f k]|]; [|discriminate].
    set (sk := opt_eqb _ _). destruct (if sk then _ else _); [|discriminate]. intros H. injection H as <- _. destruct sk; reflexivity.
  - destruct (core_inv gl ill _ _ _ _ _ H) as [_ [S|S]]; [left|right; exact S].
    revert H. unfold analyze_core. cbn [negb orb]. destruct (rbind _ _) as [[f k]|]; [|discriminate].
    change (opt_eqb (an_checked a) (b_version (an_beam a))) with (skips a true). rewrite S. cbn [negb]. intros H. injection H as <- _. reflexivity.
Qed.
Lemma kin_step a0 a lm sps a' r : kin a0 a -> analyze gl ill (with_beam a (set_loads (an_beam a) lm)) sps None true = (a', Ok r) ->
  kin a0 a' /\ an_beam a' = set_loads (an_beam a0) lm.
Proof.
  intros [KB KN KP KO KC] E. destruct (analyze_split _ _ _ _ _ _ _ _ E) as (o & Ho & _). destruct (analyze_core_state _ _ _ _ _ _ _ Ho) as (A & B & _ & C).
  destruct (core_checked _ _ _ Ho) as (O & K). cbn [with_beam an_beam an_n an_npts an_out an_checked] in *.
  assert (EB : an_beam a' = set_loads (an_beam a0) lm) by (rewrite A, KB; reflexivity). split; [|exact EB]. constructor.
  - rewrite EB. reflexivity.
  - congruence.
  - congruence.
  - congruence.
  - destruct K as [K|K]; [rewrite K; exact KC|]. right. revert K. rewrite KN, KB. apply stable_ext; reflexivity.
Qed.

(** One position. *)
Definition one (a0 : analysis) (static : list row) (sps : nat -> list R) (rows : beam -> R -> result (list row)) (p : R) : result bres :=
  do rw <- rows (an_beam a0) p; analysed_with gl ill a0 sps (static ++ rw).

Definition geometric (rows : beam -> R -> result (list row)) : Prop := forall b lm p, rows (set_loads b lm) p = rows b p.

Lemma traverse_ok a0 static sps rows : geometric rows -> forall ps a pos rs rs', kin a0 a -> mapM (one a0 static sps rows) ps = Ok rs' ->
  exists a', traverse gl ill a static sps rows ps pos rs = ((a', pos ++ ps, rs ++ rs')%list, Ok tt) /\ kin a0 a' /\
    (ps = [] -> a' = a) /\
    (forall p, ps <> [] -> p = last ps 0 -> exists rw, rows (an_beam a0) p = Ok rw /\ b_LM (an_beam a') = (static ++ rw)%list).
Proof.
  intros G. induction ps as [|p ps IH]; intros a pos rs rs' K H; cbn [mapM] in H.
  - injection H as <-. exists a. cbn [traverse]. rewrite !app_nil_r. split; [reflexivity|]. split; [exact K|]. split; [reflexivity|]. intros p N. contradiction.
  - apply rbind_ok in H as (r & Hr & H). apply rbind_ok in H as (rt & Ht & H). injection H as <-.
    unfold one in Hr. apply rbind_ok in Hr as (rw & Hw & Hr). cbn [traverse]. unfold run_rows. rewrite (k_beam _ _ K), G, Hw. rewrite <- (k_beam _ _ K).
    change (add_LM static rw) with (static ++ rw)%list.
    destruct (analyze gl ill (with_beam a (set_loads (an_beam a) (static ++ rw))) sps None true) as [a1 x] eqn:E.
    assert (X : x = Ok r) by (rewrite <- Hr, <- (kin_result a0 a (static ++ rw) sps K), E; reflexivity). subst x.
    destruct (kin_step _ _ _ _ _ _ K E) as (K1 & B1). destruct (IH a1 (pos ++ [p])%list (rs ++ [r])%list rt K1 Ht) as (a' & E' & K' & N0 & N1).
    exists a'. rewrite E', <- !app_assoc. cbn [app]. split; [reflexivity|]. split; [exact K'|]. split; [discriminate|].
    intros q _ Hq. destruct ps as [|p2 ps].
    + cbn in Hq. subst q. rewrite (N0 eq_refl), B1. exists rw. split; [exact Hw|reflexivity].
    + apply N1; [discriminate|exact Hq].
Qed.
Lemma traverse_err a0 static sps rows e : geometric rows -> forall ps a pos rs, kin a0 a -> mapM (one a0 static sps rows) ps = Err e ->
  snd (traverse gl ill a static sps rows ps pos rs) = Err e.
Proof.
  intros G. induction ps as [|p ps IH]; intros a pos rs K H; cbn [mapM] in H; [discriminate|]. cbn [traverse]. unfold run_rows.
  rewrite (k_beam _ _ K), G. rewrite <- (k_beam _ _ K). unfold one in H at 1. destruct (rows (an_beam a0) p) as [rw|e1]; cbn [rbind] in H.
  - change (add_LM static rw) with (static ++ rw)%list. destruct (analyze gl ill (with_beam a (set_loads (an_beam a) (static ++ rw))) sps None true) as [a1 x] eqn:E.
    assert (X : x = analysed_with gl ill a0 sps (static ++ rw)) by (rewrite <- (kin_result a0 a (static ++ rw) sps K), E; reflexivity). rewrite <- X in H. destruct x as [r|e1].
    + cbn [rbind] in H. destruct (mapM _ ps) as [rt|e2] eqn:Et; [discriminate|]. injection H as ->. apply IH; [|reflexivity]. exact (proj1 (kin_step _ _ _ _ _ _ K E)).
    + cbn [rbind] in H. injection H as ->. reflexivity.
  - injection H as ->. reflexivity.
Qed.

(** The whole run. *)
Definition run_ps (p0 p1 step : R) : list R := map (fun i => p0 + INR i * step) (seq 0 (Z.to_nat (py_round ((p1 - p0) / step) + 1))).
Lemma run_outcome g a v rows step pstart pend sp dv sps spx : bg_ba g = Some a -> bg_veh g = Some v -> geometric (rows v) -> step <> 0 ->
  apply_shear_points (an_beam a) sp dv = Ok (sps, spx) ->
  let ps := run_ps (given 0 pstart) (given (b_length (an_beam a) + v_L v) pend) step in
  snd (run_positions gl ill g rows step pstart pend sp dv) = (do rs <- mapM (one a (bg_static g) sps (rows v)) ps; env_init rs) /\
  forall rs, mapM (one a (bg_static g) sps (rows v)) ps = Ok rs ->
    let g' := fst (run_positions gl ill g rows step pstart pend sp dv) in
    bg_pos g' = ps /\ bg_results g' = rs /\ bg_static g' = bg_static g /\ bg_veh g' = Some v /\ bg_spx g' = spx /\ bg_sps g' = (fun _ => []) /\
    exists a', bg_ba g' = Some a' /\ kin a a' /\ (forall p, ps <> [] -> p = last ps 0 -> exists rw, rows v (an_beam a) p = Ok rw /\ b_LM (an_beam a') = (bg_static g ++ rw)%list).
Proof.
  intros Ea Ev G Hs Hp ps. unfold run_positions. rewrite Ea, Ev. cbn [with_run with_sps bg_ba bg_veh bg_static bg_pos bg_results bg_spx bg_sps]. rewrite Hp.
  cbv zeta. cbn [with_run with_sps bg_ba bg_veh bg_static bg_pos bg_results bg_spx bg_sps].
  destruct (Reqb_spec step 0) as [|_]; [contradiction|]. fold (given 0 pstart). fold (given (b_length (an_beam a) + v_L v) pend). fold (run_ps (given 0 pstart) (given (b_length (an_beam a) + v_L v) pend) step). fold ps.
  destruct (mapM (one a (bg_static g) sps (rows v)) ps) as [rs|e] eqn:E.
  - destruct (traverse_ok a (bg_static g) sps (rows v) G ps a [] [] rs (kin_refl a) E) as (a' & -> & K & _ & N). cbn [app rbind fst snd]. split; [reflexivity|].
    intros rs' X. injection X as <-. cbn [with_run with_sps bg_ba bg_veh bg_static bg_pos bg_results bg_spx bg_sps]. do 6 (split; [reflexivity || exact Ev|]).
    exists a'. auto.
  - assert (T := traverse_err a (bg_static g) sps (rows v) e G ps a [] [] (kin_refl a) E). destruct (traverse _ _ _ _ _ _ _ _ _) as [[[a' pos] rs] r]. cbn in T. subst r.
    cbn [rbind snd]. split; [reflexivity|]. intros rs' X. discriminate.
Qed.
Lemma run_ok_inv g rows step pstart pend sp dv g' e : run_positions gl ill g rows step pstart pend sp dv = (g', Ok e) ->
  exists a v sps spx, bg_ba g = Some a /\ bg_veh g = Some v /\ step <> 0 /\ apply_shear_points (an_beam a) sp dv = Ok (sps, spx).
Proof.
  unfold run_positions. destruct (bg_ba g) as [a|]; [|discriminate]. destruct (bg_veh g) as [v|]; [|discriminate].
  destruct (apply_shear_points (an_beam a) sp dv) as [[sps spx]|] eqn:E; [|discriminate]. cbv zeta. destruct (Reqb_spec step 0); [discriminate|]. intros _. eauto 10.
Qed.
Lemma run_ps_positions p0 p1 step : step <> 0 -> run_ps p0 p1 step <> [] -> exists k, run_ps p0 p1 step = positions p0 step k /\ Rabs (p1 - (p0 + INR k * step)) <= Rabs step / 2.
Proof.
  intros Hs N. unfold run_ps in *. assert (Hr := py_round_near ((p1 - p0) / step)). set (z := py_round ((p1 - p0) / step)) in *. clearbody z.
  assert (0 <= z)%Z. { destruct (Z.ltb_spec z 0); [|lia]. exfalso. apply N. replace (Z.to_nat (z + 1)) with 0%nat by lia. reflexivity. }
  exists (Z.to_nat z). replace (Z.to_nat (z + 1)) with (S (Z.to_nat z)) by lia. split; [reflexivity|].
  rewrite INR_IZR_INZ, Z2Nat.id by lia. replace (p1 - (p0 + IZR z * step)) with (((p1 - p0) / step - IZR z) * step) by (field; exact Hs).
  rewrite Rabs_mult. assert (0 < Rabs step) by (apply Rabs_pos_lt; exact Hs). apply Rle_trans with (1/2 * Rabs step); [apply Rmult_le_compat_r; lra|lra].
Qed.
Lemma run_ps_exact p0 p1 step k : step <> 0 -> Rabs (p1 - (p0 + INR k * step)) < Rabs step / 2 -> run_ps p0 p1 step = positions p0 step k.
Proof.
  intros Hs H. unfold run_ps. rewrite (py_round_unique _ (Z.of_nat k)).
  - replace (Z.to_nat (Z.of_nat k + 1)) with (S k) by lia. reflexivity.
  - rewrite <- INR_IZR_INZ. assert (0 < Rabs step) by (apply Rabs_pos_lt; exact Hs). apply Rmult_lt_reg_r with (Rabs step); [lra|]. rewrite <- Rabs_mult.
    replace (((p1 - p0) / step - INR k) * step) with (p1 - (p0 + INR k * step)) by (field; exact Hs). lra.
Qed.
Lemma run_ps_empty p0 p1 step : (p1 - p0) / step < -1/2 -> run_ps p0 p1 step = [].
Proof.
  intros H. unfold run_ps. assert (Hr := py_round_near ((p1 - p0) / step)). set (z := py_round ((p1 - p0) / step)) in *. clearbody z.
  assert (IZR z < 0) by (unfold Rabs in Hr; destruct (Rcase_abs _); lra). assert (z < 0)%Z by (apply lt_IZR; lra). replace (Z.to_nat (z + 1)) with 0%nat by lia. reflexivity.
Qed.
End Runs.
