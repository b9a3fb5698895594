(** Facts about segment and patterned loads. *)
From Coq Require Import Lia Ascii String DecimalString DecimalNat.
From Verif Require Import Base BaseFacts SectionModel LoadModel LoadSpec FoundationModel UtilsModel BeamModel AnalysisModel AnalysisSpec
  ResultsModel ResultsSpec ResultsFacts LoadCasesModel LoadCasesSpec LoadCasesFacts.
Open Scope R_scope.
Local Notation length := List.length.
Local Open Scope list_scope.

(** ** Segments *)
Lemma bounds_from_len x Ls : length (bounds_from x Ls) = S (length Ls).
Proof. revert x. induction Ls as [|L Ls IH]; intros x; cbn; auto. Qed.
Lemma bounds_from_nth x Ls i : (i <= length Ls)%nat -> nth i (bounds_from x Ls) 0 = x + start Ls i.
Proof.
  unfold start, lsum. revert x i. induction Ls as [|L Ls IH]; intros x i Hi; cbn in *.
  - replace i with 0%nat by lia. cbn. ring.
  - destruct i as [|i]; cbn; [ring|]. rewrite IH by lia. ring.
Qed.
Lemma bounds_last x Ls : last (bounds_from x Ls) 0 = x + lsum Ls.
Proof.
  unfold lsum. revert x. induction Ls as [|L Ls IH]; intros x; [cbn; ring|].
  change (bounds_from x (L :: Ls)) with (x :: bounds_from (x + L) Ls). cbn [fold_right]. transitivity (x + L + fold_right Rplus 0 Ls); [|ring]. rewrite <- IH.
  destruct (bounds_from (x + L) Ls) eqn:E; [|reflexivity]. pose proof (bounds_from_len (x + L) Ls). rewrite E in *. discriminate.
Qed.
Lemma start_S Ls i : (i < length Ls)%nat -> start Ls (S i) = start Ls i + nth i Ls 0.
Proof.
  unfold start, lsum. revert i. induction Ls as [|L Ls IH]; intros i Hi; cbn in *; [lia|].
  destruct i as [|i]; [cbn; ring|]. cbn [firstn fold_right]. specialize (IH i ltac:(lia)). cbn [firstn] in IH. rewrite IH. ring.
Qed.

(** Loading of one span: only its own row counts. *)
Lemma segment_row_span w x0 x1 i s e r : In r (segment_row w x0 x1 i s e) -> exists ld, parse_row r = Ok [(Z.of_nat i, ld)] /\
  (ld = LUDL w \/ exists a c, ld = LPUDL w a c).
Proof.
  unfold segment_row. cbv zeta. destruct (Rleb _ _); [intros []|]. destruct (_ && _); intros [<-|[]]; cbn [parse_row]; cbn [Z.eqb Pos.eqb get nth_error rbind];
    replace (Z.of_nat i + 1 - 1)%Z with (Z.of_nat i) by lia; eexists; (split; [reflexivity|]); eauto.
Qed.
Lemma segment_row_other Ls w x0 x1 i s e j x : i <> j -> loading Ls (segment_row w x0 x1 i s e) j x = 0.
Proof.
  intros D. unfold loading, lsum. assert (F : Forall (fun v => v = 0) (map (row_intensity Ls j x) (segment_row w x0 x1 i s e))).
  { apply Forall_forall. intros v Hv. apply in_map_iff in Hv. destruct Hv as (r & <- & Hr).
    destruct (segment_row_span _ _ _ _ _ _ _ Hr) as (ld & E & _). unfold row_intensity. rewrite E.
    destruct (Z.eqb_spec (Z.of_nat i) (Z.of_nat j)); [lia|reflexivity]. }
  induction F as [|v l E F IH]; cbn; [reflexivity|]. rewrite E, IH. ring.
Qed.
Lemma loading_app Ls r1 r2 j x : loading Ls (r1 ++ r2) j x = loading Ls r1 j x + loading Ls r2 j x.
Proof. unfold loading. rewrite map_app, lsum_app. reflexivity. Qed.
Lemma segment_rows_cons w x0 x1 i0 b K Ks : segment_rows w x0 x1 i0 (b :: bounds_from (b + K) Ks) =
  segment_row w x0 x1 i0 b (b + K) ++ segment_rows w x0 x1 (S i0) (bounds_from (b + K) Ks).
Proof. destruct Ks; reflexivity. Qed.
Lemma segment_rows_loading Ls w x0 x1 j x : forall Ks b i0, (i0 <= j < i0 + length Ks)%nat ->
  loading Ls (segment_rows w x0 x1 i0 (bounds_from b Ks)) j x =
  loading Ls (segment_row w x0 x1 j (nth (j - i0) (bounds_from b Ks) 0) (nth (j - i0 + 1) (bounds_from b Ks) 0)) j x.
Proof.
  assert (Z : forall Ks b i0, (j < i0)%nat -> loading Ls (segment_rows w x0 x1 i0 (bounds_from b Ks)) j x = 0).
  { induction Ks as [|K Ks IH]; intros b i0 H; [reflexivity|]. cbn [bounds_from].
    rewrite segment_rows_cons, loading_app, segment_row_other by lia. rewrite IH by lia. ring. }
  induction Ks as [|K Ks IH]; intros b i0 H; cbn [length] in H; [lia|]. cbn [bounds_from].
  rewrite segment_rows_cons, loading_app. destruct (Nat.eq_dec i0 j) as [->|D].
  - rewrite Z by lia. rewrite Nat.sub_diag. cbn [nth Nat.add]. replace (nth 0 (bounds_from (b + K) Ks) 0) with (b + K) by (destruct Ks; reflexivity). ring.
  - rewrite segment_row_other by exact D. rewrite IH by lia. replace (j - i0)%nat with (S (j - S i0)) by lia. cbn [nth Nat.add]. ring.
Qed.

Lemma isclose_iff r a x y : isclose r a x y = true <-> Rabs (x - y) <= a + r * Rabs y.
Proof. unfold isclose, Rleb. destruct (Rle_dec _ _); split; intros; try lra; try discriminate; reflexivity. Qed.

(** Loading of the segment's row on a span from [s] of length [L]. *)
Lemma segment_span_loading Ls w x0 x1 j s x : let L := nth j Ls 0 in length_tol < L -> 0 < x < L -> x0 <= s + L -> s <= x1 -> 
  ((x0 + length_tol < s + x \/ x0 <= s) -> (s + x < x1 - length_tol \/ s + L <= x1) -> loading Ls (segment_row w x0 x1 j s (s + L)) j x = w) /\
  (s + x < x0 - length_tol -> loading Ls (segment_row w x0 x1 j s (s + L)) j x = 0) /\
  (x1 + (2 * length_tol + 1e-5 * L) < s + x -> loading Ls (segment_row w x0 x1 j s (s + L)) j x = 0).
Proof.
  intros L HL Hx H0 H1. unfold segment_row. cbv zeta. change seg_tol with length_tol.
  assert (T : 0 < length_tol) by (unfold length_tol; lra).
  replace (s + L - s) with L by ring.
  set (os := Rmax x0 s). set (oe := Rmin x1 (s + L)).
  assert (Eos : os = x0 /\ s <= x0 \/ os = s /\ x0 <= s) by (unfold os, Rmax; destruct (Rle_dec x0 s); [right|left]; lra).
  assert (Eoe : oe = x1 /\ x1 <= s + L \/ oe = s + L /\ s + L <= x1) by (unfold oe, Rmin; destruct (Rle_dec x1 (s + L)); [left|right]; lra).
  clearbody os oe.
  assert (P : forall a c, loading Ls [Row (Z.of_nat j + 1) 3 [w; a; c]] j x = if Rlt_dec x a then 0 else if Rlt_dec (a + c) x then 0 else w).
  { intros a c. unfold loading, row_intensity. cbn [map parse_row]. cbn [Z.eqb Pos.eqb get nth_error rbind]. replace (Z.of_nat j + 1 - 1)%Z with (Z.of_nat j) by lia.
    rewrite Z.eqb_refl. unfold lsum. cbn. destruct (Rlt_dec x a); [ring|]. destruct (Rlt_dec _ x); ring. }
  assert (U : loading Ls [Row (Z.of_nat j + 1) 1 [w]] j x = w).
  { unfold loading, row_intensity. cbn [map parse_row]. cbn [Z.eqb Pos.eqb get nth_error rbind]. replace (Z.of_nat j + 1 - 1)%Z with (Z.of_nat j) by lia.
    rewrite Z.eqb_refl. unfold lsum. cbn. ring. }
  unfold Rleb. destruct (Rle_dec (oe - os) length_tol) as [C|C].
  { change (loading Ls [] j x) with 0. split; [intros Hm Hm2; exfalso; lra|split; intros; reflexivity]. }
  apply Rnot_le_lt in C.
  assert (Ia : isclose 1e-5 length_tol (os - s) 0 = true <-> os - s <= length_tol).
  { rewrite isclose_iff, Rminus_0_r, Rabs_R0, Rabs_pos_eq by lra. split; lra. }
  assert (Ic : isclose 1e-5 length_tol (oe - os) L = true <-> L - (oe - os) <= length_tol + 1e-5 * L).
  { rewrite isclose_iff, (Rabs_pos_eq L) by lra. rewrite Rabs_minus_sym, Rabs_pos_eq by lra. reflexivity. }
  unfold Reqb.
  destruct (isclose 1e-5 length_tol (os - s) 0) eqn:Ea; destruct (isclose 1e-5 length_tol (oe - os) L) eqn:Ec.
  - destruct (Req_EM_T 0 0); [|lra]. destruct (Req_EM_T L L); [|lra]. cbn [andb]. rewrite U.
    assert (A := proj1 Ia eq_refl). assert (B := proj1 Ic eq_refl). repeat split; intros; lra.
  - assert (A := proj1 Ia eq_refl). destruct (Req_EM_T 0 0); [|lra]. destruct (Req_EM_T (oe - os) L) as [F|F]; cbn [andb].
    + rewrite U. repeat split; intros; lra.
    + rewrite P. destruct (Rlt_dec x 0); [lra|]. destruct (Rlt_dec (0 + (oe - os)) x); repeat split; intros; lra.
  - assert (A : length_tol < os - s). { apply Rnot_le_lt. intros X. apply Ia in X. discriminate. } assert (B := proj1 Ic eq_refl).
    destruct (Req_EM_T (os - s) 0); [lra|]. cbn [andb]. rewrite P. destruct (Rlt_dec x (os - s)); [|destruct (Rlt_dec _ x)]; repeat split; intros; lra.
  - assert (A : length_tol < os - s). { apply Rnot_le_lt. intros X. apply Ia in X. discriminate. }
    destruct (Req_EM_T (os - s) 0); [lra|]. cbn [andb]. rewrite P. destruct (Rlt_dec x (os - s)); [|destruct (Rlt_dec _ x)]; repeat split; intros; lra.
Qed.
(** A span that the segment does not reach. *)
Lemma segment_span_away Ls w x0 x1 j s e x : e <= x0 \/ x1 <= s -> loading Ls (segment_row w x0 x1 j s e) j x = 0.
Proof.
  intros H. unfold segment_row. cbv zeta. unfold Rleb at 1. destruct (Rle_dec _ _) as [C|C]; [reflexivity|]. exfalso. apply C.
  assert (0 < seg_tol) by (unfold seg_tol; lra). pose proof (Rmax_l x0 s). pose proof (Rmax_r x0 s). pose proof (Rmin_l x1 e). pose proof (Rmin_r x1 e). lra.
Qed.

Lemma start_bounds Ls i : Forall (fun L => 0 < L) Ls -> (i <= length Ls)%nat -> 0 <= start Ls i <= lsum Ls.
Proof.
  unfold start, lsum. intros F. revert i. induction F as [|L Ls HL F IH]; intros i Hi; cbn in *.
  - rewrite firstn_nil. cbn. lra.
  - destruct i as [|i]; cbn; [|specialize (IH i ltac:(lia)); lra]. specialize (IH 0%nat ltac:(lia)). cbn in IH. lra.
Qed.

Lemma segment_spec Ls x0 x1 w rows : Forall (fun L => length_tol < L) Ls -> make_segment_udl Ls x0 x1 w = Ok rows ->
  forall i x, (i < length Ls)%nat -> 0 < x < nth i Ls 0 ->
  (x0 + length_tol < start Ls i + x < x1 - length_tol -> loading Ls rows i x = w) /\
  (start Ls i + x < x0 - length_tol -> loading Ls rows i x = 0) /\
  (x1 + (2 * length_tol + 1e-5 * nth i Ls 0) < start Ls i + x -> loading Ls rows i x = 0).
Proof.
  intros F H i x Hi Hx. unfold make_segment_udl in H. cbv zeta in H. unfold boundaries in H. rewrite bounds_last, Rplus_0_l in H.
  unfold Rleb in H. destruct (Rle_dec x1 x0) as [|C]; [discriminate|]. unfold Rltb in H. destruct (Rlt_dec x0 _) as [|A]; [discriminate|].
  destruct (Rlt_dec _ x1) as [|B]; [discriminate|]. cbn [orb] in H. injection H as <-.
  assert (F0 : Forall (fun L => 0 < L) Ls) by (eapply Forall_impl; [|exact F]; unfold length_tol; cbn; intros; lra).
  change seg_tol with length_tol in *.
  assert (T : 0 < length_tol) by (unfold length_tol; lra).
  assert (Hi' := start_bounds Ls (S i) F0 Hi). rewrite start_S in Hi' by exact Hi. assert (Hs := start_bounds Ls i F0 ltac:(lia)).
  rewrite segment_rows_loading by lia. rewrite Nat.sub_0_r, !bounds_from_nth by lia. rewrite !Rplus_0_l, Nat.add_1_r, start_S by exact Hi.
  set (s := start Ls i) in *. set (total := lsum Ls) in *.
  set (y0 := Rmax 0 (Rmin x0 total)). set (y1 := Rmax 0 (Rmin x1 total)).
  assert (E0 : y0 = x0 /\ 0 <= x0 <= total \/ y0 = 0 /\ x0 <= 0 \/ y0 = total /\ total <= x0).
  { unfold y0, Rmax, Rmin. destruct (Rle_dec x0 total); destruct (Rle_dec 0 _); lra. }
  assert (E1 : y1 = x1 /\ 0 <= x1 <= total \/ y1 = 0 /\ x1 <= 0 \/ y1 = total /\ total <= x1).
  { unfold y1, Rmax, Rmin. destruct (Rle_dec x1 total); destruct (Rle_dec 0 _); lra. }
  assert (HL : length_tol < nth i Ls 0) by (rewrite Forall_forall in F; apply F, nth_In; exact Hi).
  destruct (Rle_dec (s + nth i Ls 0) y0) as [D|D].
  { rewrite segment_span_away by lra. repeat split; intros; lra. }
  destruct (Rle_dec y1 s) as [D'|D'].
  { rewrite segment_span_away by lra. repeat split; intros; lra. }
  destruct (segment_span_loading Ls w y0 y1 i s x HL Hx ltac:(lra) ltac:(lra)) as (P1 & P2 & P3).
  repeat split; intros Hp.
  - apply P1; lra.
  - apply P2; lra.
  - apply P3; lra.
Qed.

(** Raises exactly outside the documented domain. *)
Lemma segment_total Ls x0 x1 w : (exists rows, make_segment_udl Ls x0 x1 w = Ok rows) <->
  x0 < x1 /\ - length_tol <= x0 /\ x1 <= lsum Ls + length_tol.
Proof.
  unfold make_segment_udl. cbv zeta. unfold boundaries. rewrite bounds_last, Rplus_0_l. change seg_tol with length_tol.
  unfold Rleb. destruct (Rle_dec x1 x0); [split; [intros (qq & E); discriminate|lra]|].
  unfold Rltb. destruct (Rlt_dec x0 _); [split; [intros (qq & E); discriminate|lra]|].
  destruct (Rlt_dec _ x1); [split; [intros (qq & E); discriminate|lra]|]. cbn [orb]. split; [lra|eauto].
Qed.
(** The cover snaps to the span: a point 5e-5 beyond the segment is loaded. *)
Lemma segment_snap : exists Ls x0 x1 w rows x, Forall (fun L => 1 <= L) Ls /\ make_segment_udl Ls x0 x1 w = Ok rows /\
  0 < x < nth 0 Ls 0 /\ x1 + 1e-6 < start Ls 0 + x /\ loading Ls rows 0 x <> 0.
Proof.
  exists [10], 0, 9.9999, 1. destruct (proj2 (segment_total [10] 0 9.9999 1)) as (rows & E).
  { unfold length_tol, lsum. cbn. lra. }
  exists rows, 9.99995. split; [repeat constructor; lra|]. split; [exact E|]. split; [cbn; lra|]. split; [unfold start, lsum; cbn; lra|].
  unfold make_segment_udl in E. cbv zeta in E. unfold boundaries in E. cbn [bounds_from last] in E.
  unfold Rleb in E at 1. destruct (Rle_dec 9.9999 0); [lra|]. destruct (_ || _); [discriminate|]. injection E as <-.
  replace (Rmax 0 (Rmin 0 (0 + 10))) with 0 by (rewrite Rmin_left, Rmax_left; lra).
  replace (Rmax 0 (Rmin 9.9999 (0 + 10))) with 9.9999 by (rewrite Rmin_left, Rmax_right; lra).
  cbn [segment_rows]. rewrite app_nil_r. unfold segment_row. cbv zeta.
  replace (Rmax 0 0) with 0 by (rewrite Rmax_left; lra). replace (Rmin 9.9999 (0 + 10)) with 9.9999 by (rewrite Rmin_left; lra).
  unfold Rleb. destruct (Rle_dec _ _) as [C|_]; [unfold seg_tol in C; lra|].
  replace (isclose 1e-5 seg_tol (0 - 0) 0) with true by (symmetry; apply isclose_iff; unfold seg_tol; rewrite !Rminus_0_r, !Rabs_R0; lra).
  replace (isclose 1e-5 seg_tol (9.9999 - 0) (0 + 10 - 0)) with true.
  2: { symmetry. apply isclose_iff. unfold seg_tol. rewrite (Rabs_pos_eq (0 + 10 - 0)) by lra. rewrite Rabs_minus_sym, Rabs_pos_eq; lra. }
  unfold Reqb. destruct (Req_EM_T 0 0); [|lra]. destruct (Req_EM_T (0 + 10 - 0) (0 + 10 - 0)); [|lra].
  unfold loading, row_intensity, lsum. cbn. lra.
Qed.

(** ** Names *)
Fixpoint no_space (s : string) : Prop := match s with EmptyString => True | String c t => c <> " "%char /\ no_space t end.
Lemma digits_no_space d : no_space (NilEmpty.string_of_uint d).
Proof. induction d; cbn; auto; split; try assumption; discriminate. Qed.
Lemma dec_inj m n : dec m = dec n -> m = n.
Proof.
  intros H. unfold dec in H. assert (E : Some (Nat.to_uint m) = Some (Nat.to_uint n)) by (rewrite <- !NilEmpty.usu, H; reflexivity).
  injection E as E. apply DecimalNat.Unsigned.to_uint_inj, E.
Qed.
Lemma dec_no_space n : no_space (dec n).
Proof. apply digits_no_space. Qed.
Lemma split_space a b r t : no_space a -> no_space b -> (a ++ String " " r = b ++ String " " t)%string -> a = b /\ r = t.
Proof.
  revert b. induction a as [|c a IH]; intros [|e b] Ha Hb E; cbn in *.
  - injection E as ->. auto.
  - injection E as E1 E2. destruct Hb as [Hb _]. congruence.
  - injection E as E1 E2. destruct Ha as [Ha _]. congruence.
  - injection E as <- E. destruct (IH b (proj2 Ha) (proj2 Hb) E) as [-> ->]. auto.
Qed.
Lemma prefix_inj p a b : (p ++ a = p ++ b)%string -> a = b.
Proof. induction p as [|c p IH]; cbn; intros H; [exact H|]. injection H as H. apply IH, H. Qed.
Lemma pattern_name_inj i j i' j' : pattern_name i j = pattern_name i' j' -> i = i' /\ j = j'.
Proof.
  unfold pattern_name. intros H. apply prefix_inj in H. change (" segment " ++ dec j)%string with (String " " ("segment " ++ dec j)) in H.
  change (" segment " ++ dec j')%string with (String " " ("segment " ++ dec j')) in H.
  apply split_space in H; [|apply dec_no_space..]. destruct H as [H1 H2]. apply prefix_inj in H2. split; apply dec_inj; assumption.
Qed.

(** ** Patterned loads *)
Lemma has_name_false s cs : (forall c, In c cs -> lc_name c <> s) -> has_name s cs = false.
Proof.
  intros H. unfold has_name. destruct (existsb _ cs) eqn:E; [|reflexivity]. apply existsb_exists in E. destruct E as (c & Hc & E).
  apply String.eqb_eq in E. destruct (H c Hc E).
Qed.
Definition pattern_list (w L : R) (n i idx : nat) : list lcase := map (fun j => pattern_case w L n i j (idx + j)) (seq 0 n).
Lemma pattern_span_ok w L n i cs idx : (forall c, In c cs -> exists i' j', (i' < i)%nat /\ lc_name c = pattern_name i' j') ->
  pattern_span w L n i (cs, idx) = Ok (cs ++ pattern_list w L n i idx, (idx + n)%nat).
Proof.
  intros H. unfold pattern_span, pattern_list. set (st := fun (st : list lcase * nat) j => _).
  assert (P : forall k, foldM st (seq 0 k) (cs, idx) = Ok (cs ++ map (fun j => pattern_case w L n i j (idx + j)) (seq 0 k), (idx + k)%nat)).
  { induction k as [|k IH]; [cbn; rewrite app_nil_r, Nat.add_0_r; reflexivity|].
    rewrite seq_S, foldM_app, IH. cbn [rbind foldM Nat.add]. unfold st. cbn [fst snd]. unfold lcs_add.
    rewrite has_name_false; [cbn [rbind]; rewrite map_app, app_assoc; cbn [map]; rewrite Nat.add_succ_r; reflexivity|].
    intros c Hc E. cbn [pattern_case lc_name] in E. apply in_app_or in Hc. destruct Hc as [Hc|Hc].
    - destruct (H c Hc) as (i' & j' & L' & N). rewrite N in E. apply pattern_name_inj in E. lia.
    - apply in_map_iff in Hc. destruct Hc as (j & <- & Hj). apply in_seq in Hj. cbn [pattern_case lc_name] in E. apply pattern_name_inj in E. lia. }
  apply P.
Qed.
Lemma pattern_ok Ls w n : (1 <= n)%nat -> make_patterned_udl Ls w n =
  Ok (flat_map (fun i => pattern_list w (nth i Ls 0) n (S i) (i * n)) (seq 0 (length Ls))).
Proof.
  intros Hn. unfold make_patterned_udl. destruct (Nat.ltb_spec n 1); [lia|]. set (step := fun st p => _).
  assert (P : forall k, (k <= length Ls)%nat -> foldM step (firstn k (combine (seq 1 (length Ls)) Ls)) ([], O) =
    Ok (flat_map (fun i => pattern_list w (nth i Ls 0) n (S i) (i * n)) (seq 0 k), (k * n)%nat)).
  { induction k as [|k IH]; intros Hk; [reflexivity|].
    assert (E : firstn (S k) (combine (seq 1 (length Ls)) Ls) = firstn k (combine (seq 1 (length Ls)) Ls) ++ [(S k, nth k Ls 0)]).
    { clear -Hk. assert (X : forall (l : list R) s k, (k < length l)%nat -> firstn (S k) (combine (seq s (length l)) l) = firstn k (combine (seq s (length l)) l) ++ [((s + k)%nat, nth k l 0)]).
      { induction l as [|a l IH]; intros s [|q] Hq; cbn in *; try lia; [rewrite Nat.add_0_r; reflexivity|]. f_equal. rewrite Nat.add_succ_r, <- Nat.add_succ_l. apply IH. lia. }
      exact (X Ls 1%nat k Hk). }
    rewrite E, foldM_app, IH by lia. cbn [rbind foldM]. unfold step. cbn [fst snd]. rewrite pattern_span_ok.
    - cbn [rbind]. rewrite seq_S, flat_map_app. cbn [flat_map Nat.add]. rewrite app_nil_r, (Nat.add_comm (k * n)). reflexivity.
    - intros c Hc. apply in_flat_map in Hc. destruct Hc as (i & Hi & Hc). apply in_seq in Hi. apply in_map_iff in Hc. destruct Hc as (j & <- & _).
      exists (S i), (j + 1)%nat. split; [lia|reflexivity]. }
  specialize (P (length Ls) (le_n _)). rewrite firstn_all2 in P by (rewrite combine_length, seq_length; lia). rewrite P. reflexivity.
Qed.

(** Cut points of a span. *)
Definition cut (L : R) (n j : nat) : R := INR j * (L / INR n).
Lemma cut_0 L n : cut L n 0 = 0.
Proof. unfold cut. cbn. ring. Qed.
Lemma cut_n L n : (1 <= n)%nat -> cut L n n = L.
Proof. intros H. unfold cut. field. apply not_0_INR. lia. Qed.
Lemma cut_S L n j : cut L n (S j) = cut L n j + L / INR n.
Proof. unfold cut. rewrite S_INR. ring. Qed.
Lemma pattern_case_row w L n i j idx : (j < n)%nat ->
  lc_loads (pattern_case w L n i j idx) = [Row (Z.of_nat i) 3 [w; cut L n j; cut L n (S j) - cut L n j]].
Proof.
  intros Hj. unfold pattern_case. cbn [lc_loads]. fold (cut L n j).
  assert (E : (if Nat.eqb j (n - 1) then L - cut L n j else L / INR n) = cut L n (S j) - cut L n j).
  { destruct (Nat.eqb_spec j (n - 1)) as [->|D].
    - replace (S (n - 1)) with n by lia. rewrite (cut_n L n) by lia. reflexivity.
    - rewrite cut_S. ring. }
  rewrite E. reflexivity.
Qed.
Lemma nth_flat_const {A} (f : nat -> list A) n m i j : (forall i, length (f i) = n) -> (i < m)%nat -> (j < n)%nat ->
  nth_error (flat_map f (seq 0 m)) (i * n + j) = nth_error (f i) j.
Proof.
  intros Hl. assert (X : forall m s i, (i < m)%nat -> (j < n)%nat -> nth_error (flat_map f (seq s m)) (i * n + j) = nth_error (f (s + i)%nat) j).
  { clear m i. induction m as [|m IH]; intros s i Hi Hj; [lia|]. cbn [seq flat_map]. destruct i as [|i].
    - rewrite nth_error_app1 by (rewrite Hl; lia). rewrite Nat.add_0_r. reflexivity.
    - rewrite nth_error_app2 by (rewrite Hl; cbn; lia). rewrite Hl. replace (S i * n + j - n)%nat with (i * n + j)%nat by (cbn; lia).
      rewrite IH by lia. rewrite Nat.add_succ_r. reflexivity. }
  exact (X m 0%nat i).
Qed.
Lemma flat_const_len {A} (f : nat -> list A) n m : (forall i, length (f i) = n) -> length (flat_map f (seq 0 m)) = (m * n)%nat.
Proof. intros Hl. generalize 0%nat. induction m as [|m IH]; intros s; cbn; [reflexivity|]. rewrite app_length, IH, Hl. reflexivity. Qed.

Definition pattern_row (w : R) (Ls : list R) (n i j : nat) : row :=
  Row (Z.of_nat i + 1) 3 [w; cut (nth i Ls 0) n j; cut (nth i Ls 0) n (S j) - cut (nth i Ls 0) n j].
Lemma NoDup_app' {A} (l1 l2 : list A) : NoDup l1 -> NoDup l2 -> (forall x, In x l1 -> ~ In x l2) -> NoDup (l1 ++ l2).
Proof.
  induction 1 as [|a l H N IH]; intros N2 D; [exact N2|]. cbn. constructor.
  - rewrite in_app_iff. intros [I|I]; [exact (H I)|exact (D a (or_introl eq_refl) I)].
  - apply IH; [exact N2|]. intros x Hx. apply D. right. exact Hx.
Qed.
Lemma NoDup_flat_seq {A C} (f : nat -> list A) (g : A -> C) m : (forall i, NoDup (map g (f i))) ->
  (forall i j a b, In a (f i) -> In b (f j) -> g a = g b -> i = j) -> forall s, NoDup (map g (flat_map f (seq s m))).
Proof.
  intros H1 H2. induction m as [|m IH]; intros s; cbn; [constructor|]. rewrite map_app. apply NoDup_app'; [apply H1|apply IH|].
  intros x Hx Hy. apply in_map_iff in Hx. destruct Hx as (a & <- & Ha). apply in_map_iff in Hy. destruct Hy as (b & E & Hb).
  apply in_flat_map in Hb. destruct Hb as (j & Hj & Hb). apply in_seq in Hj. specialize (H2 s j a b Ha Hb (eq_sym E)). lia.
Qed.
Lemma pattern_spec Ls w n cs : make_patterned_udl Ls w n = Ok cs ->
  (1 <= n)%nat /\ length cs = (length Ls * n)%nat /\ unique_names cs /\
  forall i j, (i < length Ls)%nat -> (j < n)%nat -> exists c, nth_error cs (i * n + j) = Some c /\
    lc_name c = pattern_name (i + 1) (j + 1) /\ lc_loads c = [pattern_row w Ls n i j] /\ lc_pos c = Some (2 ^ Z.of_nat (i * n + j))%Z.
Proof.
  intros H. assert (Hn : (1 <= n)%nat) by (unfold make_patterned_udl in H; destruct (Nat.ltb_spec n 1); [discriminate|assumption]).
  rewrite pattern_ok in H by exact Hn. injection H as <-.
  assert (Hl : forall i, length (pattern_list w (nth i Ls 0) n (S i) (i * n)) = n) by (intros i; unfold pattern_list; rewrite map_length, seq_length; reflexivity).
  split; [exact Hn|]. split; [apply flat_const_len, Hl|]. split.
  - apply NoDup_flat_seq.
    + intros i. unfold pattern_list. rewrite map_map. cbn [pattern_case lc_name].
      apply FinFun.Injective_map_NoDup; [|apply seq_NoDup]. intros a b E. apply pattern_name_inj in E. lia.
    + intros i j a b Ha Hb E. apply in_map_iff in Ha. destruct Ha as (p & <- & _). apply in_map_iff in Hb. destruct Hb as (q & <- & _).
      cbn [pattern_case lc_name] in E. apply pattern_name_inj in E. lia.
  - intros i j Hi Hj. rewrite nth_flat_const by assumption. unfold pattern_list. rewrite nth_error_map, (nth_error_nth' _ 0%nat) by (rewrite seq_length; exact Hj).
    rewrite seq_nth by exact Hj. cbn [option_map Nat.add]. eexists. split; [reflexivity|]. rewrite pattern_case_row by exact Hj.
    cbn [pattern_case lc_name lc_pos]. rewrite shift_pow. split; [rewrite !Nat.add_1_r; reflexivity|]. split; [|reflexivity].
    unfold pattern_row. rewrite Nat2Z.inj_succ. unfold Z.succ. reflexivity.
Qed.
Lemma pattern_rows Ls w n cs : make_patterned_udl Ls w n = Ok cs ->
  flat_map lc_loads cs = flat_map (fun i => map (pattern_row w Ls n i) (seq 0 n)) (seq 0 (length Ls)).
Proof.
  intros H. assert (Hn : (1 <= n)%nat) by (apply (pattern_spec _ _ _ _ H)). rewrite pattern_ok in H by exact Hn. injection H as <-.
  enough (G : forall m s, flat_map lc_loads (flat_map (fun i => pattern_list w (nth i Ls 0) n (S i) (i * n)) (seq s m)) =
    flat_map (fun i => map (pattern_row w Ls n i) (seq 0 n)) (seq s m)) by apply G.
  induction m as [|m IH]; intros s; [reflexivity|]. cbn [seq flat_map]. rewrite flat_map_app, IH. f_equal.
  unfold pattern_list.
  assert (X : forall l, (forall j, In j l -> (j < n)%nat) -> flat_map lc_loads (map (fun j => pattern_case w (nth s Ls 0) n (S s) j (s * n + j)) l) = map (pattern_row w Ls n s) l).
  { induction l as [|j l IHl]; intros Hj; [reflexivity|]. cbn [map flat_map]. rewrite pattern_case_row by (apply Hj; left; reflexivity). cbn [app].
    rewrite IHl by (intros q Hq; apply Hj; right; exact Hq). unfold pattern_row at 2. rewrite Nat2Z.inj_succ. reflexivity. }
  apply X. intros j Hj. apply in_seq in Hj. lia.
Qed.
Lemma parse_singles (rows : list row) (ps : list (Z * load)) : Forall2 (fun r p => parse_row r = Ok [p]) rows ps -> parse_LM rows = Ok ps.
Proof.
  intros F. unfold parse_LM. replace (forallb is_list_row rows) with true; cbn [negb].
  - assert (E : mapM parse_row rows = Ok (map (fun p => [p]) ps)) by (induction F as [|r p rows ps E F IH]; cbn; [reflexivity|rewrite E; cbn; rewrite IH; reflexivity]).
    rewrite E. cbn [rbind]. f_equal. clear. induction ps as [|p ps IH]; cbn; [reflexivity|]. f_equal. exact IH.
  - symmetry. apply forallb_forall. intros r Hr. induction F as [|q p rows ps E F IH]; [destruct Hr|]. destruct Hr as [<-|Hr]; [|auto]. destruct q; [reflexivity|reflexivity|discriminate].
Qed.
Definition pattern_load (w : R) (Ls : list R) (n i j : nat) : load :=
  LPUDL w (cut (nth i Ls 0) n j) (cut (nth i Ls 0) n (S j) - cut (nth i Ls 0) n j).
Lemma pattern_parse w Ls n i j : parse_row (pattern_row w Ls n i j) = Ok [(Z.of_nat i, pattern_load w Ls n i j)].
Proof. unfold pattern_row. cbn. replace (Z.of_nat i + 1 - 1)%Z with (Z.of_nat i) by lia. reflexivity. Qed.
Lemma pattern_loads Ls w n cs : make_patterned_udl Ls w n = Ok cs -> exists ps, parse_LM (flat_map lc_loads cs) = Ok ps /\
  forall i, (i < length Ls)%nat -> loads_of ps i = map (pattern_load w Ls n i) (seq 0 n).
Proof.
  intros H. rewrite (pattern_rows _ _ _ _ H). clear H.
  exists (flat_map (fun i => map (fun j => (Z.of_nat i, pattern_load w Ls n i j)) (seq 0 n)) (seq 0 (length Ls))). split.
  - apply parse_singles. induction (seq 0 (length Ls)) as [|i l IH]; cbn; [constructor|]. apply Forall2_app; [|exact IH].
    clear IH. induction (seq 0 n) as [|j k IHk]; cbn; constructor; [apply pattern_parse|exact IHk].
  - intros i Hi. unfold loads_of.
    assert (Same : forall l, map snd (filter (fun p : Z * load => Z.eqb (fst p) (Z.of_nat i)) (map (fun j => (Z.of_nat i, pattern_load w Ls n i j)) l)) = map (pattern_load w Ls n i) l).
    { induction l as [|j l IH]; [reflexivity|]. cbn [map filter fst]. rewrite Z.eqb_refl. cbn. f_equal. exact IH. }
    assert (Other : forall k l, k <> i -> filter (fun p : Z * load => Z.eqb (fst p) (Z.of_nat i)) (map (fun j => (Z.of_nat k, pattern_load w Ls n k j)) l) = []).
    { intros k l D. induction l as [|j l IH]; [reflexivity|]. cbn [map filter fst]. destruct (Z.eqb_spec (Z.of_nat k) (Z.of_nat i)); [lia|]. exact IH. }
    assert (X : forall m s, (s <= i < s + m)%nat -> map snd (filter (fun p : Z * load => Z.eqb (fst p) (Z.of_nat i))
      (flat_map (fun i => map (fun j => (Z.of_nat i, pattern_load w Ls n i j)) (seq 0 n)) (seq s m))) = map (pattern_load w Ls n i) (seq 0 n)).
    { assert (Y : forall m s, (i < s)%nat -> filter (fun p : Z * load => Z.eqb (fst p) (Z.of_nat i))
        (flat_map (fun i => map (fun j => (Z.of_nat i, pattern_load w Ls n i j)) (seq 0 n)) (seq s m)) = []).
      { induction m as [|m IH]; intros s Hs; cbn [seq flat_map]; [reflexivity|]. rewrite filter_app, Other, IH by lia. reflexivity. }
      induction m as [|m IH]; intros s Hs; [lia|]. cbn [seq flat_map]. rewrite filter_app, map_app. destruct (Nat.eq_dec s i) as [->|D].
      - rewrite Same, Y by lia. apply app_nil_r.
      - rewrite Other by exact D. apply IH. lia. }
    apply X. lia.
Qed.
Lemma combined_ones cs rows : Forall wf_row rows -> flat_map lc_loads cs = rows -> (forall c r, In c cs -> In r (lc_loads c) -> factor_row 1 r = Ok r) ->
  combined_loads cs (FSeq (repeat 1 (length cs))) = Ok rows.
Proof.
  intros _ <- H. unfold combined_loads. cbn [lcs_factors]. rewrite repeat_length, Nat.eqb_refl. cbn [negb rbind].
  assert (X : forall acc, foldM (fun acc p => if Reqb (fst p) 0 then Ok acc else do r <- factor_LM (lc_loads (snd p)) (fst p); Ok (acc ++ r))
     (combine (repeat 1 (length cs)) cs) acc = Ok (acc ++ flat_map lc_loads cs)); [|apply (X [])].
  induction cs as [|c cs IH]; intros acc; cbn [length repeat combine foldM flat_map]; [rewrite app_nil_r; reflexivity|].
  cbn [fst snd]. unfold Reqb at 1. destruct (Req_EM_T 1 0); [lra|].
  assert (E : factor_LM (lc_loads c) 1 = Ok (lc_loads c)).
  { specialize (H c). assert (Hr : forall r, In r (lc_loads c) -> factor_row 1 r = Ok r) by (intros r Hr; apply H; [left; reflexivity|exact Hr]).
    clear -Hr. unfold factor_LM. induction (lc_loads c) as [|r l IHl]; cbn; [reflexivity|]. rewrite Hr by (left; reflexivity). cbn. rewrite IHl; [reflexivity|]. intros q Hq. apply Hr. right. exact Hq. }
  rewrite E. cbn [rbind]. rewrite IH by (intros d r Hd; apply H; right; exact Hd). rewrite app_assoc. reflexivity.
Qed.
Lemma pattern_together Ls w n cs : make_patterned_udl Ls w n = Ok cs -> combined_loads cs (FSeq (repeat 1 (length cs))) = Ok (flat_map lc_loads cs).
Proof.
  intros H. pose proof (pattern_rows _ _ _ _ H) as E. apply combined_ones; [|reflexivity|].
  - rewrite E. apply Forall_forall. intros r Hr. apply in_flat_map in Hr. destruct Hr as (i & _ & Hr). apply in_map_iff in Hr. destruct Hr as (j & <- & _).
    unfold pattern_row. cbn. lia.
  - intros c r Hc Hr. assert (I : In r (flat_map lc_loads cs)) by (apply in_flat_map; eauto). rewrite E in I.
    apply in_flat_map in I. destruct I as (i & _ & I). apply in_map_iff in I. destruct I as (j & <- & _). unfold pattern_row. cbn. rewrite Rmult_1_l. reflexivity.
Qed.

(** Together they load every point of a span once. *)
Lemma cut_mono L n j k : 0 < L -> (1 <= n)%nat -> (j < k)%nat -> cut L n j < cut L n k.
Proof.
  intros HL Hn Hj. unfold cut. apply Rmult_lt_compat_r; [|apply lt_INR; exact Hj]. apply Rdiv_lt_0_compat; [exact HL|apply lt_0_INR; lia].
Qed.
Lemma loading_by_span Ls rows ps i x : parse_LM rows = Ok ps -> Forall2 (fun r p => parse_row r = Ok [p]) rows ps ->
  loading Ls rows i x = lsum (map (fun ld => intensity (action_of (nth i Ls 0) ld) x) (loads_of ps i)).
Proof.
  intros _ F. unfold loading, loads_of, lsum. induction F as [|r [s ld] rows ps E F IH]; [reflexivity|]. cbn [map fold_right filter fst].
  unfold row_intensity at 1. rewrite E. destruct (Z.eqb s (Z.of_nat i)); cbn [map fold_right snd]; rewrite IH; ring.
Qed.
Lemma pattern_singles Ls w n : Forall2 (fun r p => parse_row r = Ok [p])
  (flat_map (fun i => map (pattern_row w Ls n i) (seq 0 n)) (seq 0 (length Ls)))
  (flat_map (fun i => map (fun j => (Z.of_nat i, pattern_load w Ls n i j)) (seq 0 n)) (seq 0 (length Ls))).
Proof.
  induction (seq 0 (length Ls)) as [|i l IH]; cbn; [constructor|]. apply Forall2_app; [|exact IH].
  clear IH. induction (seq 0 n) as [|j k IHk]; cbn; constructor; [apply pattern_parse|exact IHk].
Qed.
Lemma Forall2_fun {A C} (f : A -> result (list C)) l p q : Forall2 (fun a b => f a = Ok [b]) l p -> Forall2 (fun a b => f a = Ok [b]) l q -> p = q.
Proof.
  intros F. revert q. induction F as [|a b l p E F IH]; intros q G; inversion G; subst; [reflexivity|]. f_equal; [congruence|apply IH; assumption].
Qed.
Lemma pattern_covers Ls w n cs i x : make_patterned_udl Ls w n = Ok cs -> (i < length Ls)%nat -> 0 < nth i Ls 0 -> 0 < x < nth i Ls 0 ->
  (forall j, (j <= n)%nat -> x <> cut (nth i Ls 0) n j) -> loading Ls (flat_map lc_loads cs) i x = w.
Proof.
  intros H Hi HL Hx Hc. assert (Hn : (1 <= n)%nat) by (apply (pattern_spec _ _ _ _ H)).
  destruct (pattern_loads _ _ _ _ H) as (ps & Hp & Hl). rewrite (pattern_rows _ _ _ _ H) in *.
  assert (S := pattern_singles Ls w n). assert (Ep := parse_singles _ _ S). rewrite Hp in Ep. injection Ep as ->.
  rewrite (loading_by_span _ _ _ i x Hp S), (Hl i Hi). clear Hp Hl S H. set (L := nth i Ls 0) in *.
  assert (X : forall k, (k <= n)%nat -> lsum (map (fun ld => intensity (action_of L ld) x) (map (pattern_load w Ls n i) (seq 0 k))) = if Rlt_dec x (cut L n k) then w else 0).
  { induction k as [|k IH]; intros Hk.
    - rewrite cut_0. destruct (Rlt_dec x 0); [lra|reflexivity].
    - rewrite seq_S, !map_app, lsum_app, IH by lia. cbn [map Nat.add]. unfold pattern_load, lsum. fold L. cbn [fold_right action_of intensity].
      assert (M := cut_mono L n k (S k) HL Hn ltac:(lia)). assert (N1 := Hc k ltac:(lia)). assert (N2 := Hc (S k) Hk).
      replace (cut L n k + (cut L n (S k) - cut L n k)) with (cut L n (S k)) by ring.
      destruct (Rlt_dec x (cut L n k)); destruct (Rlt_dec (cut L n (S k)) x); destruct (Rlt_dec x (cut L n (S k))); lra. }
  rewrite X by lia. rewrite cut_n by exact Hn. destruct (Rlt_dec x L); [reflexivity|lra].
Qed.

(** Fixed-end forces of the segments add up to those of the full load. *)
Lemma pudl_cnl_full w a c L : a <= L -> a + c <= L -> pudl_cnl w a c L = Ok
  {| c_Va := (w * c / L^3) * ((2 * (a + c / 2) + L) * (L - (a + c / 2))^2 + ((a + c / 2) - (L - (a + c / 2))) * c^2 / 4);
     c_Vb := w * c - (w * c / L^3) * ((2 * (a + c / 2) + L) * (L - (a + c / 2))^2 + ((a + c / 2) - (L - (a + c / 2))) * c^2 / 4);
     c_Ma := (w * c / L^2) * ((a + c / 2) * (L - (a + c / 2))^2 + ((a + c / 2) - 2 * (L - (a + c / 2))) * c^2 / 12);
     c_Mb := - (w * c / L^2) * ((L - (a + c / 2)) * (a + c / 2)^2 + ((L - (a + c / 2)) - 2 * (a + c / 2)) * c^2 / 12) |}.
Proof.
  intros H1 H2. unfold pudl_cnl, Rltb. destruct (Rlt_dec L a); [lra|]. cbv zeta. destruct (Rlt_dec _ 0); [lra|]. reflexivity.
Qed.
Lemma cnl_ext p q : c_Va p = c_Va q -> c_Ma p = c_Ma q -> c_Vb p = c_Vb q -> c_Mb p = c_Mb q -> p = q.
Proof. destruct p, q; cbn; congruence. Qed.
Lemma pattern_fixed_ends gl Ls w n i : (1 <= n)%nat -> 0 < nth i Ls 0 ->
  exists es, mapM (fun ld => get_cnl gl ld (nth i Ls 0)) (map (pattern_load w Ls n i) (seq 0 n)) = Ok es /\
    fold_right cnl_add cnl_zero es = udl_cnl w (nth i Ls 0).
Proof.
  intros Hn HL. set (L := nth i Ls 0) in *.
  assert (X : forall k, (k <= n)%nat -> exists es e, mapM (fun ld => get_cnl gl ld L) (map (pattern_load w Ls n i) (seq 0 k)) = Ok es /\
    pudl_cnl w 0 (cut L n k) L = Ok e /\ fold_right cnl_add cnl_zero es = e).
  { induction k as [|k IH]; intros Hk.
    - exists [], cnl_zero. split; [reflexivity|]. split; [|reflexivity]. rewrite cut_0, pudl_cnl_full by lra. f_equal. apply cnl_ext; cbn; field; lra.
    - destruct (IH ltac:(lia)) as (es & e & E1 & E2 & E3). rewrite seq_S, !map_app. cbn [map Nat.add].
      assert (M : cut L n k < cut L n (S k)) by (apply cut_mono; [exact HL|exact Hn|lia]).
      assert (U : cut L n (S k) <= L).
      { rewrite <- (cut_n L n Hn) at 2. destruct (Nat.eq_dec (S k) n) as [->|D]; [lra|]. left. apply cut_mono; [exact HL|exact Hn|lia]. }
      assert (Z : 0 <= cut L n k) by (destruct k; [rewrite cut_0; lra|rewrite <- (cut_0 L n); left; apply cut_mono; [exact HL|exact Hn|lia]]).
      unfold pattern_load at 2. fold L. set (a := cut L n k) in *. set (b := cut L n (S k)) in *.
      rewrite mapM_app, E1. cbn [mapM get_cnl rbind]. rewrite (pudl_cnl_full w a (b - a)) by lra. cbn [rbind].
      rewrite pudl_cnl_full in E2 by lra. injection E2 as <-. rewrite pudl_cnl_full by lra. eexists _, _. split; [reflexivity|]. split; [reflexivity|].
      rewrite fold_right_app. cbn [fold_right].
      assert (F : forall l c, fold_right cnl_add c l = cnl_add (fold_right cnl_add cnl_zero l) c).
      { induction l as [|p l IHl]; intros c; cbn; [apply cnl_ext; cbn; ring|]. rewrite IHl. apply cnl_ext; cbn; ring. }
      rewrite F, E3. apply cnl_ext; cbn; field; lra. }
  destruct (X n (le_n n)) as (es & e & E1 & E2 & E3). exists es. split; [exact E1|]. rewrite E3. rewrite (cut_n L n Hn), pudl_cnl_full in E2 by lra.
  injection E2 as <-. apply cnl_ext; cbn; field; lra.
Qed.

(** ** One case per span *)
Lemma span_udl_name_inj i j : span_udl_name i = span_udl_name j -> i = j.
Proof. unfold span_udl_name. intros H. cbn in H. repeat (injection H as H). apply dec_inj, H. Qed.
Definition span_case (w : R) (i : nat) : lcase :=
  {| lc_name := span_udl_name (i + 1); lc_loads := [Row (Z.of_nat i + 1) 1 [w]]; lc_pos := None |}.
Lemma make_span_udl_ok Ls w : make_span_udl Ls w = Ok (map (span_case w) (seq 0 (length Ls))).
Proof.
  unfold make_span_udl. induction (length Ls) as [|m IH]; [reflexivity|]. rewrite seq_S, foldM_app, IH, map_app. cbn [rbind foldM map Nat.add].
  unfold lcs_add. replace (has_name _ _) with false; [reflexivity|]. symmetry. apply Bool.not_true_iff_false. unfold has_name. rewrite existsb_exists.
  intros (c & Hc & E). apply String.eqb_eq in E. apply in_map_iff in Hc. destruct Hc as (j & <- & Hj). apply in_seq in Hj. cbn [span_case lc_name] in E.
  apply span_udl_name_inj in E. lia.
Qed.
Lemma span_cases_spec Ls w : exists cs, make_span_udl Ls w = Ok cs /\ length cs = length Ls /\ unique_names cs /\
  forall i, (i < length Ls)%nat -> exists c, nth_error cs i = Some c /\ lc_loads c = [Row (Z.of_nat i + 1) 1 [w]].
Proof.
  eexists. split; [apply make_span_udl_ok|]. split; [rewrite map_length; apply seq_length|]. split.
  - unfold unique_names. rewrite map_map. apply FinFun.Injective_map_NoDup; [|apply seq_NoDup]. intros i j E. cbn in E. apply span_udl_name_inj in E. lia.
  - intros i Hi. exists (span_case w i). split; [|reflexivity]. rewrite nth_error_map, (nth_error_nth' _ 0%nat) by (rewrite seq_length; exact Hi).
    rewrite seq_nth by exact Hi. reflexivity.
Qed.
Lemma pattern_tiles Ls w n : (n = 0%nat -> make_patterned_udl Ls w n = Err ValueError) /\
  (n <> 0%nat -> exists cs cuts, make_patterned_udl Ls w n = Ok cs /\ length cs = (length Ls * n)%nat /\ unique_names cs /\
    (forall i, cuts i 0%nat = 0 /\ cuts i n = nth i Ls 0 /\ (0 < nth i Ls 0 -> forall j, (j < n)%nat -> cuts i j < cuts i (S j))) /\
    forall i j, (i < length Ls)%nat -> (j < n)%nat -> exists c, nth_error cs (i * n + j) = Some c /\
      lc_loads c = [Row (Z.of_nat i + 1) 3 [w; cuts i j; cuts i (S j) - cuts i j]] /\ lc_pos c = Some (2 ^ Z.of_nat (i * n + j))%Z).
Proof.
  split; intros Hn; [subst; reflexivity|]. destruct (make_patterned_udl Ls w n) as [cs|e] eqn:E.
  - exists cs, (fun i => cut (nth i Ls 0) n). split; [reflexivity|]. destruct (pattern_spec _ _ _ _ E) as (H1 & H2 & H3 & H4).
    split; [exact H2|]. split; [exact H3|]. split.
    + intros i. split; [apply cut_0|]. split; [apply cut_n; exact H1|]. intros HL j _. apply cut_mono; [exact HL|exact H1|lia].
    + intros i j Hi Hj. destruct (H4 i j Hi Hj) as (c & Hc & _ & Hl & Hp). exists c. auto.
  - rewrite pattern_ok in E by lia. discriminate.
Qed.
Lemma cut_on_row Ls w n cs i j c a d : make_patterned_udl Ls w n = Ok cs -> (i < length Ls)%nat -> (j < n)%nat ->
  nth_error cs (i * n + j) = Some c -> lc_loads c = [Row (Z.of_nat i + 1) 3 [w; a; d]] -> a = cut (nth i Ls 0) n j.
Proof.
  intros H Hi Hj Hc Hl. destruct (pattern_spec _ _ _ _ H) as (_ & _ & _ & H4). destruct (H4 i j Hi Hj) as (c' & Hc' & _ & Hl' & _).
  rewrite Hc in Hc'. injection Hc' as <-. rewrite Hl in Hl'. unfold pattern_row in Hl'. injection Hl' as -> _. reflexivity.
Qed.
(** Away from the starts of the segments. *)
Lemma pattern_full Ls w n cs i x : make_patterned_udl Ls w n = Ok cs -> (i < length Ls)%nat -> 0 < x < nth i Ls 0 ->
  (forall c a d, In c cs -> lc_loads c = [Row (Z.of_nat i + 1) 3 [w; a; d]] -> x <> a) -> loading Ls (flat_map lc_loads cs) i x = w.
Proof.
  intros H Hi Hx Ha. apply (pattern_covers Ls w n cs i x H Hi); [lra|exact Hx|]. intros j Hj E.
  destruct (pattern_spec _ _ _ _ H) as (Hn & _ & _ & H4). destruct (Nat.eq_dec j n) as [->|D]; [rewrite cut_n in E by exact Hn; lra|].
  destruct (H4 i j Hi ltac:(lia)) as (c & Hc & _ & Hl & _). exact (Ha c _ _ (nth_error_In _ _ Hc) Hl E).
Qed.
(** The fixed-end forces of all cases together are those of the full load. *)
Lemma pattern_ends gl Ls w n cs i : make_patterned_udl Ls w n = Ok cs -> (i < length Ls)%nat -> 0 < nth i Ls 0 ->
  exists lm ps es e, combined_loads cs (FSeq (repeat 1 (length cs))) = Ok lm /\ parse_LM lm = Ok ps /\
    mapM (fun ld => get_cnl gl ld (nth i Ls 0)) (loads_of ps i) = Ok es /\ get_cnl gl (LUDL w) (nth i Ls 0) = Ok e /\
    lsum (map c_Va es) = c_Va e /\ lsum (map c_Ma es) = c_Ma e /\ lsum (map c_Vb es) = c_Vb e /\ lsum (map c_Mb es) = c_Mb e.
Proof.
  intros H Hi HL. destruct (pattern_loads _ _ _ _ H) as (ps & Hp & Hl). destruct (pattern_fixed_ends gl Ls w n i ltac:(apply (pattern_spec _ _ _ _ H)) HL) as (es & E1 & E2).
  exists (flat_map lc_loads cs), ps, es, (udl_cnl w (nth i Ls 0)). split; [exact (pattern_together _ _ _ _ H)|]. split; [exact Hp|]. rewrite (Hl i Hi). split; [exact E1|]. split; [reflexivity|].
  rewrite <- E2. clear. unfold lsum. induction es as [|e es IH]; cbn; [auto|]. destruct IH as (-> & -> & -> & ->). auto.
Qed.
Lemma pattern_all Ls w n cs i x : make_patterned_udl Ls w n = Ok cs -> (i < length Ls)%nat -> 0 < x < nth i Ls 0 ->
  (forall c a d, In c cs -> lc_loads c = [Row (Z.of_nat i + 1) 3 [w; a; d]] -> x <> a) ->
  combined_loads cs (FSeq (repeat 1 (length cs))) = Ok (flat_map lc_loads cs) /\ loading Ls (flat_map lc_loads cs) i x = w.
Proof. intros H Hi Hx Ha. split; [exact (pattern_together _ _ _ _ H)|exact (pattern_full _ _ _ _ _ _ H Hi Hx Ha)]. Qed.
