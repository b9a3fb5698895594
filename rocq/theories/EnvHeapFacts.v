(** The object model of the envelopes behaves like plain values. *)
From Coq Require Import Lia.
From Verif Require Import Base ResultsModel EnvelopeModel EnvelopeSpec EnvelopeFacts EnvHeapModel EnvHeapSpec.

Lemma nth_error_set {A} (l : list A) i a j : (i < length l)%nat ->
  nth_error (set_at l i a) j = if Nat.eqb i j then Some a else nth_error l j.
Proof.
  unfold set_at. revert l j. induction i as [|i IH]; intros [|b l] j H; cbn in *; try lia.
  - destruct j; reflexivity.
  - destruct j as [|j]; [reflexivity|]. cbn. rewrite <- IH by lia. reflexivity.
Qed.
Lemma set_at_length {A} (l : list A) i a : (i < length l)%nat -> length (set_at l i a) = length l.
Proof. intros H. unfold set_at. rewrite app_length, firstn_length. cbn [length]. rewrite skipn_length. lia. Qed.
Lemma nth_set {A} (l : list A) i a j d : (i < length l)%nat -> nth j (set_at l i a) d = if Nat.eqb i j then a else nth j l d.
Proof.
  intros H. pose proof (nth_error_set l i a j H) as E. destruct (Nat.eqb i j) eqn:Eij.
  - apply nth_error_nth. exact E.
  - destruct (nth_error l j) as [b|] eqn:Ej.
    + rewrite (nth_error_nth _ _ d E), (nth_error_nth _ _ d Ej). reflexivity.
    + apply nth_error_None in E. apply nth_error_None in Ej. rewrite !nth_overflow by assumption. reflexivity.
Qed.
Lemma zero_rows_spec n row m : (n <= length m)%nat ->
  length (zero_rows n row m) = length m /\
  forall j, nth_error (zero_rows n row m) j = if Nat.ltb j n then Some row else nth_error m j.
Proof.
  induction n as [|n IH]; intros H; cbn [zero_rows]; [split; reflexivity|].
  destruct IH as [L P]; [lia|]. split; [rewrite set_at_length; lia|].
  intros j. rewrite nth_error_set by lia. rewrite P.
  destruct (Nat.eqb_spec n j); destruct (Nat.ltb_spec j n); destruct (Nat.ltb_spec j (S n)); try lia; reflexivity.
Qed.
Lemma nth_error_ext {A} (l k : list A) : (forall j, nth_error l j = nth_error k j) -> l = k.
Proof.
  revert k. induction l as [|a l IH]; intros [|b k] H.
  - reflexivity.
  - specialize (H 0%nat). discriminate.
  - specialize (H 0%nat). discriminate.
  - pose proof (H 0%nat) as E. injection E as ->. f_equal. apply IH. intros j. exact (H (S j)).
Qed.
Lemma nth_error_repeat' {A} (a : A) n j : nth_error (repeat a n) j = if Nat.ltb j n then Some a else None.
Proof.
  revert j. induction n as [|n IH]; intros [|j]; cbn; try reflexivity. rewrite IH. reflexivity.
Qed.
Lemma zero_rows_all n row m : length m = n -> zero_rows n row m = repeat row n.
Proof.
  intros H. apply nth_error_ext. intros j. destruct (zero_rows_spec n row m) as [_ P]; [lia|]. rewrite P, nth_error_repeat'.
  destruct (Nat.ltb_spec j n); [reflexivity|]. apply nth_error_None. lia.
Qed.

(** Shape of the stored values. *)
Definition shaped (e : env) : Prop := length (e_Rmax e) = e_nsup e /\ length (e_Rmin e) = e_nsup e.
Lemma shaped_init vr e : env_init vr = Ok e -> shaped e.
Proof. intros E. apply env_sizes in E. destruct E as (_ & _ & E1 & E2). split; [rewrite E1|rewrite E2]; rewrite map_length, seq_length; reflexivity. Qed.
Lemma shaped_zero e : shaped (zero_like e).
Proof. split; apply repeat_length. Qed.
Lemma shaped_augment a b m : shaped a -> shaped b -> augment a b = Ok m -> shaped m.
Proof.
  intros [A1 A2] [B1 B2] E. pose proof (augment_inv _ _ _ E) as (_ & Es & _).
  unfold augment in E. destruct (_ || _); [discriminate|]. injection E as <-. unfold shaped. cbn.
  destruct (Nat.eqb _ _); split; rewrite ?map2_length, ?repeat_length; lia.
Qed.
Lemma shaped_sum a b m : shaped a -> shaped b -> sum_env a b = Ok m -> shaped m.
Proof.
  intros [A1 A2] [B1 B2] E. pose proof (sum_inv _ _ _ E) as (_ & Es & _).
  unfold sum_env in E. destruct (_ || _); [discriminate|]. injection E as <-. unfold shaped. cbn.
  destruct (Nat.eqb _ _); split; rewrite ?map2_length, ?repeat_length; lia.
Qed.

Record inv (h : heap) (st : list env) : Prop := {
  in_len : length (h_obj h) = length st;
  in_view : forall p o, nth_error (h_obj h) p = Some o -> nth_error st p = Some (read_obj h o);
  in_bound : forall p o, nth_error (h_obj h) p = Some o -> (o_Rmax o < length (h_arr h))%nat /\ (o_Rmin o < length (h_arr h))%nat /\ o_Rmax o <> o_Rmin o;
  in_sep : forall p q o o', nth_error (h_obj h) p = Some o -> nth_error (h_obj h) q = Some o' -> p <> q ->
    o_Rmax o <> o_Rmax o' /\ o_Rmax o <> o_Rmin o' /\ o_Rmin o <> o_Rmax o' /\ o_Rmin o <> o_Rmin o';
  in_shape : Forall shaped st }.

Lemma inv_lookup h st p : inv h st -> lookup st p = view h p.
Proof.
  intros H. unfold lookup, view. destruct (nth_error (h_obj h) p) as [o|] eqn:E.
  - rewrite (in_view _ _ H _ _ E). reflexivity.
  - apply nth_error_None in E. rewrite (in_len _ _ H) in E. apply nth_error_None in E. rewrite E. reflexivity.
Qed.

Lemma with_same e : with_history e (e_Rmax e) (e_Rmin e) = e.
Proof. destruct e; reflexivity. Qed.
Lemma arr_alloc h m a : (a < length (h_arr h))%nat -> nth a (h_arr h ++ [m]) [] = nth a (h_arr h) [].
Proof. intros H. apply app_nth1. exact H. Qed.

Lemma new_obj_inv h st e : inv h st -> shaped e -> exists h', new_obj h e = (h', length st) /\ inv h' (st ++ [e]) /\
  h_obj h' = h_obj h ++ [{| o_val := e; o_Rmax := length (h_arr h); o_Rmin := S (length (h_arr h)) |}] /\
  h_arr h' = h_arr h ++ [e_Rmax e; e_Rmin e].
Proof.
  intros [L V B S H] He. unfold new_obj, alloc, alloc_obj. cbn. eexists. split; [rewrite L; reflexivity|].
  rewrite <- app_assoc. cbn [app]. rewrite app_length. cbn [length]. rewrite Nat.add_1_r. cbn [h_obj h_arr]. split; [|split; reflexivity].
  set (n := length (h_arr h)) in *.
  assert (A1 : forall a, (a < n)%nat -> nth a (h_arr h ++ [e_Rmax e; e_Rmin e]) [] = nth a (h_arr h) []).
  { intros a Ha. apply app_nth1. exact Ha. }
  assert (A2 : nth n (h_arr h ++ [e_Rmax e; e_Rmin e]) [] = e_Rmax e).
  { unfold n. rewrite app_nth2 by lia. rewrite Nat.sub_diag. reflexivity. }
  assert (A3 : nth (Datatypes.S n) (h_arr h ++ [e_Rmax e; e_Rmin e]) [] = e_Rmin e).
  { unfold n. rewrite app_nth2 by lia. replace (Datatypes.S (length (h_arr h)) - length (h_arr h))%nat with 1%nat by lia. reflexivity. }
  assert (X : forall p o, nth_error (h_obj h ++ [{| o_val := e; o_Rmax := n; o_Rmin := Datatypes.S n |}]) p = Some o ->
    ((p < length st)%nat /\ nth_error (h_obj h) p = Some o) \/ (p = length st /\ o = {| o_val := e; o_Rmax := n; o_Rmin := Datatypes.S n |})).
  { intros p o E. destruct (Nat.lt_ge_cases p (length (h_obj h))) as [Hp|Hp].
    - rewrite nth_error_app1 in E by exact Hp. left. split; [lia|exact E].
    - rewrite nth_error_app2 in E by exact Hp. right. destruct (p - length (h_obj h))%nat as [|k] eqn:Ek; [|destruct k; discriminate].
      cbn in E. injection E as <-. split; [lia|reflexivity]. }
  constructor; cbn [h_obj h_arr].
  - rewrite !app_length. cbn. lia.
  - intros p o E. destruct (X p o E) as [[Hp E']|[-> ->]].
    + rewrite nth_error_app1 by exact Hp. rewrite (V p o E'). f_equal. unfold read_obj, arr. cbn [h_arr].
      destruct (B p o E') as (b1 & b2 & _). rewrite !A1 by assumption. reflexivity.
    + rewrite nth_error_app2 by lia. rewrite Nat.sub_diag. cbn. f_equal. unfold read_obj, arr. cbn [h_arr o_val o_Rmax o_Rmin].
      rewrite A2, A3. symmetry. apply with_same.
  - intros p o E. rewrite app_length. cbn [length]. destruct (X p o E) as [[Hp E']|[-> ->]]; [destruct (B p o E') as (b1 & b2 & b3); repeat split; lia|].
    cbn. unfold n. repeat split; lia.
  - intros p q o o' E E' N. destruct (X p o E) as [[Hp F]|[-> ->]], (X q o' E') as [[Hq F']|[-> ->]]; cbn; try lia.
    + exact (S p q o o' F F' N).
    + destruct (B p o F) as (b1 & b2 & _). repeat split; lia.
    + destruct (B q o' F') as (b1 & b2 & _). repeat split; lia.
  - apply Forall_app. split; [exact H|]. constructor; [exact He|constructor].
Qed.

Lemma set_last {A} (l : list A) a b : set_at (l ++ [a]) (length l) b = l ++ [b].
Proof.
  unfold set_at. rewrite firstn_app, firstn_all, Nat.sub_diag, firstn_O, app_nil_r. f_equal. f_equal.
  rewrite skipn_all2; [reflexivity|]. rewrite app_length. cbn. lia.
Qed.

Lemma zero_like_inv h st p e : inv h st -> view h p = Ok e -> exists h', h_zero_like h p = Ok (h', length st) /\ inv h' (st ++ [zero_like e]).
Proof.
  intros H E. assert (He : shaped e).
  { rewrite <- (inv_lookup _ _ _ H) in E. unfold lookup in E. destruct (nth_error st p) as [x|] eqn:Ex; [|discriminate].
    injection E as <-. pose proof (in_shape _ _ H) as F. rewrite Forall_forall in F. apply F. eapply nth_error_In. exact Ex. }
  destruct (new_obj_inv h st e H He) as (h1 & E1 & H1 & O1 & A1). unfold h_zero_like. rewrite E. cbn [rbind]. rewrite E1.
  assert (Q : nth_error (h_obj h1) (length st) = Some {| o_val := e; o_Rmax := length (h_arr h); o_Rmin := S (length (h_arr h)) |}).
  { rewrite O1, nth_error_app2 by (rewrite (in_len _ _ H); lia). rewrite (in_len _ _ H), Nat.sub_diag. reflexivity. }
  rewrite Q. cbn [o_Rmax o_Rmin]. set (n := length (h_arr h)) in *.
  assert (La : length (h_arr h1) = S (S n)) by (rewrite A1, app_length; cbn; unfold n; lia).
  assert (Va : arr h1 n = e_Rmax e) by (unfold arr; rewrite A1; unfold n; rewrite app_nth2 by lia; rewrite Nat.sub_diag; reflexivity).
  assert (Vb : arr h1 (S n) = e_Rmin e).
  { unfold arr. rewrite A1. unfold n. rewrite app_nth2 by lia. replace (S (length (h_arr h)) - length (h_arr h))%nat with 1%nat by lia. reflexivity. }
  eexists. split; [reflexivity|].
  unfold write_obj, write_arr, arr. cbn [h_obj h_arr]. fold (arr h1 n). rewrite Va.
  assert (Vb' : nth (S n) (set_at (h_arr h1) n (zero_rows (e_nsup e) (zeros (e_nres e)) (e_Rmax e))) [] = e_Rmin e).
  { rewrite nth_set by lia. destruct (Nat.eqb_spec n (S n)); [lia|]. exact Vb. }
  rewrite Vb', !zero_rows_all by apply He. set (z := repeat (zeros (e_nres e)) (e_nsup e)).
  assert (N : forall a, nth a (set_at (set_at (h_arr h1) n z) (S n) z) [] = if (Nat.eqb n a || Nat.eqb (S n) a)%bool then z else nth a (h_arr h1) []).
  { intros a. rewrite nth_set by (rewrite set_at_length; lia). rewrite nth_set by lia. destruct (Nat.eqb n a), (Nat.eqb (S n) a); reflexivity. }
  assert (X : forall q o, nth_error (set_at (h_obj h1) (length st) {| o_val := zero_like e; o_Rmax := n; o_Rmin := S n |}) q = Some o ->
     ((q < length st)%nat /\ nth_error (h_obj h) q = Some o) \/ (q = length st /\ o = {| o_val := zero_like e; o_Rmax := n; o_Rmin := S n |})).
  { intros q o Eq. rewrite O1 in Eq. rewrite <- (in_len _ _ H) in Eq. rewrite set_last in Eq.
    destruct (Nat.lt_ge_cases q (length (h_obj h))) as [Hp|Hp].
    - rewrite nth_error_app1 in Eq by exact Hp. left. rewrite (in_len _ _ H) in Hp. auto.
    - rewrite nth_error_app2 in Eq by exact Hp. right. destruct (q - length (h_obj h))%nat as [|k] eqn:Ek; [|destruct k; discriminate].
      cbn in Eq. injection Eq as <-. split; [rewrite <- (in_len _ _ H); lia|reflexivity]. }
  destruct H as [L V B S' HS]. constructor; cbn [h_obj h_arr].
  - rewrite set_at_length; rewrite O1, !app_length; cbn; lia.
  - intros q o Eq. destruct (X q o Eq) as [[Hq F]|[-> ->]].
    + rewrite nth_error_app1 by exact Hq. rewrite (V q o F). f_equal. unfold read_obj, arr. cbn [h_arr].
      destruct (B q o F) as (b1 & b2 & _). fold n in b1, b2. rewrite !N.
      destruct (Nat.eqb_spec n (o_Rmax o)), (Nat.eqb_spec (S n) (o_Rmax o)), (Nat.eqb_spec n (o_Rmin o)), (Nat.eqb_spec (S n) (o_Rmin o)); try lia.
      cbn [orb]. rewrite A1, !app_nth1 by assumption. reflexivity.
    + rewrite nth_error_app2 by lia. rewrite Nat.sub_diag. cbn. f_equal. unfold read_obj, arr. cbn [h_arr o_val o_Rmax o_Rmin].
      rewrite !N, !Nat.eqb_refl, orb_true_r. reflexivity.
  - intros q o Eq. rewrite !set_at_length by (rewrite ?set_at_length; lia). destruct (X q o Eq) as [[Hq F]|[-> ->]].
    + destruct (B q o F) as (b1 & b2 & b3). fold n in b1, b2. repeat split; lia.
    + cbn. repeat split; lia.
  - intros q q' o o' Eq Eq' Nq. destruct (X q o Eq) as [[Hp F]|[-> ->]], (X q' o' Eq') as [[Hq F']|[-> ->]]; cbn; try lia.
    + exact (S' q q' o o' F F' Nq).
    + destruct (B q o F) as (b1 & b2 & _). fold n in b1, b2. repeat split; lia.
    + destruct (B q' o' F') as (b1 & b2 & _). fold n in b1, b2. repeat split; lia.
  - apply Forall_app. split; [exact HS|]. constructor; [apply shaped_zero|constructor].
Qed.

Definition keeps_shape (op : env -> env -> result env) : Prop := forall a b m, shaped a -> shaped b -> op a b = Ok m -> shaped m.

Lemma Forall_set {A} (P : A -> Prop) l i a : Forall P l -> P a -> (i < length l)%nat -> Forall P (set_at l i a).
Proof.
  intros F Pa. revert i. induction F as [|b l Pb F IH]; intros i Hi; [cbn in Hi; lia|].
  destruct i as [|i]; [constructor; assumption|]. constructor; [exact Pb|]. apply (IH i). cbn in Hi. lia.
Qed.

Lemma merge_inv op h st p q m : keeps_shape op -> inv h st ->
  (do a <- lookup st p; do b <- lookup st q; op a b) = Ok m ->
  exists h', h_merge op h p q = Ok h' /\ inv h' (set_at st p m).
Proof.
  intros K H E. pose proof (inv_lookup _ _ p H) as Lp. pose proof (inv_lookup _ _ q H) as Lq. unfold h_merge.
  rewrite <- Lp, <- Lq. destruct (lookup st p) as [a|] eqn:Ea; [|discriminate]. destruct (lookup st q) as [b|] eqn:Eb; [|discriminate].
  cbn [rbind] in *. rewrite E. cbn [rbind]. unfold alloc, write_obj. cbn. eexists. split; [reflexivity|].
  assert (Sm : shaped m).
  { pose proof (in_shape _ _ H) as F. rewrite Forall_forall in F. unfold lookup in Ea, Eb.
    destruct (nth_error st p) eqn:F1; [|discriminate]. destruct (nth_error st q) eqn:F2; [|discriminate].
    injection Ea as <-. injection Eb as <-. apply (K _ _ _ (F _ (nth_error_In _ _ F1)) (F _ (nth_error_In _ _ F2)) E). }
  assert (Hp : (p < length st)%nat).
  { unfold lookup in Ea. destruct (nth_error st p) eqn:F1; [|discriminate]. apply nth_error_Some. congruence. }
  destruct H as [L V B S' HS]. rewrite <- app_assoc. cbn [app]. rewrite app_length. cbn [length]. rewrite Nat.add_1_r.
  set (n := length (h_arr h)) in *.
  assert (A1 : forall x, (x < n)%nat -> nth x (h_arr h ++ [e_Rmax m; e_Rmin m]) [] = nth x (h_arr h) []).
  { intros x Hx. apply app_nth1. exact Hx. }
  assert (A2 : nth n (h_arr h ++ [e_Rmax m; e_Rmin m]) [] = e_Rmax m).
  { unfold n. rewrite app_nth2 by lia. rewrite Nat.sub_diag. reflexivity. }
  assert (A3 : nth (S n) (h_arr h ++ [e_Rmax m; e_Rmin m]) [] = e_Rmin m).
  { unfold n. rewrite app_nth2 by lia. replace (S (length (h_arr h)) - length (h_arr h))%nat with 1%nat by lia. reflexivity. }
  assert (X : forall r o, nth_error (set_at (h_obj h) p {| o_val := m; o_Rmax := n; o_Rmin := S n |}) r = Some o ->
    (p <> r /\ nth_error (h_obj h) r = Some o) \/ (r = p /\ o = {| o_val := m; o_Rmax := n; o_Rmin := S n |})).
  { intros r o Er. rewrite nth_error_set in Er by lia. destruct (Nat.eqb_spec p r) as [->|Np].
    - injection Er as <-. right. auto.
    - left. auto. }
  constructor; cbn [h_obj h_arr].
  - rewrite !set_at_length by lia. exact L.
  - intros r o Er. rewrite nth_error_set by exact Hp. destruct (X r o Er) as [[N F]|[-> ->]].
    + destruct (Nat.eqb_spec p r); [lia|]. rewrite (V r o F). f_equal. unfold read_obj, arr. cbn [h_arr].
      destruct (B r o F) as (b1 & b2 & _). rewrite !A1 by assumption. reflexivity.
    + rewrite Nat.eqb_refl. f_equal. unfold read_obj, arr. cbn [h_arr o_val o_Rmax o_Rmin]. rewrite A2, A3. symmetry. apply with_same.
  - intros r o Er. rewrite app_length. cbn [length]. fold n. destruct (X r o Er) as [[N F]|[-> ->]].
    + destruct (B r o F) as (b1 & b2 & b3). repeat split; lia.
    + cbn. repeat split; lia.
  - intros r r' o o' Er Er' N. destruct (X r o Er) as [[N1 F]|[-> ->]], (X r' o' Er') as [[N2 F']|[-> ->]]; cbn; try lia.
    + exact (S' r r' o o' F F' N).
    + destruct (B r o F) as (b1 & b2 & _). fold n in b1, b2. repeat split; lia.
    + destruct (B r' o' F') as (b1 & b2 & _). fold n in b1, b2. repeat split; lia.
  - apply Forall_set; assumption.
Qed.

Lemma merge_err op h st p q x : inv h st ->
  (do a <- lookup st p; do b <- lookup st q; op a b) = Err x -> h_merge op h p q = Err x.
Proof.
  intros H E. unfold h_merge. rewrite <- !(inv_lookup _ _ _ H).
  destruct (lookup st p) as [a|]; [|cbn in *; congruence]. destruct (lookup st q) as [b|]; [|cbn in *; congruence]. cbn [rbind] in *. rewrite E. reflexivity.
Qed.

Lemma lookup_app st e q a : lookup st q = Ok a -> lookup (st ++ [e]) q = Ok a.
Proof.
  unfold lookup. intros E. destruct (nth_error st q) eqn:F; [|discriminate]. rewrite nth_error_app1; [rewrite F; exact E|].
  apply nth_error_Some. congruence.
Qed.
Lemma lookup_last st e : lookup (st ++ [e]) (length st) = Ok e.
Proof. unfold lookup. rewrite nth_error_app2 by lia. rewrite Nat.sub_diag. reflexivity. Qed.

Lemma merges_inv op st : keeps_shape op -> forall ps es h s, inv h (st ++ [s]) -> mapM (lookup st) ps = Ok es ->
  match foldM op es s with
  | Ok m => exists h', foldM (fun h q => h_merge op h (length st) q) ps h = Ok h' /\ inv h' (st ++ [m])
  | Err x => foldM (fun h q => h_merge op h (length st) q) ps h = Err x
  end.
Proof.
  intros K. induction ps as [|q ps IH]; intros es h s H E; cbn [mapM] in E.
  - injection E as <-. cbn. exists h. auto.
  - destruct (lookup st q) as [e|] eqn:Eq; [|discriminate]. cbn [rbind] in E.
    destruct (mapM (lookup st) ps) as [es'|]; [|discriminate]. cbn [rbind] in E. injection E as <-. cbn [foldM].
    assert (D : (do a <- lookup (st ++ [s]) (length st); do b <- lookup (st ++ [s]) q; op a b) = op s e).
    { rewrite lookup_last, (lookup_app _ _ _ _ Eq). reflexivity. }
    destruct (op s e) as [m|x] eqn:Em; cbn [rbind].
    + destruct (merge_inv op h (st ++ [s]) (length st) q m K H D) as (h1 & E1 & H1). rewrite set_last in H1.
      rewrite E1. cbn [rbind]. apply IH; [exact H1|reflexivity].
    + rewrite (merge_err op h (st ++ [s]) (length st) q x H D). reflexivity.
Qed.

Lemma mapM_view h st ps : inv h st -> mapM (view h) ps = mapM (lookup st) ps.
Proof. intros H. induction ps as [|p ps IH]; [reflexivity|]. cbn. rewrite (inv_lookup _ _ _ H), IH. reflexivity. Qed.

Lemma combine_inv h st ps md : inv h st ->
  match (do es <- mapM (lookup st) ps; combine_env es md) with
  | Ok e => exists h', h_combine h ps md = Ok (h', length st) /\ inv h' (st ++ [e])
  | Err x => h_combine h ps md = Err x
  end.
Proof.
  intros H. unfold h_combine. rewrite (mapM_view _ _ _ H). destruct (mapM (lookup st) ps) as [es|] eqn:E; [|reflexivity]. cbn [rbind].
  destruct ps as [|p0 ps]; [injection E as <-; reflexivity|]. pose proof E as E0. cbn [mapM] in E.
  destruct (lookup st p0) as [e0|] eqn:Ep; [|discriminate]. cbn [rbind] in E. destruct (mapM (lookup st) ps) as [es'|] eqn:Es; [|discriminate].
  cbn [rbind] in E. injection E as <-. rewrite (inv_lookup _ _ _ H) in Ep.
  destruct (zero_like_inv h st p0 e0 H Ep) as (h1 & E1 & H1). unfold combine_env. rewrite E1. cbn [rbind].
  destruct md; [| |reflexivity].
  - pose proof (merges_inv augment st shaped_augment (p0 :: ps) (e0 :: es') h1 (zero_like e0) H1 E0) as M.
    destruct (foldM augment (e0 :: es') (zero_like e0)) as [m|x].
    + destruct M as (h2 & E2 & H2). rewrite E2. cbn [rbind]. exists h2. auto.
    + rewrite M. reflexivity.
  - pose proof (merges_inv sum_env st shaped_sum (p0 :: ps) (e0 :: es') h1 (zero_like e0) H1 E0) as M.
    destruct (foldM sum_env (e0 :: es') (zero_like e0)) as [m|x].
    + destruct M as (h2 & E2 & H2). rewrite E2. cbn [rbind]. exists h2. auto.
    + rewrite M. reflexivity.
Qed.

Lemma exec_inv h st o : inv h st -> inv (h_exec h o) (s_exec st o).
Proof.
  intros H. destruct o as [vr|ps md|p q|p q]; cbn [h_exec s_exec].
  - unfold h_init. destruct (env_init vr) as [e|] eqn:E; [|exact H]. cbn [rbind].
    destruct (new_obj_inv h st e H (shaped_init _ _ E)) as (h' & E' & H' & _). rewrite E'. exact H'.
  - pose proof (combine_inv h st ps md H) as C. destruct (do es <- mapM (lookup st) ps; combine_env es md) as [e|x].
    + destruct C as (h' & E' & H'). rewrite E'. exact H'.
    + rewrite C. exact H.
  - unfold s_merge. destruct (do a <- lookup st p; do b <- lookup st q; augment a b) as [m|x] eqn:E.
    + destruct (merge_inv augment h st p q m shaped_augment H E) as (h' & E' & H'). rewrite E'. exact H'.
    + rewrite (merge_err augment h st p q x H E). exact H.
  - unfold s_merge. destruct (do a <- lookup st p; do b <- lookup st q; sum_env a b) as [m|x] eqn:E.
    + destruct (merge_inv sum_env h st p q m shaped_sum H E) as (h' & E' & H'). rewrite E'. exact H'.
    + rewrite (merge_err sum_env h st p q x H E). exact H.
Qed.

Lemma inv0 : inv heap0 [].
Proof.
  constructor; cbn; [reflexivity| | | |constructor].
  - intros [|] o E; discriminate.
  - intros [|] o E; discriminate.
  - intros [|] q o o' E; discriminate.
Qed.

Lemma run_inv ops : inv (h_run ops) (s_run ops).
Proof.
  unfold h_run, s_run. generalize inv0. generalize heap0 (@nil env). induction ops as [|o ops IH]; intros h st H; [exact H|].
  cbn [fold_left]. apply IH, exec_inv, H.
Qed.

Lemma run_views ops p : view (h_run ops) p = lookup (s_run ops) p.
Proof. symmetry. apply inv_lookup, run_inv. Qed.

(** [combine] leaves its operands (and every other object) as they were and returns the
    merged value as a new object. *)
Lemma combine_operands ops ps md h' r : h_combine (h_run ops) ps md = Ok (h', r) ->
  (exists es e, mapM (view (h_run ops)) ps = Ok es /\ combine_env es md = Ok e /\ view h' r = Ok e) /\
  view (h_run ops) r = Err NameError /\
  (forall p e, view (h_run ops) p = Ok e -> view h' p = Ok e).
Proof.
  intros E. pose proof (run_inv ops) as H. pose proof (combine_inv _ _ ps md H) as C.
  destruct (mapM (lookup (s_run ops)) ps) as [es|] eqn:Em; [|cbn in C; congruence]. cbn [rbind] in C.
  destruct (combine_env es md) as [e|] eqn:Ec; [|congruence].
  destruct C as (h2 & E2 & H2). rewrite E in E2. injection E2 as <- ->. split.
  - exists es, e. split; [rewrite (mapM_view _ _ _ H); exact Em|]. split; [exact Ec|].
    rewrite <- (inv_lookup _ _ _ H2). apply lookup_last.
  - split.
    + rewrite <- (inv_lookup _ _ _ H). unfold lookup. rewrite (proj2 (nth_error_None _ _)) by lia. reflexivity.
    + intros p x Ex. rewrite <- (inv_lookup _ _ _ H2). rewrite <- (inv_lookup _ _ _ H) in Ex. apply lookup_app. exact Ex.
Qed.

(** Updating an object in place changes that object only. *)
Lemma merge_local ops op p q h' : op = augment \/ op = sum_env -> h_merge op (h_run ops) p q = Ok h' ->
  forall x, x <> p -> view h' x = view (h_run ops) x.
Proof.
  intros Hop E x Hx. pose proof (run_inv ops) as H.
  assert (K : keeps_shape op) by (destruct Hop as [->| ->]; [exact shaped_augment|exact shaped_sum]).
  destruct (do a <- lookup (s_run ops) p; do b <- lookup (s_run ops) q; op a b) as [m|y] eqn:D.
  - destruct (merge_inv op _ _ p q m K H D) as (h2 & E2 & H2). rewrite E in E2. injection E2 as <-.
    rewrite <- (inv_lookup _ _ _ H2), <- (inv_lookup _ _ _ H). unfold lookup.
    assert (Hp : (p < length (s_run ops))%nat).
    { unfold lookup in D. destruct (nth_error (s_run ops) p) eqn:F1; [|discriminate]. apply nth_error_Some. congruence. }
    rewrite nth_error_set by exact Hp. destruct (Nat.eqb_spec p x); [congruence|reflexivity].
  - rewrite (merge_err op _ _ p q y H D) in E. discriminate.
Qed.
