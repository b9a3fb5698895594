(** Facts about exported tables. *)
From Coq Require Import String Ascii Lia Lra.
From Verif Require Import Base BaseFacts SectionModel LoadModel ElementModel BeamModel AnalysisModel ResultsModel ResultsSpec ShapeFacts EnvelopeModel EnvelopeSpec BridgeSpec SpanModel SpanSpec SpanFacts ResultsFacts EnvReadModel EnvReadSpec EnvReadFacts ExportModel ExportSpec.
Open Scope R_scope.
Local Notation length := List.length.
Local Open Scope list_scope.
Local Notation nl := (ascii_of_nat 10).

Lemma append_nil_r (s : string) : (s ++ "")%string = s.
Proof. induction s as [|a s IH]; cbn; [|rewrite IH]; reflexivity. Qed.
Lemma append_assoc3 (a b c : string) : ((a ++ b) ++ c)%string = (a ++ b ++ c)%string.
Proof. induction a as [|x a IH]; cbn; [|rewrite IH]; reflexivity. Qed.

(** ** Taking texts apart *)
Lemma pieces_some c s : pieces c s <> [].
Proof. destruct s as [|a t]; cbn; [discriminate|]. destruct (Ascii.eqb a c); [discriminate|]. destruct (pieces c t); discriminate. Qed.
Lemma pieces_whole c s : without c s -> pieces c s = [s].
Proof.
  induction s as [|a s IH]; cbn; [reflexivity|]. intros [N W]. rewrite (IH W). destruct (Ascii.eqb_spec a c); [contradiction|reflexivity].
Qed.
Lemma pieces_cut c s t : without c s -> pieces c (s ++ String c t) = s :: pieces c t.
Proof.
  induction s as [|a s IH]; cbn.
  - intros _. rewrite Ascii.eqb_refl. reflexivity.
  - intros [N W]. rewrite (IH W). destruct (Ascii.eqb_spec a c); [contradiction|reflexivity].
Qed.
Lemma pieces_join c l : l <> [] -> Forall (without c) l -> pieces c (join (String c "") l) = l.
Proof.
  induction l as [|s l IH]; [congruence|]. intros _ F. inversion F as [|? ? Ws Fl]; subst. destruct l as [|s' l].
  - cbn [join]. apply pieces_whole. exact Ws.
  - change (join (String c "") (s :: s' :: l)) with (s ++ String c (join (String c "") (s' :: l)))%string. rewrite (pieces_cut c s _ Ws). f_equal. apply IH; [discriminate|exact Fl].
Qed.
Lemma without_app c s t : without c s -> without c t -> without c (s ++ t).
Proof. induction s as [|a s IH]; cbn; [tauto|]. intros [N W] T. auto. Qed.
Lemma without_join c sep l : without c sep -> Forall (without c) l -> without c (join sep l).
Proof.
  intros S. induction l as [|s l IH]; intros F; [exact I|]. inversion F; subst. destruct l as [|s' l]; [assumption|].
  change (join sep (s :: s' :: l)) with (s ++ sep ++ join sep (s' :: l))%string. apply without_app; [assumption|]. apply without_app; auto.
Qed.
Lemma lines_nil : lines "" = [].
Proof. reflexivity. Qed.
Lemma lines_cons s t : without nl s -> lines (s ++ newline ++ t) = s :: lines t.
Proof.
  intros W. unfold lines. change (newline ++ t)%string with (String nl t). rewrite (pieces_cut nl s t W).
  pose proof (pieces_some nl t) as N. destruct (pieces nl t) as [|p ps]; [congruence|]. reflexivity.
Qed.
Lemma comment_none s : comment_lines "" s = s.
Proof.
  induction s as [|a s IH]; [reflexivity|]. cbn [comment_lines]. destruct (Ascii.eqb_spec a nl) as [->|_]; rewrite IH; reflexivity.
Qed.
Lemma header_some s c t : s = String c t -> Nat.eqb (String.length s) 0 = false.
Proof. intros ->. reflexivity. Qed.

(** ** The text *)
Lemma saved_lines num rows c h : h <> ""%string -> without nl h -> nl <> c -> (forall row x, In row rows -> In x row -> without nl (num x)) ->
  lines (savetxt num rows (String c "") h "") = h :: map (fun row => join (String c "") (map num row)) rows.
Proof.
  intros Nh Wh Nc Wn. unfold savetxt. destruct h as [|a h]; [congruence|]. cbn [String.length Nat.eqb]. rewrite comment_none.
  change ("" ++ String a h ++ newline)%string with (String a h ++ newline)%string. rewrite append_assoc3. rewrite lines_cons by exact Wh. f_equal.
  induction rows as [|row rows IH]; [reflexivity|]. cbn [fold_right map]. rewrite lines_cons; [f_equal; apply IH; intros row' x Hr Hx; exact (Wn row' x (or_intror Hr) Hx)|]. apply without_join; [split; [auto|exact I]|].
  apply Forall_forall. intros s Hs. apply in_map_iff in Hs as (x & <- & Hx). exact (Wn row x (or_introl eq_refl) Hx).
Qed.
Lemma saved_read num float rows c h hs : h <> ""%string -> without nl h -> nl <> c -> legible c num float rows -> pieces c h = hs -> Forall (fun row => row <> []) rows ->
  read_table c float (savetxt num rows (String c "") h "") = Some (hs, map (map (@Some R)) rows).
Proof.
  intros Nh Wh Nc G Eh F. unfold read_table. rewrite saved_lines; [|assumption..|intros row x Hr Hx; apply (G row x Hr Hx)]. rewrite Eh. do 2 f_equal. rewrite map_map.
  apply map_ext_in. intros row Hr. rewrite Forall_forall in F. rewrite pieces_join.
  - rewrite map_map. apply map_ext_in. intros x Hx. apply (G row x Hr Hx).
  - intros E. apply (F row Hr). destruct row; [reflexivity|discriminate].
  - apply Forall_forall. intros s Hs. apply in_map_iff in Hs as (x & <- & Hx). apply (G row x Hr Hx).
Qed.

(** ** Columns and rows *)
Lemma stack_ok c cols : Forall (fun d => length d = length c) cols ->
  column_stack (c :: cols) = Ok (map (fun k => map (fun d => nth k d 0) (c :: cols)) (seq 0 (length c))).
Proof.
  intros F. unfold column_stack. replace (forallb _ _) with true; [reflexivity|]. symmetry. cbn [forallb]. rewrite Nat.eqb_refl. apply forallb_forall. intros d Hd.
  rewrite Forall_forall in F. apply Nat.eqb_eq, F, Hd.
Qed.
Lemma stack_bad c cols : ~ Forall (fun d => length d = length c) cols -> column_stack (c :: cols) = Err ValueError.
Proof.
  intros N. unfold column_stack. destruct (forallb _ _) eqn:E; [|reflexivity]. destruct N. apply Forall_forall. intros d Hd. rewrite forallb_forall in E. apply Nat.eqb_eq, E. right. exact Hd.
Qed.
Lemma stack_table c cols : Forall (fun d => length d = length c) cols ->
  is_table (c :: cols) (length c) (map (map (@Some R)) (map (fun k => map (fun d => nth k d 0) (c :: cols)) (seq 0 (length c)))).
Proof.
  intros F. split; [rewrite !map_length, seq_length; reflexivity|]. intros k row Hk.
  assert (K : (k < length c)%nat). { rewrite <- (seq_length (length c) 0), <- (map_length (fun k => map (fun d => nth k d 0) (c :: cols))), <- (map_length (map (@Some R))). apply nth_error_Some. rewrite Hk. discriminate. }
  rewrite map_map, nth_error_map in Hk. assert (S : nth_error (seq 0 (length c)) k = Some k).
  { rewrite (nth_error_nth' (seq 0 (length c)) 0%nat) by (rewrite seq_length; exact K). rewrite seq_nth by exact K. reflexivity. }
  rewrite S in Hk. cbn [option_map] in Hk. assert (Er : row = map (@Some R) (map (fun d => nth k d 0) (c :: cols))) by congruence. clear Hk. subst row. split; [rewrite !map_length; reflexivity|].
  intros j d Hd. exists (nth k d 0). assert (L : length d = length c). { apply nth_error_In in Hd as [<-|Hd]; [reflexivity|]. rewrite Forall_forall in F. apply F, Hd. }
  split; [apply nth_error_nth'; lia|]. rewrite map_map, nth_error_map, Hd. reflexivity.
Qed.

Lemma legible_rows c num float d cols : Forall (fun e => length e = length d) cols -> legible c num float (d :: cols) ->
  legible c num float (map (fun k => map (fun e => nth k e 0) (d :: cols)) (seq 0 (length d))).
Proof.
  intros F G row x Hr Hx. apply in_map_iff in Hr as (k & <- & Hk). apply in_seq in Hk. apply in_map_iff in Hx as (e & <- & He). apply (G e); [exact He|]. apply nth_In.
  destruct He as [<-|He]; [lia|]. rewrite Forall_forall in F. rewrite (F e He). lia.
Qed.

(** ** The claims *)
Definition five (m : mres) : list (list R) := [r_x m; r_M m; r_V m; r_R m; r_D m].
Definition same_lengths (m : mres) : Prop := Forall (fun d => length d = length (r_x m)) (five m).
Lemma results_read num float r : same_lengths (br_all r) -> legible "," num float (five (br_all r)) ->
  exists s rows, results_csv num r csv_default = Ok s /\ read_table "," float s = Some (["x"; "M"; "V"; "R"; "D"]%string, rows) /\ is_table (five (br_all r)) (length (r_x (br_all r))) rows.
Proof.
  intros F G. inversion F as [|? ? _ F']; subst. unfold results_csv. rewrite (stack_ok _ _ F'). cbn [rbind]. eexists. eexists. split; [reflexivity|]. split; [|apply stack_table; exact F'].
  apply saved_read; try discriminate; try (apply (legible_rows _ _ _ _ _ F' G)); try reflexivity.
  - cbn. repeat split; discriminate.
  - apply Forall_forall. intros row Hr. apply in_map_iff in Hr as (k & <- & _). discriminate.
Qed.
Lemma frame_ok (d : list (string * list R)) n : Forall (fun p => length (snd p) = n) d -> data_frame d = Ok d.
Proof.
  intros F. destruct d as [|[k c] t]; [reflexivity|]. unfold data_frame. replace (forallb _ _) with true; [reflexivity|]. symmetry. apply forallb_forall. intros p Hp. rewrite Forall_forall in F.
  apply Nat.eqb_eq. rewrite (F _ Hp). symmetry. apply (F (k, c)). left. reflexivity.
Qed.
Lemma results_framed r : same_lengths (br_all r) ->
  results_frame r = Ok (combine ["x"; "M"; "V"; "R"; "D"]%string (five (br_all r))).
Proof.
  intros F. unfold results_frame. apply (frame_ok _ (length (r_x (br_all r)))). inversion_clear F as [|? ? _ F1]. inversion_clear F1 as [|? ? A F2]. inversion_clear F2 as [|? ? B F3]. inversion_clear F3 as [|? ? C F4]. inversion_clear F4 as [|? ? D _].
  repeat constructor; assumption.
Qed.

Lemma sum_lengths (f g : mres -> list R) ms : Forall (fun m => length (f m) = length (g m)) ms -> length (flat_map f ms) = length (flat_map g ms).
Proof. induction 1 as [|m ms E _ IH]; [reflexivity|]. cbn [flat_map]. rewrite !app_length, E, IH. reflexivity. Qed.
Lemma analysed_lengths gl ill a sps npts check a' r : analyze gl ill a sps npts check = (a', Ok r) -> (0 < an_npts a')%nat -> sound_grid (an_beam a) -> same_lengths (br_all r).
Proof.
  intros E P SG. destruct (analyze_split _ _ _ _ _ _ _ _ E) as (o & _ & _ & EA & _). unfold same_lengths, five. rewrite EA. unfold mres_concat. cbn [r_x r_M r_V r_R r_D].
  assert (F : forall m, In m (br_mem r) -> length (r_V m) = length (r_x m) /\ length (r_M m) = length (r_x m) /\ length (r_R m) = length (r_x m) /\ length (r_D m) = length (r_x m)).
  { intros m Hm. apply In_nth_error in Hm as (i & Hi). destruct (mem_at gl ill a sps npts check a' r E P SG i m Hi) as (mb & _ & _ & _ & (V & M & C) & _). exact (mc_len _ _ _ _ C). }
  repeat constructor; apply sum_lengths, Forall_forall; intros m Hm; destruct (F m Hm) as (? & ? & ? & ?); assumption.
Qed.

Lemma env_lengths vr e : env_init vr = Ok e -> on_stations (e_x e) vr -> Forall (fun p => length (snd p) = length (e_x e)) (named_arrays e).
Proof.
  intros E O. destruct (init_envelope _ _ E O) as [H N]. destruct (companion_lengths _ _ E) as (A & B & C & D). destruct (eo_len _ _ H) as (A' & B' & C' & D' & _). rewrite N in *.
  unfold named_arrays. repeat constructor; cbn [snd]; assumption.
Qed.
Lemma named_array e a c : In (a, c) (named_arrays e) -> env_array e a = Ok c.
Proof. unfold named_arrays. cbn [In]. intros I. repeat (destruct I as [I|I]; [injection I as <- <-; reflexivity|]). contradiction. Qed.
Lemma named_texts e a c : In (a, c) (named_arrays e) -> without "," a /\ without nl a.
Proof. unfold named_arrays. cbn [In]. intros I. repeat (destruct I as [I|I]; [injection I as <- _; cbn; repeat split; discriminate|]). contradiction. Qed.
Definition known (e : env) (attrs : list string) : Prop := forall a, In a attrs -> In a (map fst (named_arrays e)).
Lemma known_arrays e attrs : known e attrs -> exists arrays, Forall2 (fun a c => In (a, c) (named_arrays e)) attrs arrays /\ mapM (env_array e) attrs = Ok arrays.
Proof.
  induction attrs as [|a attrs IH]; intros K; [exists []; split; [constructor|reflexivity]|].
  destruct IH as (cs & F & E); [intros b Hb; apply K; right; exact Hb|]. destruct (proj1 (in_map_iff _ _ _) (K a (or_introl eq_refl))) as ([a' c] & Ea & Hc). cbn [fst] in Ea. subst a'.
  exists (c :: cs). split; [constructor; assumption|]. cbn [mapM]. rewrite (named_array _ _ _ Hc). cbn [rbind]. rewrite E. reflexivity.
Qed.
Lemma env_read num float vr e attrs : env_init vr = Ok e -> on_stations (e_x e) vr -> known e attrs -> legible "," num float (map snd (named_arrays e)) ->
  exists s rows arrays, env_csv num e attrs csv_default = Ok s /\ read_table "," float s = Some ("x"%string :: attrs, rows) /\
    Forall2 (fun a c => In (a, c) (named_arrays e)) attrs arrays /\ is_table (e_x e :: arrays) (length (e_x e)) rows.
Proof.
  intros E O K G. destruct (known_arrays e attrs K) as (cs & F & M). assert (L := env_lengths _ _ E O). rewrite Forall_forall in L.
  assert (FL : Forall (fun d => length d = length (e_x e)) cs).
  { apply Forall_forall. intros d Hd. clear - F L Hd. induction F as [|a c attrs cs Ha F IH]; [destruct Hd|]. destruct Hd as [<-|Hd]; [exact (L _ Ha)|auto]. }
  assert (W : Forall (fun a => without "," a /\ without nl a) attrs).
  { clear - F. induction F as [|a c attrs cs Ha F IH]; constructor; [exact (named_texts _ _ _ Ha)|exact IH]. }
  unfold env_csv. rewrite M. cbn [rbind]. rewrite (stack_ok _ _ FL). cbn [rbind]. eexists. eexists. exists cs. split; [reflexivity|]. split; [|split; [exact F|apply stack_table; exact FL]].
  assert (G' : legible "," num float (e_x e :: cs)).
  { intros d x Hd Hx. apply (G d x); [|exact Hx]. destruct Hd as [<-|Hd]; [left; reflexivity|]. clear - F Hd. induction F as [|a c attrs cs Ha F IH]; [destruct Hd|].
    destruct Hd as [<-|Hd]; [exact (in_map snd _ _ Ha)|auto]. }
  apply saved_read; try discriminate; try exact (legible_rows _ _ _ _ _ FL G').
  - destruct attrs; discriminate.
  - apply without_join; [cbn; split; [discriminate|exact I]|]. constructor; [cbn; split; [discriminate|exact I]|]. eapply Forall_impl; [|exact W]. intros a [_ X]. exact X.
  - apply pieces_join; [discriminate|]. constructor; [cbn; split; [discriminate|exact I]|]. eapply Forall_impl; [|exact W]. intros a [X _]. exact X.
  - apply Forall_forall. intros row Hr. apply in_map_iff in Hr as (k & <- & _). discriminate.
Qed.
Lemma env_unknown num e attrs o a : In a attrs -> ~ In a ("Rmaxval" :: "Rminval" :: map fst (named_arrays e))%string -> known e (filter (fun b => negb (String.eqb a b)) attrs) ->
  env_csv num e attrs o = Err AttributeError.
Proof.
  intros I N K. unfold env_csv. replace (mapM (env_array e) attrs) with (@Err (list (list R)) AttributeError); [reflexivity|]. symmetry.
  assert (EA : env_array e a = Err AttributeError).
  { unfold env_array, station_attr. cbn [named_arrays map fst In] in N.
    repeat match goal with |- context [String.eqb a ?n] => destruct (String.eqb_spec a n) as [->|_]; [exfalso; tauto|] end. reflexivity. }
  induction attrs as [|b attrs IH]; [destruct I|]. cbn [mapM filter] in *. destruct (String.eqb_spec a b) as [<-|D]; cbn [negb] in K.
  - rewrite EA. reflexivity.
  - destruct I as [->|I]; [congruence|]. destruct (proj1 (in_map_iff _ _ _) (K b (or_introl eq_refl))) as ([b' c] & Eb & Hc). cbn [fst] in Eb. subst b'.
    rewrite (named_array _ _ _ Hc). cbn [rbind]. rewrite IH; [reflexivity|exact I|]. intros d Hd. apply K. right. exact Hd.
Qed.
(** Extreme reactions are arrays by support, not by station. *)
Lemma env_reactions num vr e o : env_init vr = Ok e -> on_stations (e_x e) vr -> e_nsup e <> length (e_x e) ->
  env_csv num e ["Rmaxval"]%string o = Err ValueError /\ env_frame e ["Rmaxval"]%string = Err ValueError.
Proof.
  intros E O N. destruct (init_envelope _ _ E O) as [H _]. destruct (eo_len _ _ H) as (_ & _ & _ & _ & L & _). split.
  - unfold env_csv. cbn [mapM]. change (env_array e "Rmaxval") with (@Ok (list R) (e_Rmaxval e)). cbn [rbind]. rewrite stack_bad; [reflexivity|]. intros F. inversion F; subst. congruence.
  - unfold env_frame. cbn [foldM]. change (env_array e "Rmaxval") with (@Ok (list R) (e_Rmaxval e)). cbn [rbind]. cbn. rewrite Nat.eqb_refl, L. destruct (Nat.eqb_spec (e_nsup e) (length (e_x e))); [congruence|reflexivity].
Qed.

(** ** Data frames *)
Lemma set_in d k v p : NoDup (map fst d) -> In p (set_item d k v) <-> p = (k, v) \/ (In p d /\ fst p <> k).
Proof.
  induction d as [|[k' v'] d IH]; cbn [set_item map fst]; intros N.
  - cbn. intuition congruence.
  - inversion N as [|? ? N1 N2]; subst. destruct (String.eqb_spec k k') as [<-|D].
    + cbn [In]. assert (X : forall q, In q d -> fst q <> k) by (intros q Hq Eq; apply N1; rewrite <- Eq; apply in_map, Hq). split.
      * intros [<-|Hp]; [left; reflexivity|right; split; [right; exact Hp|exact (X p Hp)]].
      * intros [->|[[<-|Hp] Q]]; [left; reflexivity|destruct Q; reflexivity|right; exact Hp].
    + cbn [In]. rewrite (IH N2). split.
      * intros [<-|[->|[Hp Q]]]; [right; split; [left; reflexivity|cbn; congruence]|left; reflexivity|right; split; [right; exact Hp|exact Q]].
      * intros [->|[[<-|Hp] Q]]; [right; left; reflexivity|left; reflexivity|right; right; split; assumption].
Qed.
Lemma set_names d k v : NoDup (map fst d) -> NoDup (map fst (set_item d k v)).
Proof.
  induction d as [|[k' v'] d IH]; cbn [set_item map fst]; intros N; [repeat constructor; intros []|]. inversion N as [|? ? N1 N2]; subst.
  destruct (String.eqb_spec k k') as [<-|D]; cbn [map fst]; [exact N|]. constructor; [|exact (IH N2)]. intros Hk. apply in_map_iff in Hk as (p & Ep & Hp). apply (set_in d k v p N2) in Hp as [->|[Hp _]]; [cbn in Ep; congruence|].
  apply N1. rewrite <- Ep. apply in_map, Hp.
Qed.
Lemma frame_fold e attrs : known e attrs -> forall d, NoDup (map fst d) -> (forall p, In p d -> In p (named_arrays e)) ->
  exists d', foldM (fun d a => do v <- env_array e a; Ok (set_item d a v)) attrs d = Ok d' /\ NoDup (map fst d') /\ (forall p, In p d' <-> In p (named_arrays e) /\ (In p d \/ In (fst p) attrs)).
Proof.
  assert (U : forall a c c', In (a, c) (named_arrays e) -> In (a, c') (named_arrays e) -> c = c').
  { intros a c c' H1 H2. apply named_array in H1, H2. congruence. }
  induction attrs as [|a attrs IH]; intros K d N S.
  - exists d. split; [reflexivity|]. split; [exact N|]. intros p. cbn [In]. split; [intros Hp; split; [exact (S p Hp)|left; exact Hp]|tauto].
  - destruct (proj1 (in_map_iff _ _ _) (K a (or_introl eq_refl))) as ([a' c] & Ea & Hc). cbn [fst] in Ea. subst a'. cbn [foldM]. rewrite (named_array _ _ _ Hc). cbn [rbind].
    destruct (IH (fun b Hb => K b (or_intror Hb)) (set_item d a c) (set_names d a c N)) as (d' & E & N' & C).
    + intros p Hp. apply (set_in d a c p N) in Hp as [->|[Hp _]]; [exact Hc|exact (S p Hp)].
    + exists d'. split; [exact E|]. split; [exact N'|]. intros p. rewrite C. rewrite (set_in d a c p N). split.
      * intros [Hp [[->|[Hd _]]|Ha]]; (split; [assumption|]); [right; left; reflexivity|left; exact Hd|right; right; exact Ha].
      * intros [Hp [Hd|[Ea|Ha]]]; (split; [assumption|]); [|left; left|right; exact Ha].
        -- destruct (string_dec (fst p) a) as [Ep|Dp]; [left; left|left; right; split; assumption]. destruct p as [pa pc]. cbn [fst] in Ep. subst pa. f_equal. exact (U _ _ _ Hp Hc).
        -- destruct p as [pa pc]. cbn [fst] in Ea. subst pa. f_equal. exact (U _ _ _ Hp Hc).
Qed.
Lemma env_framed vr e attrs : env_init vr = Ok e -> on_stations (e_x e) vr -> known e attrs ->
  exists d, env_frame e attrs = Ok d /\ NoDup (map fst d) /\ forall a c, In (a, c) d <-> In (a, c) (named_arrays e) /\ (a = "x"%string \/ In a attrs).
Proof.
  intros E O K. destruct (frame_fold e attrs K [("x"%string, e_x e)]) as (d & Ed & N & C).
  - cbn. repeat constructor. intros [].
  - intros p [<-|[]]. left. reflexivity.
  - exists d. unfold env_frame. rewrite Ed. cbn [rbind]. split; [|split; [exact N|]].
    + apply (frame_ok _ (length (e_x e))). apply Forall_forall. intros p Hp. apply C in Hp as [Hp _]. assert (L := env_lengths _ _ E O). rewrite Forall_forall in L. exact (L p Hp).
    + intros a c. rewrite C. cbn [fst In]. split; intros [H Q]; (split; [exact H|]).
      * destruct Q as [[Q|[]]|Q]; [left; congruence|right; exact Q].
      * destruct Q as [->|Q]; [left; left|right; exact Q]. f_equal. apply named_array in H. change (env_array e "x") with (@Ok (list R) (e_x e)) in H. congruence.
Qed.

(** ** Another delimiter leaves the commas of the header *)
Lemma other_delimiter num float r : same_lengths (br_all r) -> legible ";" num float (five (br_all r)) ->
  exists s rows, results_csv num r {| c_delimiter := Some ";"%string; c_header := None; c_comments := None |} = Ok s /\
    read_table ";" float s = Some (["x,M,V,R,D"]%string, rows) /\ is_table (five (br_all r)) (length (r_x (br_all r))) rows.
Proof.
  intros F G. inversion F as [|? ? _ F']; subst. unfold results_csv. rewrite (stack_ok _ _ F'). cbn [rbind]. eexists. eexists. split; [reflexivity|]. split; [|apply stack_table; exact F'].
  apply saved_read; try discriminate; try (apply (legible_rows _ _ _ _ _ F' G)); try reflexivity.
  - cbn. repeat split; discriminate.
  - apply Forall_forall. intros row Hr. apply in_map_iff in Hr as (k & <- & _). discriminate.
Qed.
Lemma own_header num float r c h hs : same_lengths (br_all r) -> legible c num float (five (br_all r)) -> nl <> c -> hs <> [] -> Forall (fun a => without c a /\ without nl a) hs -> h = join (String c "") hs -> h <> ""%string ->
  exists s rows, results_csv num r {| c_delimiter := Some (String c ""); c_header := Some h; c_comments := None |} = Ok s /\
    read_table c float s = Some (hs, rows) /\ is_table (five (br_all r)) (length (r_x (br_all r))) rows.
Proof.
  intros F G Nc Nh W Eh Ne. inversion F as [|? ? _ F']; subst. unfold results_csv. rewrite (stack_ok _ _ F'). cbn [rbind]. eexists. eexists. split; [reflexivity|]. split; [|apply stack_table; exact F'].
  cbn [or_default c_delimiter c_header c_comments]. apply saved_read; try assumption; try exact (legible_rows _ _ _ _ _ F' G).
  - apply without_join; [cbn; split; [intros E; apply Nc; rewrite E; reflexivity|exact I]|]. eapply Forall_impl; [|exact W]. intros a [_ X]. exact X.
  - apply pieces_join; [assumption|]. eapply Forall_impl; [|exact W]. intros a [X _]. exact X.
  - apply Forall_forall. intros row Hr. apply in_map_iff in Hr as (k & <- & _). discriminate.
Qed.

(** ** Formats for the numbers of given arrays *)
Fixpoint place (x : R) (l : list R) : nat := match l with [] => 0 | y :: t => if Req_EM_T x y then 0 else S (place x t) end.
Fixpoint strokes (n : nat) : string := match n with O => "" | S n => String "1" (strokes n) end.
Lemma placed x l : In x l -> nth_error l (place x l) = Some x.
Proof. induction l as [|y l IH]; [intros []|]. intros Hx. cbn [place]. destruct (Req_EM_T x y) as [->|N]; [reflexivity|]. destruct Hx as [->|Hx]; [congruence|]. exact (IH Hx). Qed.
Lemma strokes_length n : String.length (strokes n) = n.
Proof. induction n; cbn; congruence. Qed.
Lemma strokes_without c n : "1"%char <> c -> without c (strokes n).
Proof. intros N. induction n; cbn; auto. Qed.
Lemma some_format c cols : "1"%char <> c -> exists num float, legible c num float cols.
Proof.
  intros N. exists (fun x => strokes (place x (concat cols))), (fun s => nth_error (concat cols) (String.length s)). intros d x Hd Hx.
  split; [apply strokes_without; exact N|]. split; [apply strokes_without; discriminate|]. rewrite strokes_length. apply placed, in_concat. exists d. auto.
Qed.
