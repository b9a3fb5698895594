(** Proofs about the support symbols. *)
From Coq Require Import ZArith String.
From Verif Require Import Base BaseFacts SectionModel LoadModel ElementModel BeamModel BeamSpec AnalysisSpec UnitsModel BridgeSpec RenderModel RenderSpec RenderFacts RenderFacts2 RenderFacts5
  InPlotModel InPlotSpec SchemModel SchemSpec SchemFacts SchemFacts2 SymbolModel SymbolSpec.
Local Notation length := List.length.
Local Open Scope list_scope.
Open Scope R_scope.

Lemma linspace_in a b n t : (2 <= n)%nat -> In t (linspace a b n) -> exists f, 0 <= f <= 1 /\ t = a + f * (b - a).
Proof.
  intros Hn I. unfold linspace in I. apply in_map_iff in I as (k & <- & I). apply in_seq in I. exists (INR k / INR (n - 1)).
  assert (P : 0 < INR (n - 1)) by (apply (lt_INR 0); lia). assert (Q : INR k <= INR (n - 1)) by (apply le_INR; lia). pose proof (pos_INR k).
  split; [|field; lra]. split; [apply Rmult_le_pos; [lra|left; apply Rinv_0_lt_compat; lra]|]. apply Rmult_le_reg_r with (INR (n - 1)); [exact P|]. unfold Rdiv. rewrite Rmult_assoc, Rinv_l by lra. lra.
Qed.
Lemma ground_box x y w s pt : 0 < w -> In s (ground_mpl x y w) -> In pt (extremes s) -> x - w / 2 <= fst pt <= x + w / 2 /\ y - 0.16 * w <= snd pt <= y.
Proof.
  intros Hw [<-|I] P; [destruct P as [<-|[<-|[]]]; cbn [fst snd]; lra|]. apply in_map_iff in I as (xi & <- & I). apply linspace_in in I as (f & F & ->); [|lia].
  destruct P as [<-|[<-|[]]]; cbn [fst snd]; nra.
Qed.
Lemma ground_lines x y w s : In s (ground_mpl x y w) -> exists a b, s = SLine [a; b].
Proof. intros [<-|I]; [eauto|]. apply in_map_iff in I as (xi & <- & _). eauto. Qed.
Lemma ground_flat x y w s a b : 0 < w -> In (SLine [a; b]) (ground_mpl x y w) -> s = SLine [a; b] -> snd b <= snd a /\ fst a < fst b.
Proof.
  intros Hw [E|I] _; [injection E as <- <-; cbn; lra|]. apply in_map_iff in I as (xi & E & _). injection E as <- <-. cbn. lra.
Qed.
Lemma ground_level x y w : 0 < w -> level (ground_mpl x y w) x y.
Proof. intros Hw. exists (w / 2). split; [lra|left; reflexivity]. Qed.
Lemma level_app ss ss' x y : level ss x y -> level (ss ++ ss') x y.
Proof. intros (w & W & I). exists w. split; [exact W|apply in_or_app; auto]. Qed.
Lemma level_r ss ss' x y : level ss' x y -> level (ss ++ ss') x y.
Proof. intros (w & W & I). exists w. split; [exact W|apply in_or_app; auto]. Qed.
Lemma level_cons s ss x y : level ss x y -> level (s :: ss) x y.
Proof. intros (w & W & I). exists w. split; [exact W|right; exact I]. Qed.

Lemma spring_box x sh s pt : 0 < sh -> In s (spring_mpl x sh) -> In pt (extremes s) -> x - 0.22 * sh <= fst pt <= x + 0.22 * sh /\ - (1.2 * sh) <= snd pt <= 0.
Proof.
  intros H [<-|[<-|[]]] P; [|destruct P as [<-|[<-|[]]]; cbn [fst snd]; lra]. cbn [extremes] in P. destruct pt as (px, py). cbn [fst snd]. split.
  - apply in_combine_l in P. apply in_map_iff in P as (k & <- & _). destruct (_ || _)%bool; [lra|]. destruct (Nat.odd k); lra.
  - apply in_combine_r in P. apply linspace_in in P as (f & F & ->); [|lia]. nra.
Qed.
Lemma spiral_box x sh s pt : 0 < sh -> In s (rot_spring_mpl x sh) -> In pt (extremes s) -> x - 0.33 * sh <= fst pt <= x + 0.33 * sh /\ 0 <= snd pt <= 0.81 * sh.
Proof.
  intros H [<-|[<-|[]]] P; [destruct P as [<-|[<-|[]]]; cbn [fst snd]; lra|]. cbn [extremes] in P. apply in_map_iff in P as (t & <- & I). apply linspace_in in I as (f & F & ->); [|lia].
  pose proof PI_RGT_0. replace ((0 + f * (3 * 2 * PI - 0)) / (3 * 2 * PI)) with f by (field; lra). set (t := 0 + f * (3 * 2 * PI - 0)). pose proof (COS_bound t). pose proof (SIN_bound t). cbn [fst snd].
  assert (Hr : 0 <= 0.03 * sh + 0.3 * sh * f <= 0.33 * sh) by nra. set (r := 0.03 * sh + 0.3 * sh * f) in *. clearbody r t. nra.
Qed.
Lemma marker_box x sh e pt : 0 < sh -> In pt (extremes (pin_marker_mpl x sh e)) -> x - 0.17 * sh <= fst pt <= x + 0.17 * sh /\ - (0.17 * sh) <= snd pt <= 0.17 * sh.
Proof. intros H I. unfold pin_marker_mpl in I. destruct e; destruct I as [<-|[<-|[]]]; cbn [fst snd]; lra. Qed.

(** Every symbol is close to its node; only a clamp is higher than 0.81 sh. *)
Lemma support_box sh su s pt : 0 < sh -> In s (draw_support sh su) -> In pt (extremes s) ->
  s_x su - 0.75 * sh <= fst pt <= s_x su + 0.75 * sh /\ - (1.46 * sh) <= snd pt /\ snd pt <= 1.4 * sh /\ (s_kind su <> KFixed -> snd pt <= 0.81 * sh).
Proof.
  intros H I P. unfold draw_support in I. set (e := (s_left su || s_right su)%bool) in I. set (top := if e then 0 else - (0.2 * sh)) in I.
  assert (T : - (0.2 * sh) <= top <= 0) by (unfold top; destruct e; lra).
  assert (RST : In s (pin_marker_mpl (s_x su) sh e :: (if s_rot su then rot_spring_mpl (s_x su) sh else [])) ->
     s_x su - 0.75 * sh <= fst pt <= s_x su + 0.75 * sh /\ - (1.46 * sh) <= snd pt <= 0.81 * sh).
  { intros [<-|J]; [pose proof (marker_box _ _ _ _ H P); lra|]. destruct (s_rot su); [|destruct J]. pose proof (spiral_box _ _ _ _ H J P). lra. }
  clearbody top. destruct (s_kind su).
  - destruct I as [<-|I]; [destruct P as [<-|[<-|[<-|[]]]]; cbn [fst snd]; repeat split; intros; lra|]. apply in_app_or in I as [I|I]; [|specialize (RST I); repeat split; intros; lra].
    apply (ground_box _ _ _ _ pt) in I; [repeat split; intros; lra|lra|exact P].
  - destruct I as [<-|I]; [destruct P as [<-|[<-|[<-|[]]]]; cbn [fst snd]; repeat split; intros; lra|].
    destruct I as [<-|[<-|I]]; [destruct P as [<-|[<-|[]]]; cbn [fst snd]; repeat split; intros; lra|destruct P as [<-|[<-|[]]]; cbn [fst snd]; repeat split; intros; lra|].
    change (In s (ground_mpl (s_x su) (top - 1.02 * sh) (1.5 * sh) ++ pin_marker_mpl (s_x su) sh e :: (if s_rot su then rot_spring_mpl (s_x su) sh else []))) in I.
    apply in_app_or in I as [I|I]; [|specialize (RST I); repeat split; intros; lra].
    apply (ground_box _ _ _ _ pt) in I; [repeat split; intros; lra|lra|exact P].
  - destruct I as [<-|I]; [destruct P as [<-|[<-|[]]]; cbn [fst snd]; repeat split; intros; try lra; congruence|].
    apply in_map_iff in I as (y & <- & I). apply linspace_in in I as (f & F & ->); [|lia].
    destruct P as [<-|[<-|[]]]; cbn [fst snd]; (split; [destruct (s_right su); lra|]); (split; [nra|]); (split; [nra|congruence]).
  - apply in_app_or in I as [I|I]; [pose proof (spring_box _ _ _ _ H I P); repeat split; intros; lra|]. apply (ground_box _ _ _ _ pt) in I; [repeat split; intros; lra|lra|exact P].
  - apply in_app_or in I as [I|I].
    + destruct I as [<-|[<-|[]]]; destruct P as [<-|[<-|[]]]; cbn [fst snd]; repeat split; intros; lra.
    + apply (ground_box _ _ _ _ pt) in I; [repeat split; intros; lra|lra|exact P].
  - apply in_app_or in I as [I|I]; [pose proof (spring_box _ _ _ _ H I P); repeat split; intros; lra|]. apply (ground_box _ _ _ _ pt) in I; [repeat split; intros; lra|lra|exact P].
Qed.

Lemma spring_pictured x sh rest ground : 0 < sh -> rest = ground_mpl x (- (1.2 * sh)) ground -> 0 < ground ->
  exists zig y gr, gr < y < 0 /\ In (SLine zig) (spring_mpl x sh ++ rest) /\ hd (0, 0) zig = (x, 0) /\ last zig (0, 0) = (x, y) /\
      (exists pt, In pt zig /\ fst pt < x) /\ (exists pt, In pt zig /\ x < fst pt) /\
      In (SLine [(x, y); (x, gr)]) (spring_mpl x sh ++ rest) /\ level (spring_mpl x sh ++ rest) x gr.
Proof.
  intros H -> W. eexists _, (- (0.95 * sh)), (- (1.2 * sh)). split; [lra|]. split; [left; reflexivity|].
  split; [unfold linspace; cbn [seq map length combine Nat.eqb Nat.sub orb hd]; f_equal; cbn; lra|].
  split; [unfold linspace; cbn [seq map length combine Nat.eqb Nat.sub orb last]; f_equal; cbn; lra|].
  split; [|split; [|split]].
  - unfold linspace; cbn [seq map length combine Nat.eqb Nat.sub orb Nat.odd Nat.even negb]. eexists. split; [right; right; left; reflexivity|]. cbn [fst]. lra.
  - unfold linspace; cbn [seq map length combine Nat.eqb Nat.sub orb Nat.odd Nat.even negb]. eexists. split; [right; left; reflexivity|]. cbn [fst]. lra.
  - right; left; reflexivity.
  - apply level_r, ground_level. exact W.
Qed.

(** The symbol drawn for a support at a node of a beam. *)
Lemma drawn_pictured b sh su : 0 < sh -> s_x su = node_at b (s_node su) -> (s_right su = true <-> s_node su = b_nspans b) ->
  pictured b (s_node su) (s_kind su) (draw_support sh su).
Proof.
  intros H X RT. unfold pictured, draw_support. rewrite <- X. set (e := (s_left su || s_right su)%bool). set (top := if e then 0 else - (0.2 * sh)).
  assert (T : - (0.2 * sh) <= top <= 0) by (unfold top; destruct e; lra). set (x := s_x su).
  set (rest := pin_marker_mpl x sh e :: (if s_rot su then rot_spring_mpl x sh else [])).
  destruct (s_kind su).
  - exists top, (top - sh). split; [lra|]. split; [exists (0.5 * sh); split; [lra|left; reflexivity]|]. split; [apply level_cons, level_app, ground_level; lra|].
    intros c r [E|I]; [discriminate|]. apply in_app_or in I as [I|I]; [apply ground_lines in I as (? & ? & E); discriminate|].
    destruct I as [E|I]; [unfold pin_marker_mpl in E; destruct e; [injection E as <- _; reflexivity|discriminate]|]. destruct (s_rot su); [|destruct I]. destruct I as [E|[E|[]]]; discriminate.
  - exists top, (top - 0.7 * sh), (top - 1.02 * sh), (0.27 * sh), (top - 0.86 * sh), (0.15 * sh). split; [lra|]. split; [lra|]. split; [exists (0.5 * sh); split; [lra|left; reflexivity]|].
    split; [do 3 apply level_cons; apply level_app, ground_level; lra|]. split; [lra|]. split; [right; left; cbn; repeat f_equal; lra|]. split; [right; right; left; reflexivity|]. lra.
  - split; [exists sh; split; [exact H|left; reflexivity]|]. set (side := if s_right su then 1 else -1).
    assert (SD : (if Nat.eqb (s_node su) (b_nspans b) then 1 else -1) = side).
    { unfold side. destruct (Nat.eqb_spec (s_node su) (b_nspans b)) as [Q|Q]; [apply RT in Q; rewrite Q; reflexivity|]. destruct (s_right su); [|reflexivity]. exfalso. apply Q, RT. reflexivity. }
    split.
    + intros s pt I P. destruct I as [<-|I]; [destruct P as [<-|[<-|[]]]; cbn [fst]; destruct (Nat.eqb _ _); lra|].
      apply in_map_iff in I as (y & <- & _). destruct P as [<-|[<-|[]]]; cbn [fst]; rewrite <- ?SD; destruct (Nat.eqb _ _); lra.
    + eexists _, _. split; [right; left; reflexivity|]. split; [right; left; reflexivity|]. cbn [fst]. unfold side. destruct (s_right su); lra.
  - apply spring_pictured with (1.3 * sh); [exact H|reflexivity|lra].
  - exists (- (0.3 * sh)), (- (0.6 * sh)). split; [lra|]. split; [exists (0.5 * sh); split; [lra|left; reflexivity]|]. split; [exists (0.5 * sh); split; [lra|right; left; reflexivity]|].
    intros pts I. apply in_app_or in I as [[E|[E|[]]]|I]; try discriminate. apply ground_lines in I as (? & ? & E); discriminate.
  - apply spring_pictured with (1.3 * sh); [exact H|reflexivity|lra].
Qed.

(** The stem of the rotational spring. *)
Lemma ground_no_stem x y w x0 : 0 < w -> ~ stem_up (ground_mpl x y w) x0.
Proof. intros Hw (h & Hh & I). destruct (ground_flat x y w _ _ _ Hw I eq_refl) as (A & B). cbn in A, B. lra. Qed.
Lemma stem_shown sh su : 0 < sh -> (s_rot su = true -> s_kind su = KPin \/ s_kind su = KRoller) -> (stem_up (draw_support sh su) (s_x su) <-> s_rot su = true).
Proof.
  intros H RK. set (x := s_x su). split.
  - intros (h & Hh & I). unfold draw_support in I. fold x in I. set (e := (s_left su || s_right su)%bool) in I. set (top := if e then 0 else - (0.2 * sh)) in I.
    assert (G : forall y w, 0 < w -> In (SLine [(x, 0); (x, h)]) (ground_mpl x y w) -> False) by (intros y w Hw J; apply (ground_no_stem x y w x Hw); exists h; auto).
    assert (RST : In (SLine [(x, 0); (x, h)]) (pin_marker_mpl x sh e :: (if s_rot su then rot_spring_mpl x sh else [])) -> s_rot su = true).
    { intros [E|J]; [unfold pin_marker_mpl in E; destruct e; discriminate|]. destruct (s_rot su); [reflexivity|destruct J]. }
    assert (SP : In (SLine [(x, 0); (x, h)]) (spring_mpl x sh) -> False).
    { intros J. destruct J as [E|[E|[]]].
      - assert (L2 : forall l l' : list (R * R), SLine l = SLine l' -> length l = length l') by (intros l l' Q; injection Q as ->; reflexivity).
        apply L2 in E. rewrite combine_length in E. unfold linspace in E. rewrite !map_length, !seq_length in E. rewrite ?map_length, ?seq_length in E. cbn in E. lia.
      - injection E as A B. lra. }
    destruct (s_kind su).
    + destruct I as [E|I]; [discriminate|]. apply in_app_or in I as [I|I]; [exfalso; refine (G _ _ _ I); lra|exact (RST I)].
    + destruct I as [E|[E|[E|I]]]; try discriminate. change (In (SLine [(x, 0); (x, h)]) (ground_mpl x (top - 1.02 * sh) (1.5 * sh) ++ pin_marker_mpl x sh e :: (if s_rot su then rot_spring_mpl x sh else []))) in I.
      apply in_app_or in I as [I|I]; [exfalso; refine (G _ _ _ I); lra|exact (RST I)].
    + exfalso. destruct I as [E|I]; [injection E as A B; lra|]. apply in_map_iff in I as (y & E & _). injection E as A B C. destruct (s_right su); lra.
    + exfalso. apply in_app_or in I as [I|I]; [exact (SP I)|refine (G _ _ _ I); lra].
    + exfalso. apply in_app_or in I as [[E|[E|[]]]|I]; [injection E as A B C D; lra|injection E as A B C D; lra|refine (G _ _ _ I); lra].
    + exfalso. apply in_app_or in I as [I|I]; [exact (SP I)|refine (G _ _ _ I); lra].
  - intros E. exists (0.48 * sh - 0.3 * sh). split; [lra|]. unfold draw_support. rewrite E. fold x. set (e := (s_left su || s_right su)%bool).
    destruct (RK E) as [-> | ->]; right; [|apply in_or_app; right]; apply in_or_app; right; right; left; reflexivity.
Qed.

Section G.
Variable g : R -> string.
Variable uni : nat -> string.

Lemma pic_L us0 b s p o pic : deck b -> beam_plotter b s = Ok p -> render_mpl g uni us0 p o = Ok pic -> sc_L pic = deck_length b.
Proof. intros K B H. destruct (render_parts g uni us0 p o pic H) as (us & prof & gr & dims & partial & _ & _ & _ & _ & _ & _ & ->). cbn [sc_L]. exact (plotter_L b s p K B). Qed.
Lemma pic_supports us0 p o pic : render_mpl g uni us0 p o = Ok pic -> sc_supports pic = if mo_supports o then pl_supports p else [].
Proof. intros H. destruct (render_parts g uni us0 p o pic H) as (us & prof & gr & dims & partial & _ & _ & _ & _ & _ & _ & ->). reflexivity. Qed.

Lemma symbol_fun b i k k' : symbol b i k -> symbol b i k' -> k = k'.
Proof.
  intros A B. destruct k, k'; try reflexivity; exfalso; cbn in A, B; unfold clamped_node in *; try (destruct A as (A1 & A2 & A3), B as (B1 & B2 & B3)); try lra;
  repeat match goal with H : _ /\ _ |- _ => destruct H end; try lra;
  try (match goal with H : _ \/ _ |- _ => destruct H as [(j & J1 & J2)|(j & J1 & J2)] end; [eapply H; [|split; [exact (proj1 J2)|exact (proj2 J2)]]; lia|]); auto;
  repeat match goal with H : _ /\ _ |- _ => destruct H | H : exists _, _ |- _ => destruct H | H : _ \/ _ |- _ => destruct H end; try lra; eauto;
  match goal with H : forall j, (j < i)%nat -> 0 <= vert b j, J : (?m < i)%nat |- _ => specialize (H m J); lra | H : forall j, (j <= b_nspans b)%nat -> ~ _, J : (?m <= b_nspans b)%nat |- _ => apply (H m J); auto end.
Qed.

Lemma symbols_drawn us0 b s p o pic : deck b -> documented b -> beam_plotter b s = Ok p -> render_mpl g uni us0 p o = Ok pic -> mo_supports o = true ->
  Forall2 (fun i ss => (forall k, symbol b i k -> pictured b i k ss) /\ (stem_up ss (node_at b i) <-> vert b i < 0 < rot b i))
    (filter (fun i => negb (Reqb (vert b i) 0 && Reqb (rot b i) 0)) (seq 0 (b_nspans b + 1))) (support_symbols pic).
Proof.
  intros K D B H MS. pose proof (supports_drawn b s p K D B) as [SN SE]. rewrite <- SN. unfold support_symbols. rewrite (pic_supports _ _ _ _ H), MS, (pic_L _ _ _ _ _ _ K B H).
  pose proof (deck_long b K) as DL. clear SN. induction (pl_supports p) as [|su t IH]; [constructor|]. cbn [map]. constructor; [|apply IH; intros x I; apply SE; right; exact I].
  destruct (SE su (or_introl eq_refl)) as (X & SY & _ & RT & RO). split.
  - intros k SK. rewrite (symbol_fun _ _ _ _ SK SY). apply drawn_pictured; trivial. lra.
  - rewrite <- X. transitivity (s_rot su = true); [|tauto]. apply stem_shown; [lra|]. intros E. apply RO in E as (V & W). clear - SY V W. destruct (s_kind su); cbn in SY; unfold clamped_node in SY; auto; lra.
Qed.

(** ** Within the axes *)
Lemma support_within us0 b s p o pic su : deck b -> beam_plotter b s = Ok p -> render_mpl g uni us0 p o = Ok pic -> In su (sc_supports pic) -> 0 <= s_x su <= deck_length b.
Proof.
  intros K B H I. rewrite (pic_supports _ _ _ _ H) in I. destruct (mo_supports o); [|destruct I].
  apply plotter_parts in B as (lm & sup & dd & _ & S & _ & EP). rewrite EP in I. cbn [pl_supports] in I. pose proof (support_place _ _ _ S _ I) as SP. rewrite (dk_term b K) in SP.
  apply in_map_iff in SP as (i & <- & Hi). apply in_seq in Hi. apply node_within; [exact K|lia].
Qed.
Lemma lmax_pos l : 0 <= lmax l.
Proof. unfold lmax. induction l as [|a l IH]; cbn; [lra|]. apply Rle_trans with (1 := IH), Rmax_r. Qed.
Lemma no_loads_above L pm d : no_loads d = true -> lmax (heights_above L pm d) = 0.
Proof. unfold no_loads, heights_above. destruct (dr_pts d), (dr_dist d), (dr_moms d); try discriminate. intros _. cbn. apply Rmax_left. lra. Qed.
Lemma pic_limits us0 b s p o pic : deck b -> beam_plotter b s = Ok p -> render_mpl g uni us0 p o = Ok pic -> let L := deck_length b in
  sc_xlim pic = (- (0.06 * L), 1.06 * L) /\ (mo_supports o = true -> fst (sc_ylim pic) <= - (0.08 * L)) /\
  (if no_loads (pl_loads p) then snd (sc_ylim pic) = 0.045 * L else 0.07 * L <= snd (sc_ylim pic)).
Proof.
  intros K B H L. destruct (render_parts g uni us0 p o pic H) as (us & prof & gr & dims & partial & _ & HL & _ & _ & _ & _ & ->). cbn [sc_xlim sc_ylim]. rewrite (plotter_L b s p K B) in *. fold L in HL |- *. split; [reflexivity|].
  unfold y_limits; cbn [fst snd]. split.
  - intros ->. cbn [negb]. match goal with |- (if _ then Rmin ?s _ else ?s) <= _ => assert (SS : s <= - (0.08 * L)) end; [destruct (mo_dimensions o); [lra|]; match goal with |- context [if ?c then _ else _] => destruct c end; lra|].
    destruct (Rltb _ _); [|exact SS]. eapply Rle_trans; [apply Rmin_l|exact SS].
  - destruct (no_loads (pl_loads p)) eqn:N; [rewrite (no_loads_above _ _ _ N); lra|]. match goal with |- context [lmax ?l] => pose proof (lmax_pos l) end. lra.
Qed.
Lemma symbols_inside us0 b s p o pic su sp pt : deck b -> beam_plotter b s = Ok p -> render_mpl g uni us0 p o = Ok pic -> mo_supports o = true ->
  (no_loads (pl_loads p) = true -> s_kind su <> KFixed) -> In su (sc_supports pic) -> In sp (draw_support (0.05 * sc_L pic) su) -> In pt (extremes sp) -> inside pic pt.
Proof.
  intros K B H MS NF I J P. pose proof (support_within _ _ _ _ _ _ _ K B H I) as SX. rewrite (pic_L _ _ _ _ _ _ K B H) in J. pose proof (deck_long b K) as DL.
  destruct (pic_limits _ _ _ _ _ _ K B H) as (XL & YL & YM). specialize (YL MS). destruct (support_box (0.05 * deck_length b) su sp pt ltac:(lra) J P) as (A & C & D & E). unfold inside. rewrite XL. cbn [fst snd].
  split; [lra|]. split; [lra|]. destruct (no_loads (pl_loads p)); [specialize (E (NF eq_refl)); lra|lra].
Qed.
Lemma wall_outside us0 b s p o pic su : deck b -> beam_plotter b s = Ok p -> render_mpl g uni us0 p o = Ok pic -> mo_supports o = true ->
  no_loads (pl_loads p) = true -> In su (sc_supports pic) -> s_kind su = KFixed -> exists sp pt, In sp (draw_support (0.05 * sc_L pic) su) /\ In pt (extremes sp) /\ ~ inside pic pt.
Proof.
  intros K B H MS N I KF. destruct (pic_limits _ _ _ _ _ _ K B H) as (XL & YL & YM). rewrite N in YM. pose proof (deck_long b K) as DL. rewrite (pic_L _ _ _ _ _ _ K B H).
  unfold draw_support. rewrite KF. eexists _, _. split; [left; reflexivity|]. split; [right; left; reflexivity|]. unfold inside. cbn [fst snd]. rewrite YM. lra.
Qed.

(** Hinges. *)
Lemma hinge_symbols_drawn us0 b s p o pic : deck b -> beam_plotter b s = Ok p -> render_mpl g uni us0 p o = Ok pic -> mo_supports o = true ->
  exists r, 0 < r /\ forall sp, In sp (hinge_symbols pic) <-> exists m, (1 <= m < b_nspans b)%nat /\ (loose_right b (m - 1) \/ loose_left b m) /\ sp = SDisc (node_at b m, 0) r.
Proof.
  intros K B H MS. pose proof (deck_long b K). exists (0.18 * (0.05 * deck_length b)). split; [lra|]. intros sp. unfold hinge_symbols. rewrite (pic_L _ _ _ _ _ _ K B H).
  assert (HE : sc_hinges pic = pl_hinges p) by (destruct (render_parts g uni us0 p o pic H) as (us & prof & gr & dims & partial & _ & _ & _ & _ & _ & _ & ->); cbn; rewrite MS; reflexivity).
  rewrite HE, in_map_iff. pose proof (hinges_drawn b s p K B) as HD. split.
  - intros (h & <- & I). apply HD in I as (i & N & Q & ->). exists i. split; [lia|]. auto.
  - intros (m & N & Q & ->). exists {| h_x := node_at b m; h_node := m |}. split; [reflexivity|]. apply HD. exists m. split; [lia|auto].
Qed.
End G.
