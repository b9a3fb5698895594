From Coq Require Import ZArith.
From Verif Require Import Base BaseFacts SectionModel SectBuildModel SectBuildSpec SectBuildFacts SectBuildFacts2 VehicleModel EnvelopeModel BridgeModel BridgeFacts CritFacts InPlotModel InPlotSpec.
Open Scope R_scope.

(** ** Curves *)
Lemma linspace_in a b n x : a <= b -> (2 <= n)%nat -> In x (linspace a b n) -> a <= x <= b.
Proof.
  intros H N I. unfold linspace in I. apply in_map_iff in I. destruct I as (i & <- & Hi). apply in_seq in Hi.
  assert (P : 0 < INR (n - 1)) by (apply lt_0_INR; lia). assert (Q : 0 <= INR i <= INR (n - 1)) by (split; [apply pos_INR|apply le_INR; lia]).
  assert (E : INR i * ((b - a) / INR (n - 1)) = (b - a) * (INR i / INR (n - 1))) by (field; lra). rewrite E.
  assert (U : 0 <= INR i / INR (n - 1) <= 1). { split; [apply Rmult_le_pos; [lra|left; apply Rinv_0_lt_compat, P]|]. apply (Rmult_le_reg_r (INR (n - 1))); [exact P|]. unfold Rdiv. rewrite Rmult_assoc, Rinv_l; lra. }
  assert (0 <= (b - a) * (INR i / INR (n - 1))) by (apply Rmult_le_pos; lra). assert ((b - a) * (INR i / INR (n - 1)) <= (b - a) * 1) by (apply Rmult_le_compat_l; lra). lra.
Qed.
Lemma linspace_len a b n : length (linspace a b n) = n.
Proof. unfold linspace. rewrite map_length, seq_length. reflexivity. Qed.
Lemma linspace_nth a b n i : (i < n)%nat -> nth i (linspace a b n) 0 = a + INR i * ((b - a) / INR (n - 1)).
Proof.
  intros H. unfold linspace. rewrite (nth_indep _ 0 ((fun i => a + INR i * ((b - a) / INR (n - 1))) 0%nat)) by (rewrite map_length, seq_length; exact H).
  rewrite (map_nth (fun i => a + INR i * ((b - a) / INR (n - 1)))), seq_nth by exact H. reflexivity.
Qed.
Lemma linspace_last a b n : (2 <= n)%nat -> last (linspace a b n) 0 = b.
Proof.
  intros N. assert (G : forall (l : list R), last l 0 = nth (length l - 1) l 0).
  { induction l as [|x l IH]; [reflexivity|]. destruct l as [|y l]; [reflexivity|]. change (last (y :: l) 0 = nth (length (y :: l)) (x :: y :: l) 0). rewrite IH. cbn [length]. replace (S (length l) - 1)%nat with (length l) by lia. reflexivity. }
  rewrite G, linspace_len, linspace_nth by lia. field. apply not_0_INR. lia.
Qed.
Lemma map_last {A B} (f : A -> B) l d : last (map f l) (f d) = f (last l d).
Proof. induction l as [|x l IH]; [reflexivity|]. destruct l; [reflexivity|exact IH]. Qed.
Lemma last_indep {A} (l : list A) d d' : l <> [] -> last l d = last l d'.
Proof. induction l as [|x l IH]; [congruence|]. intros _. destruct l as [|y l]; [reflexivity|]. apply IH. discriminate. Qed.
Lemma curve_graph n total p : p_x0 p < p_x1 p -> graph_of (piece_eval p) (p_x0 p) (p_x1 p) (piece_curve n total p).
Proof.
  intros H. unfold piece_curve. set (m := Nat.max 2 _). assert (M : (2 <= m)%nat) by (unfold m; lia). clearbody m. set (f := fun x => (x, piece_eval p x)).
  assert (L := linspace_len (p_x0 p) (p_x1 p) m). split.
  - rewrite map_length, L. exact M.
  - unfold linspace. destruct m as [|m]; [lia|]. cbn [seq map hd]. unfold f. cbn [INR]. rewrite Rmult_0_l, Rplus_0_r. reflexivity.
  - rewrite (last_indep _ (0, 0) (f 0)) by (intros E; apply (f_equal (@length _)) in E; rewrite map_length, L in E; cbn in E; lia).
    rewrite map_last, linspace_last by exact M. reflexivity.
  - rewrite map_map. unfold f. cbn [fst]. rewrite map_id. intros i Hi. rewrite L in Hi. rewrite !linspace_nth by lia. rewrite S_INR.
    assert (0 < (p_x1 p - p_x0 p) / INR (m - 1)) by (apply Rdiv_lt_0_compat; [lra|apply lt_0_INR; lia]). lra.
  - intros x y I. apply in_map_iff in I. destruct I as (t & E & It). unfold f in E. injection E as <- <-. split; [|reflexivity]. apply (linspace_in _ _ m); [lra|exact M|exact It].
Qed.
Lemma walk_curves n total len ps : forall prev, Forall (fun p => p_x0 p < p_x1 p) ps ->
  Forall2 (fun p c => graph_of (piece_eval p) (p_x0 p) (p_x1 p) c) ps (fst (walk_pieces n total len prev ps)).
Proof.
  induction ps as [|p ps IH]; intros prev F; [constructor|]. inversion F as [|? ? A B]; subst. cbn [walk_pieces]. set (c := piece_curve n total p) in *. 
  specialize (IH (Some (p_x1 p, snd (last c (0, 0)))) B). destruct (walk_pieces n total len (Some (p_x1 p, snd (last c (0, 0)))) ps) as [cs rs]. cbn [fst] in *. constructor; [apply curve_graph, A|exact IH].
Qed.
Lemma chain_lt a ps b : chain a ps b -> Forall (fun p => p_x0 p < p_x1 p) ps.
Proof. induction 1; constructor; auto. Qed.
Lemma exact_lt a ps b : exact_ a ps b -> Forall (fun p => p_x0 p < p_x1 p) ps.
Proof. induction 1; constructor; auto. Qed.
Lemma pieces_drawn pf acc s n sb v : history pf acc s -> section_plot n sb s = Ok v ->
  Forall2 (fun p c => graph_of (piece_eval p) (p_x0 p) (p_x1 p) c) (s_pieces s) (sp_curves v).
Proof.
  intros H E. assert (C : Forall (fun p => p_x0 p < p_x1 p) (s_pieces s)) by exact (chain_lt _ _ _ (sn_chain _ (history_sane _ _ _ H))).
  unfold section_plot in E. destruct (s_pieces s) as [|p ps] eqn:EP; [discriminate|]. rewrite <- EP in *. assert (W := walk_curves n (drawn_length (s_pieces s)) (sect_length s) (s_pieces s) None C).
  destruct (walk_pieces n (drawn_length (s_pieces s)) (sect_length s) None (s_pieces s)) as [cs rs]. injection E as <-. exact W.
Qed.
Lemma F2_of_in {A B} (P : A -> B -> Prop) l m a : Forall2 P l m -> In a l -> exists b, In b m /\ P a b.
Proof. induction 1 as [|x y l m H F IH]; [intros []|]. intros [<-|I]; [exists y; split; [left; reflexivity|exact H]|]. destruct (IH I) as (b & Ib & Pb). exists b. split; [right; exact Ib|exact Pb]. Qed.
Lemma graph_ext f g lo hi c : (forall x, f x = g x) -> graph_of f lo hi c -> graph_of g lo hi c.
Proof. intros E [A B C D F]. split; try assumption; try (rewrite <- E; assumption). intros x y I. destruct (F x y I) as [H1 H2]. split; [exact H1|]. rewrite <- E. exact H2. Qed.
Lemma described_drawn pf acc s b c lo hi f n sb v : history pf acc s -> joined 0 acc b -> In c acc -> declares c lo hi f -> section_plot n sb s = Ok v ->
  exists cv, In cv (sp_curves v) /\ graph_of f lo hi cv.
Proof.
  intros H J I D E. assert (F := pieces_drawn _ _ _ _ _ _ H E). destruct (history_laid _ _ _ H) as (nws & [A B _ _]). destruct (F2_in _ _ _ _ A I) as (nw & Inw & Sd & P). destruct (declared_piece pf c nw lo hi f Sd P D) as ((p & Ip & E0 & E1 & Ef) & _).
  assert (Ips : In p (s_pieces s)) by (rewrite B; apply in_flat_map; exists nw; auto). destruct (F2_of_in _ _ _ _ F Ips) as (cv & Ic & G). exists cv. split; [exact Ic|]. rewrite E0, E1 in G. exact (graph_ext _ _ _ _ _ Ef G).
Qed.

(** ** Risers *)
Definition start_end (c1 c2 : list (R * R)) (r : R * R * R) : Prop :=
  let '(x, y1, y2) := r in last c1 (0, 0) = (x, y1) /\ hd (0, 0) c2 = (x, y2) /\ told_apart y1 y2.
Lemma isclose_same tol px x : x = px -> 0 <= tol -> isclose 1e-5 tol x px = true.
Proof. intros -> H. unfold isclose. assert (A := Rabs_pos px). rewrite Rminus_diag_eq, Rabs_R0 by reflexivity. destruct (Rleb_spec 0 (tol + 1e-5 * Rabs px)); [reflexivity|]. lra. Qed.
Lemma told_bool y0 py : negb (isclose 1e-9 0 y0 py) = true <-> told_apart py y0.
Proof.
  unfold isclose, told_apart. rewrite Rplus_0_l. destruct (Rleb_spec (Rabs (y0 - py)) (1e-9 * Rabs py)); cbn; split; intros; try discriminate; try reflexivity; lra.
Qed.
Lemma walk_risers n total len ps : forall a b prev, exact_ a ps b -> match prev with Some (px, _) => px = a | None => True end ->
  let (cs, rs) := walk_pieces n total len prev ps in
  forall x y1 y2, In (x, y1, y2) rs <->
    (match prev, cs with Some q, c :: _ => q = (x, y1) /\ hd (0, 0) c = (x, y2) /\ told_apart y1 y2 | _, _ => False end) \/
    exists k c1 c2, nth_error cs k = Some c1 /\ nth_error cs (S k) = Some c2 /\ start_end c1 c2 (x, y1, y2).
Proof.
  induction ps as [|p ps IH]; intros a b prev EX HP; cbn [walk_pieces].
  - intros x y1 y2. split; [intros []|]. intros [H|(k & c1 & c2 & H & _)]; [destruct prev as [[? ?]|]; exact H|destruct k; discriminate].
  - inversion EX as [|p' ps' b' Hp EX' Ea]. subst. clear EX. assert (G := curve_graph n total p Hp). set (c := piece_curve n total p) in *.
    assert (L1 := go_last _ _ _ _ G). assert (F1 := go_first _ _ _ _ G). specialize (IH _ _ (Some (p_x1 p, snd (last c (0, 0)))) EX' eq_refl).
    destruct (walk_pieces n total len (Some (p_x1 p, snd (last c (0, 0)))) ps) as [cs rs]. intros x y1 y2. rewrite in_app_iff, IH. clear IH. rewrite L1, F1. cbn [snd].
    assert (U : In (x, y1, y2) match prev with Some (px, py) => if (isclose 1e-5 (1e-9 * Rmax 1 len) (p_x0 p) px && negb (isclose 1e-9 0 (piece_eval p (p_x0 p)) py))%bool then [(p_x0 p, py, piece_eval p (p_x0 p))] else [] | None => [] end
      <-> match prev with Some q => q = (x, y1) /\ (p_x0 p, piece_eval p (p_x0 p)) = (x, y2) /\ told_apart y1 y2 | None => False end).
    { destruct prev as [[px py]|]; [|split; intros []]. subst px. rewrite isclose_same by (try reflexivity; assert (1 <= Rmax 1 len) by apply Rmax_l; lra). cbn [andb].
      destruct (negb (isclose 1e-9 0 (piece_eval p (p_x0 p)) py)) eqn:T.
      - apply told_bool in T. cbn [In]. split; [intros [E|[]]; injection E as <- <- <-; auto|]. intros (Q & E & _). injection E as <- <-. injection Q as <-. left. reflexivity.
      - split; [intros []|]. intros (Q & E & T'). injection E as <- <-. injection Q as <-. apply told_bool in T'. congruence. }
    rewrite U. clear U. split.
    + intros [H|[H|(k & c1 & c2 & A & B & H)]].
      * left. destruct prev as [q|]; [|destruct H]. exact H.
      * right. destruct cs as [|c' cs]; [destruct H|]. exists 0%nat, c, c'. split; [reflexivity|]. split; [reflexivity|]. unfold start_end. rewrite L1. exact H.
      * right. exists (S k), c1, c2. auto.
    + intros [H|(k & c1 & c2 & A & B & H)].
      * left. destruct prev as [q|]; [|destruct H]. exact H.
      * right. destruct k as [|k]; [|right; exists k, c1, c2; auto]. left. change (Some c = Some c1) in A. assert (c1 = c) by (injection A; auto). clear A. subst c1. cbn [nth_error] in B. destruct cs as [|c' cs]; [discriminate|]. assert (c' = c2) by congruence. subst c2. clear B. unfold start_end in H. rewrite L1 in H. exact H.
Qed.
Lemma risers_drawn pf acc s b n sb v : history pf acc s -> joined 0 acc b -> section_plot n sb s = Ok v ->
  forall x y1 y2, In (x, y1, y2) (sp_risers v) <->
    exists k c1 c2, nth_error (sp_curves v) k = Some c1 /\ nth_error (sp_curves v) (S k) = Some c2 /\ last c1 (0, 0) = (x, y1) /\ hd (0, 0) c2 = (x, y2) /\ told_apart y1 y2.
Proof.
  intros H J E x y1 y2. destruct (history_laid _ _ _ H) as (nws & [A B _ _]). assert (EX := joined_exact _ _ _ A _ _ J). rewrite <- B in EX.
  unfold section_plot in E. destruct (s_pieces s) as [|p ps] eqn:EP; [discriminate|]. rewrite <- EP in *. clear EP p ps.
  assert (W := walk_risers n (drawn_length (s_pieces s)) (sect_length s) (s_pieces s) _ _ None EX I).
  destruct (walk_pieces n (drawn_length (s_pieces s)) (sect_length s) None (s_pieces s)) as [cs rs]. injection E as <-. cbn [sp_risers sp_curves]. rewrite W. split; [intros [[]|Q]; exact Q|intros Q; right; exact Q].
Qed.
Lemma marks_drawn pf acc s b n sb v : history pf acc s -> joined 0 acc b -> acc <> [] -> spaced (1e-9 * Rmax 1 b) 0 (flat_map changes acc) ->
  section_plot n sb s = Ok v -> sp_marks v = if sb then 0 :: flat_map changes acc else [].
Proof.
  intros H J N S E. unfold section_plot in E. destruct (s_pieces s) as [|p ps]; [discriminate|]. destruct (walk_pieces _ _ _ _ _) as [cs rs]. injection E as <-. cbn [sp_marks]. destruct sb; [|reflexivity]. exact (proj2 (breaks pf _ _ _ H J N S)).
Qed.
Lemma plot_total pf acc s n sb : history pf acc s -> (exists v, section_plot n sb s = Ok v) <-> acc <> [].
Proof.
  intros H. destruct (history_laid _ _ _ H) as (nws & LD). split.
  - intros (v & E) ->. destruct LD as [A B _ _]. inversion A; subst. unfold section_plot in E. rewrite B in E. discriminate.
  - intros N. assert (NP := laid_nonempty _ _ _ _ LD N). unfold section_plot. destruct (s_pieces s) as [|p ps]; [congruence|]. destruct (walk_pieces _ _ _ _ _) as [cs rs]. eauto.
Qed.

(** ** Jumps of the description *)
Lemma exact_bounds a ps b : exact_ a ps b -> forall p, In p ps -> a <= p_x0 p /\ p_x0 p < p_x1 p.
Proof. induction 1 as [|q ps b H E IH]; intros p []; [subst; lra|]. specialize (IH p H0). lra. Qed.
Lemma exact_next a ps b : exact_ a ps b -> forall p q, In p ps -> In q ps -> p_x1 p = p_x0 q ->
  exists k, nth_error ps k = Some p /\ nth_error ps (S k) = Some q.
Proof.
  induction 1 as [|r ps b H E IH]; intros p q Ip Iq J; [destruct Ip|]. destruct Ip as [->|Ip].
  - destruct Iq as [->|Iq]; [lra|]. exists 0%nat. split; [reflexivity|]. inversion E as [|r' ps' b' H' E' E1]; subst; [destruct Iq|]. destruct Iq as [->|Iq]; [reflexivity|].
    assert (B := exact_bounds _ _ _ E' _ Iq). lra.
  - destruct Iq as [->|Iq]; [assert (B := exact_bounds _ _ _ E _ Ip); lra|]. destruct (IH p q Ip Iq J) as (k & A & B). exists (S k). split; [exact A|exact B].
Qed.
Lemma F2_nth {A B} (P : A -> B -> Prop) l m : Forall2 P l m -> forall k a, nth_error l k = Some a -> exists b, nth_error m k = Some b /\ P a b.
Proof. induction 1 as [|x y l m H F IH]; intros [|k] a E; try discriminate; [injection E as <-; exists y; auto|exact (IH k a E)]. Qed.
Lemma jump_drawn pf acc s b c1 c2 lo x hi f g n sb v : history pf acc s -> joined 0 acc b -> In c1 acc -> In c2 acc -> declares c1 lo x f -> declares c2 x hi g ->
  section_plot n sb s = Ok v -> told_apart (f x) (g x) -> In (x, f x, g x) (sp_risers v).
Proof.
  intros H J I1 I2 D1 D2 E T. apply (risers_drawn _ _ _ _ _ _ _ H J E). assert (F := pieces_drawn _ _ _ _ _ _ H E). destruct (history_laid _ _ _ H) as (nws & [A B _ _]). assert (EX := joined_exact _ _ _ A _ _ J). rewrite <- B in EX.
  destruct (F2_in _ _ _ _ A I1) as (nw1 & In1 & Sd1 & P1). destruct (declared_piece pf c1 nw1 _ _ _ Sd1 P1 D1) as ((p & Ip & _ & Ep & Fp) & _).
  destruct (F2_in _ _ _ _ A I2) as (nw2 & In2 & Sd2 & P2). destruct (declared_piece pf c2 nw2 _ _ _ Sd2 P2 D2) as ((q & Iq & Eq & _ & Gq) & _).
  assert (Sp : In p (s_pieces s)) by (rewrite B; apply in_flat_map; exists nw1; auto). assert (Sq : In q (s_pieces s)) by (rewrite B; apply in_flat_map; exists nw2; auto).
  destruct (exact_next _ _ _ EX p q Sp Sq ltac:(congruence)) as (k & K1 & K2). destruct (F2_nth _ _ _ F _ _ K1) as (cv1 & N1 & G1). destruct (F2_nth _ _ _ F _ _ K2) as (cv2 & N2 & G2).
  exists k, cv1, cv2. split; [exact N1|]. split; [exact N2|]. rewrite (go_last _ _ _ _ G1), (go_first _ _ _ _ G2), Ep, Eq, Fp, Gq. auto.
Qed.
Lemma exact_cover a ps b : exact_ a ps b -> ps <> [] -> forall x, a <= x <= b -> exists p, In p ps /\ p_x0 p <= x <= p_x1 p.
Proof.
  induction 1 as [|q ps b H E IH]; intros N x B; [congruence|]. destruct (Rle_dec x (p_x1 q)) as [L|L]; [exists q; split; [left; reflexivity|lra]|].
  destruct ps as [|r ps]; [inversion E; subst; lra|]. destruct (IH ltac:(discriminate) x ltac:(lra)) as (p & I & Q). exists p. split; [right; exact I|exact Q].
Qed.
Lemma exact_same_end a ps b : exact_ a ps b -> forall p q, In p ps -> In q ps -> p_x1 p = p_x1 q -> p = q.
Proof.
  induction 1 as [|r ps b H E IH]; intros p q Ip Iq J; [destruct Ip|]. assert (B := exact_bounds _ _ _ E). destruct Ip as [->|Ip], Iq as [->|Iq]; [reflexivity| | |exact (IH p q Ip Iq J)].
  - specialize (B q Iq). lra.
  - specialize (B p Ip). lra.
Qed.
Lemma exact_same_start a ps b : exact_ a ps b -> forall p q, In p ps -> In q ps -> p_x0 p = p_x0 q -> p = q.
Proof.
  induction 1 as [|r ps b H E IH]; intros p q Ip Iq J; [destruct Ip|]. assert (B := exact_bounds _ _ _ E). destruct Ip as [->|Ip], Iq as [->|Iq]; [reflexivity| | |exact (IH p q Ip Iq J)].
  - specialize (B q Iq). lra.
  - specialize (B p Ip). lra.
Qed.
Lemma F2_nth_r {A B} (P : A -> B -> Prop) l m : Forall2 P l m -> forall k b, nth_error m k = Some b -> exists a, nth_error l k = Some a /\ P a b.
Proof. induction 1 as [|x y l m H F IH]; intros [|k] b E; try discriminate; [injection E as <-; exists x; auto|exact (IH k b E)]. Qed.
Lemma jumps_drawn pf acc s b c1 c2 lo x hi f g n sb v : history pf acc s -> joined 0 acc b -> In c1 acc -> In c2 acc -> declares c1 lo x f -> declares c2 x hi g ->
  section_plot n sb s = Ok v -> forall y1 y2, In (x, y1, y2) (sp_risers v) <-> y1 = f x /\ y2 = g x /\ told_apart y1 y2.
Proof.
  intros H J I1 I2 D1 D2 E y1 y2. split; [|intros (-> & -> & T); exact (jump_drawn _ _ _ _ _ _ _ _ _ _ _ _ _ _ H J I1 I2 D1 D2 E T)]. intros I. apply (risers_drawn _ _ _ _ _ _ _ H J E) in I. destruct I as (k & cv1 & cv2 & N1 & N2 & L1 & L2 & T).
  assert (F := pieces_drawn _ _ _ _ _ _ H E). destruct (history_laid _ _ _ H) as (nws & [A B _ _]). assert (EX := joined_exact _ _ _ A _ _ J). rewrite <- B in EX.
  destruct (F2_in _ _ _ _ A I1) as (nw1 & In1 & Sd1 & P1). destruct (declared_piece pf c1 nw1 _ _ _ Sd1 P1 D1) as ((p & Ip & _ & Ep & Fp) & _).
  destruct (F2_in _ _ _ _ A I2) as (nw2 & In2 & Sd2 & P2). destruct (declared_piece pf c2 nw2 _ _ _ Sd2 P2 D2) as ((q & Iq & Eq & _ & Gq) & _).
  assert (Sp : In p (s_pieces s)) by (rewrite B; apply in_flat_map; exists nw1; auto). assert (Sq : In q (s_pieces s)) by (rewrite B; apply in_flat_map; exists nw2; auto).
  destruct (F2_nth_r _ _ _ F _ _ N1) as (p' & K1 & G1). destruct (F2_nth_r _ _ _ F _ _ N2) as (q' & K2 & G2). rewrite (go_last _ _ _ _ G1) in L1. rewrite (go_first _ _ _ _ G2) in L2. injection L1 as X1 Y1. injection L2 as X2 Y2.
  assert (p' = p) by (apply (exact_same_end _ _ _ EX); [exact (nth_error_In _ _ K1)|exact Sp|congruence]). assert (q' = q) by (apply (exact_same_start _ _ _ EX); [exact (nth_error_In _ _ K2)|exact Sq|congruence]). subst p' q'.
  rewrite Fp in Y1. rewrite Gq in Y2. rewrite X1 in Y1. rewrite X2 in Y2. auto.
Qed.
