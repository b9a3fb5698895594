(** Trapezoidal sums against integrals. *)
From Coquelicot Require Import Coquelicot.
From Coq Require Import Lia.
From Verif Require Import Base LoadModel.
Open Scope R_scope.

Definition rising (L : R) (W : R -> R) : Prop := forall s t, 0 <= s <= t -> t <= L -> W s <= W t.
(** [W] counts at least the variation of [g]. *)
Definition varies (L : R) (g W : R -> R) : Prop := forall s t, 0 <= s <= t -> t <= L -> Rabs (g t - g s) <= W t - W s.
Definition tame (L : R) (g : R -> R) : Prop := exists W, varies L g W.
(** Bounded and of bounded slope. *)
Definition good (L : R) (g : R -> R) : Prop := exists q B, 0 <= q /\ 0 <= B /\ (forall x, 0 <= x <= L -> Rabs (g x) <= B) /\
  forall s t, 0 <= s <= L -> 0 <= t <= L -> Rabs (g t - g s) <= q * Rabs (t - s).

Section L.
Variable L : R.
Hypothesis L0 : 0 <= L.

Lemma varies_rising g W : varies L g W -> rising L W.
Proof. intros H s t Hs Ht. assert (Q := H s t Hs Ht). assert (P := Rabs_pos (g t - g s)). lra. Qed.
Lemma varies_plus g W h U : varies L g W -> varies L h U -> varies L (fun x => g x + h x) (fun x => W x + U x).
Proof.
  intros A B s t Hs Ht. assert (P := A s t Hs Ht). assert (Q := B s t Hs Ht). replace (g t + h t - (g s + h s)) with ((g t - g s) + (h t - h s)) by ring.
  eapply Rle_trans; [apply Rabs_triang|]. lra.
Qed.
Lemma varies_scal c g W : varies L g W -> varies L (fun x => c * g x) (fun x => Rabs c * W x).
Proof.
  intros A s t Hs Ht. assert (P := A s t Hs Ht). replace (c * g t - c * g s) with (c * (g t - g s)) by ring. rewrite Rabs_mult, <- Rmult_minus_distr_l.
  apply Rmult_le_compat_l; [apply Rabs_pos|exact P].
Qed.
Lemma varies_bound g W x : varies L g W -> 0 <= x <= L -> Rabs (g x) <= Rabs (g 0) + (W L - W 0).
Proof.
  intros H Hx. assert (A := H 0 x ltac:(lra) ltac:(lra)). assert (B := varies_rising _ _ H x L ltac:(lra) ltac:(lra)).
  replace (g x) with ((g x - g 0) + g 0) by ring. eapply Rle_trans; [apply Rabs_triang|]. lra.
Qed.
Lemma tame_plus g h : tame L g -> tame L h -> tame L (fun x => g x + h x).
Proof. intros (W & A) (U & B). eexists. exact (varies_plus _ _ _ _ A B). Qed.
Lemma tame_scal c g : tame L g -> tame L (fun x => c * g x).
Proof. intros (W & A). eexists. exact (varies_scal c _ _ A). Qed.
Lemma tame_ext g h : (forall x, 0 <= x <= L -> g x = h x) -> tame L g -> tame L h.
Proof. intros E (W & A). exists W. intros s t Hs Ht. rewrite <- !E by lra. apply A; assumption. Qed.
Lemma tame_rising g : rising L g -> tame L g.
Proof. intros H. exists g. intros s t Hs Ht. assert (Q := H s t Hs Ht). rewrite Rabs_pos_eq; lra. Qed.
Lemma good_tame g : good L g -> tame L g.
Proof.
  intros (q & B & Q0 & B0 & _ & H). exists (fun x => q * x). intros s t Hs Ht. assert (A := H s t ltac:(lra) ltac:(lra)).
  rewrite (Rabs_pos_eq (t - s)) in A by lra. lra.
Qed.
Lemma good_const c : good L (fun _ => c).
Proof. exists 0, (Rabs c). split; [lra|]. split; [apply Rabs_pos|]. split; intros; [lra|]. replace (c - c) with 0 by ring. rewrite Rabs_R0. lra. Qed.
Lemma good_id : good L (fun x => x).
Proof. exists 1, L. split; [lra|]. split; [lra|]. split; intros; [rewrite Rabs_pos_eq; lra|lra]. Qed.
Lemma good_plus g h : good L g -> good L h -> good L (fun x => g x + h x).
Proof.
  intros (q & B & q0 & B0 & H1 & H2) (p & C & p0 & C0 & G1 & G2). exists (q + p), (B + C). repeat split; try lra.
  - intros x Hx. eapply Rle_trans; [apply Rabs_triang|]. specialize (H1 x Hx). specialize (G1 x Hx). lra.
  - intros s t Hs Ht. replace (g t + h t - (g s + h s)) with ((g t - g s) + (h t - h s)) by ring. eapply Rle_trans; [apply Rabs_triang|].
    specialize (H2 s t Hs Ht). specialize (G2 s t Hs Ht). lra.
Qed.
Lemma good_mult g h : good L g -> good L h -> good L (fun x => g x * h x).
Proof.
  intros (q & B & q0 & B0 & H1 & H2) (p & C & p0 & C0 & G1 & G2). exists (q * C + B * p), (B * C). split; [nra|]. split; [nra|]. split.
  - intros x Hx. rewrite Rabs_mult. apply Rmult_le_compat; try apply Rabs_pos; auto.
  - intros s t Hs Ht. replace (g t * h t - g s * h s) with ((g t - g s) * h t + g s * (h t - h s)) by ring. eapply Rle_trans; [apply Rabs_triang|].
    rewrite !Rabs_mult. specialize (H2 s t Hs Ht). specialize (G2 s t Hs Ht). specialize (H1 s Hs). specialize (G1 t Ht).
    assert (X := Rabs_pos (g t - g s)). assert (Y := Rabs_pos (h t)). assert (Z := Rabs_pos (g s)). assert (U := Rabs_pos (h t - h s)). assert (V := Rabs_pos (t - s)).
    assert (A1 : Rabs (g t - g s) * Rabs (h t) <= (q * Rabs (t - s)) * C) by (apply Rmult_le_compat; lra).
    assert (A2 : Rabs (g s) * Rabs (h t - h s) <= B * (p * Rabs (t - s))) by (apply Rmult_le_compat; lra). lra.
Qed.
Lemma good_ext g h : (forall x, g x = h x) -> good L g -> good L h.
Proof. intros E (q & B & q0 & B0 & H1 & H2). exists q, B. repeat split; trivial; intros; rewrite <- ?E; auto. Qed.
Lemma good_scal c g : good L g -> good L (fun x => c * g x).
Proof. intros H. apply (good_mult (fun _ => c)); [apply good_const|exact H]. Qed.
Lemma good_pow g n : good L g -> good L (fun x => g x ^ n).
Proof. intros H. induction n as [|n IH]; cbn [pow]; [apply good_const|apply good_mult; assumption]. Qed.
Lemma good_MB a : good L (fun x => MB (x - a)).
Proof.
  exists 1, (L + Rabs a). unfold MB. assert (A := Rabs_pos a). repeat split; try lra.
  - intros x Hx. assert (B := Rle_abs (- a)). rewrite Rabs_Ropp in B. unfold Rmax. destruct (Rle_dec (x - a) 0); rewrite Rabs_pos_eq; lra.
  - intros s t Hs Ht. rewrite Rmult_1_l. unfold Rmax. destruct (Rle_dec (t - a) 0), (Rle_dec (s - a) 0); unfold Rabs; destruct (Rcase_abs _), (Rcase_abs _); lra.
Qed.
Lemma tame_H a v : 0 <= v <= 1 -> tame L (fun x => H (x - a) v).
Proof.
  intros Hv. apply tame_rising. intros s t Hs Ht. unfold H. destruct (Rlt_dec (s - a) 0), (Rlt_dec (t - a) 0); try lra;
    destruct (Rlt_dec 0 (t - a)); try lra; destruct (Rlt_dec 0 (s - a)); lra.
Qed.
Lemma good_minus g h : good L g -> good L h -> good L (fun x => g x - h x).
Proof. intros A B. apply (good_ext (fun x => g x + (-1) * h x)); [intros; ring|]. apply good_plus; [exact A|apply good_scal, B]. Qed.
Lemma tame_minus g h : tame L g -> tame L h -> tame L (fun x => g x - h x).
Proof. intros A B. apply (tame_ext (fun x => g x + (-1) * h x)); [intros; ring|]. apply tame_plus; [exact A|apply tame_scal, B]. Qed.
Lemma tame_lsum {A} (f : A -> R -> R) l : (forall a, In a l -> tame L (f a)) -> tame L (fun x => lsum (map (fun a => f a x) l)).
Proof.
  induction l as [|a l IH]; intros Hl; cbn [map lsum fold_right]; [apply good_tame, good_const|].
  apply tame_plus; [apply Hl; left; reflexivity|apply IH; intros; apply Hl; right; assumption].
Qed.

(** ** One step *)
Lemma RInt_abs_le (g : R -> R) a b I c : a <= b -> is_RInt g a b I -> (forall x, a < x < b -> Rabs (g x) <= c) -> Rabs I <= (b - a) * c.
Proof.
  intros Hab HI Hc. assert (U := is_RInt_const (V := R_NormedModule) a b c). assert (D := is_RInt_const (V := R_NormedModule) a b (- c)).
  assert (Q1 : I <= scal (b - a) c) by (apply (is_RInt_le g (fun _ => c) a b); trivial; intros x Hx; specialize (Hc x Hx); apply Rabs_le_between in Hc; lra).
  assert (Q2 : scal (b - a) (- c) <= I) by (apply (is_RInt_le (fun _ => - c) g a b); trivial; intros x Hx; specialize (Hc x Hx); apply Rabs_le_between in Hc; lra).
  unfold scal in *. cbn in Q1, Q2. unfold mult in *. cbn in Q1, Q2. apply Rabs_le. lra.
Qed.
Lemma RInt_shift_const (g : R -> R) a b I c : is_RInt g a b I -> is_RInt (fun x => g x - c) a b (I - (b - a) * c).
Proof. intros HI. exact (is_RInt_minus g (fun _ => c) a b I _ HI (is_RInt_const (V := R_NormedModule) a b c)). Qed.
Lemma first_step g W a b I : varies L g W -> 0 <= a <= b -> b <= L -> is_RInt g a b I ->
  Rabs (I - (b - a) * (g a + g b) / 2) <= (b - a) * (W b - W a).
Proof.
  intros HV Ha Hb HI. replace (I - (b - a) * (g a + g b) / 2) with (I - (b - a) * ((g a + g b) / 2)) by lra.
  apply (RInt_abs_le (fun x => g x - (g a + g b) / 2) a b); [lra|apply RInt_shift_const, HI|]. intros x Hx.
  assert (A := HV a x ltac:(lra) ltac:(lra)). assert (B := HV x b ltac:(lra) ltac:(lra)).
  replace (g x - (g a + g b) / 2) with ((g x - g a) / 2 - (g b - g x) / 2) by field.
  apply Rabs_le_between in A. apply Rabs_le_between in B. apply Rabs_le. lra.
Qed.
Lemma second_step g v W a b I : varies L v W -> (forall t, a <= t <= b -> is_RInt v a t (g t - g a)) -> 0 <= a < b -> b <= L -> is_RInt g a b I ->
  Rabs (I - (b - a) * (g a + g b) / 2) <= (b - a) ^ 2 * (W b - W a).
Proof.
  intros HV Hg Ha Hb HI. set (s := (g b - g a) / (b - a)). assert (Es : g b - g a = s * (b - a)) by (unfold s; field; lra).
  assert (Hs : forall t, a <= t <= b -> Rabs (v t - s) <= W b - W a).
  { intros t Ht. assert (Q : Rabs ((g b - g a) - (b - a) * v t) <= (b - a) * (W b - W a)).
    { apply (RInt_abs_le (fun x => v x - v t) a b); [lra|apply RInt_shift_const, Hg; lra|]. intros x Hx. assert (RW := varies_rising _ _ HV). destruct (Rle_dec x t) as [h|h].
      - assert (A := HV x t ltac:(lra) ltac:(lra)). assert (B := RW a x ltac:(lra) ltac:(lra)). assert (C := RW t b ltac:(lra) ltac:(lra)). rewrite Rabs_minus_sym. lra.
      - assert (A := HV t x ltac:(lra) ltac:(lra)). assert (B := RW a t ltac:(lra) ltac:(lra)). assert (C := RW x b ltac:(lra) ltac:(lra)). lra. }
    rewrite Es in Q. replace (s * (b - a) - (b - a) * v t) with ((b - a) * (s - v t)) in Q by ring. rewrite Rabs_mult, (Rabs_pos_eq (b - a)) in Q by lra.
    apply Rmult_le_reg_l in Q; [|lra]. rewrite Rabs_minus_sym. exact Q. }
  set (l := fun t => g a + s * (t - a)).
  assert (Il : is_RInt l a b ((b - a) * (g a + g b) / 2)).
  { assert (Q := is_RInt_derive (V := R_CompleteNormedModule) (fun t => g a * t + s * (t - a) ^ 2 / 2) l a b).
    assert (Q' : is_RInt l a b (minus (g a * b + s * (b - a) ^ 2 / 2) (g a * a + s * (a - a) ^ 2 / 2))).
    { apply Q; intros x _; [unfold l; auto_derive; [trivial|field]|]. unfold l. apply continuity_pt_filterlim. apply derivable_continuous_pt. apply ex_derive_Reals_0. auto_derive. trivial. }
    replace ((b - a) * (g a + g b) / 2) with (minus (g a * b + s * (b - a) ^ 2 / 2) (g a * a + s * (a - a) ^ 2 / 2)); [exact Q'|].
    unfold minus, plus, opp. cbn. replace (g b) with (g a + s * (b - a)) by lra. field. }
  replace ((b - a) ^ 2 * (W b - W a)) with ((b - a) * ((b - a) * (W b - W a))) by ring.
  apply (RInt_abs_le (fun x => g x - l x) a b); [lra|exact (is_RInt_minus g l a b _ _ HI Il)|]. intros x Hx.
  replace (g x - l x) with ((g x - g a) - (x - a) * s) by (unfold l; ring).
  apply Rle_trans with ((x - a) * (W b - W a)).
  - apply (RInt_abs_le (fun t => v t - s) a x); [lra|apply RInt_shift_const, Hg; lra|]. intros t Ht. apply Hs. lra.
  - apply Rmult_le_compat_r; [|lra]. assert (Z := Rabs_pos (v a - s)). specialize (Hs a ltac:(lra)). lra.
Qed.
End L.
