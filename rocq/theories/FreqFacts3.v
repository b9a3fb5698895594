(** Interlacing, similar beams, reversed beams. *)
From Coquelicot Require Import Coquelicot.
From Verif Require Import Base BaseFacts Linalg LinalgFacts SectionModel FoundationModel BeamModel ElementSpec AnalysisSpec FoundSpec FoundFacts FoundFacts2 FoundFacts3 ModalModel ModalSpec EigFacts ModalFacts ModalFacts2 ModalFacts3 FreqSpec FreqFacts FreqFacts2.
Open Scope R_scope.

Section Two.
Variables (b : beam) (mass : massarg) (nseg : nat) (EIs Ls ms : list R).
Hypothesis V : vibrating b mass nseg EIs Ls ms.
Variables (b' : beam) (mass' : massarg) (EIs' Ls' ms' : list R).
Hypothesis V' : vibrating b' mass' nseg EIs' Ls' ms'.
Variables eigh eigh' : nat -> mat -> mat -> result (list R * list vec).
Hypothesis Sd : eigh_sound eigh.
Hypothesis Sd' : eigh_sound eigh'.
Variables (n_modes n_modes' : nat) (r r' : modal_results).
Hypothesis Hr : solve_modal eigh b mass n_modes nseg = Ok r.
Hypothesis Hr' : solve_modal eigh' b' mass' n_modes' nseg = Ok r'.
Let nn := omega_nonneg _ _ _ _ _ _ V eigh Sd n_modes r Hr.
Let nn' := omega_nonneg _ _ _ _ _ _ V' eigh' Sd' n_modes' r' Hr'.

Lemma held_stiffer extra : held_at extra b b' EIs EIs' Ls Ls' ms ms' -> stiffer b b' EIs EIs' Ls Ls' ms ms'.
Proof.
  intros H. destruct (ha_span _ _ _ _ _ _ _ _ _ H) as (-> & -> & ->). split; [apply H|intros i Hi; repeat split; lra|].
  intros q Hq. destruct (in_dec Nat.eq_dec q extra) as [I|I]; [left; apply (ha_extra _ _ _ _ _ _ _ _ _ H q I)|]. rewrite (ha_others _ _ _ _ _ _ _ _ _ H q Hq I). destruct (Req_dec (restraint b q) (-1)) as [E|E]; [left; exact E|right; split; [exact E|lra]].
Qed.
Lemma held_le extra : held_at extra b b' EIs EIs' Ls Ls' ms ms' ->
  forall j, (j < length (mo_omega r'))%nat -> (j + length extra < length (mo_omega r))%nat -> nth j (mo_omega r') 0 <= nth (j + length extra) (mo_omega r) 0.
Proof.
  intros H j Hj Hj'. assert (C := compare b' mass' nseg EIs' Ls' ms' V' b mass nseg EIs Ls ms V eigh' eigh Sd' Sd n_modes' n_modes r' r Hr' Hr (fun u => u) (map (support_dof nseg) extra) 1 1).
  rewrite map_length in C. apply square_le; [apply nn'; exact Hj|apply nn; exact Hj'|]. rewrite <- (Rmult_1_l (_ ^ 2)), <- (Rmult_1_l (nth (j + _) _ _ ^ 2)).
  assert (En := ha_spans _ _ _ _ _ _ _ _ _ H). destruct (ha_span _ _ _ _ _ _ _ _ _ H) as (EE & EL & EM).
  assert (Sp : forall u, (forall d, In d (map (support_dof nseg) extra) -> u d = 0) -> forall q, In q extra -> u (support_dof nseg q) = 0) by (intros u X q I; apply X, in_map, I).
  apply C; try lra; try lia; clear C.
  - reflexivity.
  - intros u A X q Hq Er. rewrite En in Hq. destruct (in_dec Nat.eq_dec q extra) as [I|I]; [apply Sp; assumption|]. apply A; [exact Hq|]. rewrite <- (ha_others _ _ _ _ _ _ _ _ _ H q Hq I). exact Er.
  - intros u A X. rewrite (dot_K _ _ _ _ _ _ V), (dot_K _ _ _ _ _ _ V'). rewrite Rmult_1_l, En, EE, EL. unfold strain, elements. rewrite En. apply Rplus_le_compat_l. apply rsum_le. intros q Hq. destruct (in_dec Nat.eq_dec q extra) as [I|I]; [rewrite (Sp u X q I); lra|]. rewrite (ha_others _ _ _ _ _ _ _ _ _ H q Hq I). lra.
  - intros u. rewrite !dot_M. rewrite Rmult_1_l, EL, EM. unfold kinetic, elements. rewrite En. lra.
Qed.

(** Similar beams. *)
Section Similar.
Variables a m l : R.
Hypothesis Si : similar a m l b b' EIs EIs' Ls Ls' ms ms'.
Definition shrink (l : R) (u : vec) : vec := fun g => if Nat.even g then u g else u g / l.
Lemma even_2 k p : Nat.even (2 * k + p) = Nat.even p.
Proof. rewrite Nat.even_add, Nat.even_mul. cbn. destruct (Nat.even p); reflexivity. Qed.
Lemma even_support q : Nat.even (support_dof nseg q) = Nat.even q.
Proof. unfold support_dof. rewrite even_2. rewrite (Nat.div_mod q 2) at 2 by lia. rewrite even_2. reflexivity. Qed.
Lemma similar_le j : (j < length (mo_omega r'))%nat -> (j < length (mo_omega r))%nat -> m * l * nth j (mo_omega r') 0 ^ 2 <= a / l ^ 3 * nth j (mo_omega r) 0 ^ 2.
Proof.
  intros Hj Hj'. destruct (si_pos _ _ _ _ _ _ _ _ _ _ _ Si) as (Pa & Pm & Pl). assert (C := compare b' mass' nseg EIs' Ls' ms' V' b mass nseg EIs Ls ms V eigh' eigh Sd' Sd n_modes' n_modes r' r Hr' Hr (shrink l) [] (a / l ^ 3) (m * l)).
  cbn [length] in C. rewrite <- (Nat.add_0_r j) at 2. assert (En := si_spans _ _ _ _ _ _ _ _ _ _ _ Si). assert (P3 := pow_lt l 3 Pl). assert (S1 := seg1 _ _ _ _ _ _ V).
  assert (HL : forall e, (e < elements b nseg)%nat -> element_length Ls' nseg e = l * element_length Ls nseg e).
  { intros e He. unfold element_length. destruct (si_span _ _ _ _ _ _ _ _ _ _ _ Si _ (span_of _ _ _ _ _ _ V e He)) as (_ & _ & ->). field. apply not_0_INR. lia. }
  assert (He4 : forall u e, eq4 (ends (shrink l u) e) (vec4 (ends u e 0%nat) (ends u e 1%nat / l) (ends u e 2%nat) (ends u e 3%nat / l))).
  { intros u e i Hi. unfold ends, shrink. rewrite even_2. destruct i as [|[|[|[|i]]]]; try lia; reflexivity. }
  apply C; try lia; clear C.
  - intros k c x g. unfold shrink. destruct (Nat.even g); [reflexivity|]. unfold Rdiv. rewrite <- rsum_scal_r. apply rsum_ext. intros i _. ring.
  - intros u A _ q Hq Er. rewrite En in Hq. assert (Z : u (support_dof nseg q) = 0) by (apply A; [exact Hq|apply (si_rigid _ _ _ _ _ _ _ _ _ _ _ Si q Hq); exact Er]). unfold shrink. rewrite Z. destruct (Nat.even _); lra.
  - intros u A _. rewrite (dot_K _ _ _ _ _ _ V), (dot_K _ _ _ _ _ _ V'). rewrite En, Rmult_plus_distr_l. right. f_equal.
    + unfold strain. rewrite <- rsum_scal. unfold elements. rewrite En. apply rsum_ext. intros e He. rewrite (form_ext _ _ _ _ _ (He4 u e) (He4 u e)). rewrite (HL e He). assert (Hp := h_positive _ _ _ _ _ _ V e He). unfold of_span. destruct (si_span _ _ _ _ _ _ _ _ _ _ _ Si _ (span_of _ _ _ _ _ _ V e He)) as (-> & _ & _). open_form. field. lra.
    + rewrite <- rsum_scal. apply rsum_ext. intros q Hq. rewrite (si_spring _ _ _ _ _ _ _ _ _ _ _ Si q Hq). unfold shrink. rewrite even_support. destruct (Nat.even q); field; lra.
  - intros u. rewrite !dot_M. right. unfold kinetic. rewrite <- rsum_scal. unfold elements. rewrite En. apply rsum_ext. intros e He. rewrite (form_ext _ _ _ _ _ (He4 u e) (He4 u e)). rewrite (HL e He). assert (Hp := h_positive _ _ _ _ _ _ V e He). unfold of_span. destruct (si_span _ _ _ _ _ _ _ _ _ _ _ Si _ (span_of _ _ _ _ _ _ V e He)) as (_ & -> & _). open_form. field. lra.
  - apply Rlt_le, Rdiv_lt_0_compat; assumption.
Qed.
End Similar.

(** Reversed beams. *)
Section Reversed.
Hypothesis Re : reversed b b' EIs EIs' Ls Ls' ms ms'.
Let N := elements b nseg.
Definition turn (N : nat) (u : vec) : vec := fun g => if Nat.even g then u (2 * (N - g / 2))%nat else - u (2 * (N - g / 2) + 1)%nat.
Lemma turn_at u k p : (p < 2)%nat -> turn N u (2 * k + p)%nat = (if Nat.eqb p 0 then 1 else -1) * u (2 * (N - k) + p)%nat.
Proof.
  intros Hp. unfold turn. rewrite even_2. replace ((2 * k + p) / 2)%nat with k by (apply (Nat.div_unique _ 2 k p); lia). destruct p as [|[|p]]; [| |lia]; cbn [Nat.even Nat.eqb]; [rewrite Nat.add_0_r|]; ring.
Qed.
Lemma turn_ends u e : (e < N)%nat -> eq4 (ends (turn N u) e) (vec4 (ends u (N - 1 - e) 2%nat) (- ends u (N - 1 - e) 3%nat) (ends u (N - 1 - e) 0%nat) (- ends u (N - 1 - e) 1%nat)).
Proof.
  intros He i Hi. unfold ends. destruct i as [|[|[|[|i]]]]; try lia; cbn [vec4].
  - rewrite (turn_at u e 0) by lia. cbn [Nat.eqb]. rewrite Rmult_1_l. f_equal. lia.
  - rewrite (turn_at u e 1) by lia. cbn [Nat.eqb]. replace (2 * (N - e) + 1)%nat with (2 * (N - 1 - e) + 3)%nat by lia. ring.
  - replace (2 * e + 2)%nat with (2 * (e + 1) + 0)%nat by lia. rewrite (turn_at u (e + 1) 0) by lia. cbn [Nat.eqb]. rewrite Rmult_1_l. f_equal. lia.
  - replace (2 * e + 3)%nat with (2 * (e + 1) + 1)%nat by lia. rewrite (turn_at u (e + 1) 1) by lia. cbn [Nat.eqb]. replace (2 * (N - (e + 1)) + 1)%nat with (2 * (N - 1 - e) + 1)%nat by lia. ring.
Qed.
Lemma turn_span e : (e < N)%nat -> ((N - 1 - e) / nseg = b_nspans b - 1 - e / nseg)%nat.
Proof.
  intros He. assert (S1 := seg1 _ _ _ _ _ _ V). assert (Q := span_of _ _ _ _ _ _ V e He). assert (D := Nat.div_mod e nseg ltac:(lia)). assert (B := Nat.mod_upper_bound e nseg ltac:(lia)).
  symmetry. apply (Nat.div_unique _ nseg _ (nseg - 1 - e mod nseg)); [lia|]. unfold N, elements. nia.
Qed.
Lemma support_2 k p : (p < 2)%nat -> support_dof nseg (2 * k + p) = (2 * (k * nseg) + p)%nat.
Proof. intros Hp. unfold support_dof. replace ((2 * k + p) / 2)%nat with k by (apply (Nat.div_unique _ 2 k p); lia). replace ((2 * k + p) mod 2)%nat with p by (apply (Nat.mod_unique _ 2 k p); lia). reflexivity. Qed.
Lemma turn_support u k p : (k <= b_nspans b)%nat -> (p < 2)%nat -> turn N u (support_dof nseg (2 * k + p)) = (if Nat.eqb p 0 then 1 else -1) * u (support_dof nseg (2 * (b_nspans b - k) + p)).
Proof. intros Hk Hp. rewrite !support_2, turn_at by exact Hp. do 2 f_equal. unfold N, elements. nia. Qed.
Lemma reversed_le j : (j < length (mo_omega r'))%nat -> (j < length (mo_omega r))%nat -> nth j (mo_omega r') 0 <= nth j (mo_omega r) 0.
Proof.
  intros Hj Hj'. assert (C := compare b' mass' nseg EIs' Ls' ms' V' b mass nseg EIs Ls ms V eigh' eigh Sd' Sd n_modes' n_modes r' r Hr' Hr (turn N) [] 1 1).
  cbn [length] in C. rewrite <- (Nat.add_0_r j) at 2. apply square_le; [apply nn'; exact Hj|apply nn; lia|]. rewrite <- (Rmult_1_l (_ ^ 2)), <- (Rmult_1_l (nth (j + 0) _ _ ^ 2)).
  assert (En := rv_spans _ _ _ _ _ _ _ _ Re). assert (S1 := seg1 _ _ _ _ _ _ V).
  apply C; try lra; try lia; clear C.
  - intros k c x g. unfold turn. destruct (Nat.even g); [reflexivity|]. rewrite <- rsum_opp. apply rsum_ext. intros i _. ring.
  - intros u A _ q Hq Er. rewrite En in Hq. assert (D := Nat.div_mod q 2 ltac:(lia)). assert (B := Nat.mod_upper_bound q 2 ltac:(lia)). set (k := (q / 2)%nat) in *. set (p := (q mod 2)%nat) in *. rewrite D in Er |- *.
    rewrite turn_support by lia. rewrite (rv_support _ _ _ _ _ _ _ _ Re) in Er by lia. rewrite (A (2 * (b_nspans b - k) + p)%nat) by (lia || exact Er). ring.
  - intros u A _. rewrite (dot_K _ _ _ _ _ _ V), (dot_K _ _ _ _ _ _ V'). rewrite Rmult_1_l, En. right. f_equal.
    + unfold strain. unfold elements at 1. rewrite En. fold (elements b nseg). fold N. rewrite <- (rsum_flip N (fun e => form (k_modal (of_span EIs nseg e) (element_length Ls nseg e)) (ends u e) (ends u e))). apply rsum_ext. intros e He.
      rewrite (form_ext _ _ _ _ _ (turn_ends u e He) (turn_ends u e He)). unfold of_span, element_length. rewrite (turn_span e He). destruct (rv_span _ _ _ _ _ _ _ _ Re (e / nseg)%nat (span_of _ _ _ _ _ _ V e He)) as (-> & _ & ->).
      assert (Hp := h_positive _ _ _ _ _ _ V (N - 1 - e)%nat ltac:(unfold N in *; lia)). unfold element_length in Hp. rewrite (turn_span e He) in Hp. set (h := nth _ Ls 0 / _) in *. clearbody h. open_form. field. lra.
    + rewrite !rsum_pairs. rewrite <- (rsum_flip (b_nspans b + 1) (fun i => spring (restraint b (2 * i)) * u (support_dof nseg (2 * i)) * u (support_dof nseg (2 * i)) + spring (restraint b (2 * i + 1)) * u (support_dof nseg (2 * i + 1)) * u (support_dof nseg (2 * i + 1)))). apply rsum_ext. intros k Hk.
      replace (b_nspans b + 1 - 1 - k)%nat with (b_nspans b - k)%nat by lia. rewrite (rv_support _ _ _ _ _ _ _ _ Re k 1), (turn_support u k 1) by lia. assert (X := rv_support _ _ _ _ _ _ _ _ Re k 0 ltac:(lia) ltac:(lia)). assert (Y := turn_support u k 0 ltac:(lia) ltac:(lia)). rewrite !Nat.add_0_r in X, Y. rewrite X, Y. cbn [Nat.eqb]. ring.
  - intros u. rewrite !dot_M. rewrite Rmult_1_l. right. unfold kinetic. unfold elements at 2. rewrite En. fold (elements b nseg). fold N. rewrite <- (rsum_flip N (fun e => form (m_consistent (of_span ms nseg e) (element_length Ls nseg e)) (ends u e) (ends u e))). apply rsum_ext. intros e He.
    rewrite (form_ext _ _ _ _ _ (turn_ends u e He) (turn_ends u e He)). unfold of_span, element_length. rewrite (turn_span e He). destruct (rv_span _ _ _ _ _ _ _ _ Re (e / nseg)%nat (span_of _ _ _ _ _ _ V e He)) as (_ & -> & ->). set (h := nth _ Ls 0 / _). clearbody h. open_form. field.
Qed.
End Reversed.
End Two.

Lemma similar_back a m l b b' EIs EIs' Ls Ls' ms ms' : similar a m l b b' EIs EIs' Ls Ls' ms ms' -> similar (/ a) (/ m) (/ l) b' b EIs' EIs Ls' Ls ms' ms.
Proof.
  intros S. destruct (si_pos _ _ _ _ _ _ _ _ _ _ _ S) as (Pa & Pm & Pl). assert (En := si_spans _ _ _ _ _ _ _ _ _ _ _ S). split.
  - repeat split; apply Rinv_0_lt_compat; assumption.
  - symmetry. exact En.
  - rewrite En. intros i Hi. destruct (si_span _ _ _ _ _ _ _ _ _ _ _ S i Hi) as (-> & -> & ->). repeat split; field; lra.
  - rewrite En. intros q Hq. symmetry. apply (si_rigid _ _ _ _ _ _ _ _ _ _ _ S q Hq).
  - rewrite En. intros q Hq. rewrite (si_spring _ _ _ _ _ _ _ _ _ _ _ S q Hq). destruct (Nat.even q); field; lra.
Qed.
Lemma reversed_back b b' EIs EIs' Ls Ls' ms ms' : reversed b b' EIs EIs' Ls Ls' ms ms' -> reversed b' b EIs' EIs Ls' Ls ms' ms.
Proof.
  intros S. assert (En := rv_spans _ _ _ _ _ _ _ _ S). split.
  - symmetry. exact En.
  - rewrite En. intros i Hi j. destruct (rv_span _ _ _ _ _ _ _ _ S j ltac:(unfold j; lia)) as (-> & -> & ->). unfold j. replace (b_nspans b - 1 - (b_nspans b - 1 - i))%nat with i by lia. auto.
  - rewrite En. intros k p Hk Hp. rewrite (rv_support _ _ _ _ _ _ _ _ S) by lia. f_equal. lia.
Qed.
