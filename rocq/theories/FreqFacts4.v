(** A finer mesh contains the motions of the coarser one. *)
From Coquelicot Require Import Coquelicot.
From Verif Require Import Base BaseFacts Linalg LinalgFacts SectionModel FoundationModel BeamModel ElementSpec AnalysisSpec FoundSpec FoundFacts FoundFacts2 FoundFacts3 ModalModel ModalSpec EigFacts ModalFacts ModalFacts2 ModalFacts3 FreqSpec FreqFacts FreqFacts2 FreqFacts3.
Open Scope R_scope.

Definition slope (h : R) (d : vec) (x : R) : R := d 1%nat + 2 * coef2 h d * x + 3 * coef3 h d * x ^ 2.
(** The coarse motion [u] at the nodes of a mesh [c] times finer. *)
Definition finer (Ls : list R) (nseg c : nat) (u : vec) : vec := fun g =>
  let k := (g / 2)%nat in let e := (k / c)%nat in let h := element_length Ls nseg e in let x := INR (k mod c) * (h / INR c) in
  if Nat.even g then herm h (ends u e) x else slope h (ends u e) x.

Lemma herm_shape h x : exists w0 w1 w2 w3, forall d, herm h d x = d 0%nat * w0 + d 1%nat * w1 + d 2%nat * w2 + d 3%nat * w3.
Proof.
  exists (1 - 3 / h ^ 2 * x ^ 2 + 2 / h ^ 3 * x ^ 3), (x - h * 2 / h ^ 2 * x ^ 2 + h / h ^ 3 * x ^ 3), (3 / h ^ 2 * x ^ 2 - 2 / h ^ 3 * x ^ 3), (- h / h ^ 2 * x ^ 2 + h / h ^ 3 * x ^ 3).
  intros d. unfold herm, cub, coef2, coef3, Rdiv. ring.
Qed.
Lemma slope_shape h x : exists w0 w1 w2 w3, forall d, slope h d x = d 0%nat * w0 + d 1%nat * w1 + d 2%nat * w2 + d 3%nat * w3.
Proof.
  exists (- 6 / h ^ 2 * x + 6 / h ^ 3 * x ^ 2), (1 - h * 4 / h ^ 2 * x + 3 * h / h ^ 3 * x ^ 2), (6 / h ^ 2 * x - 6 / h ^ 3 * x ^ 2), (- 2 * h / h ^ 2 * x + 3 * h / h ^ 3 * x ^ 2).
  intros d. unfold slope, coef2, coef3, Rdiv. ring.
Qed.
Lemma shape_linear (F : vec -> R) : (exists w0 w1 w2 w3, forall d, F d = d 0%nat * w0 + d 1%nat * w1 + d 2%nat * w2 + d 3%nat * w3) ->
  forall m c (x : nat -> vec) e, F (ends (fun i => rsum m (fun k => c k * x k i)) e) = rsum m (fun k => c k * F (ends (x k) e)).
Proof.
  intros (w0 & w1 & w2 & w3 & H) m c x e. rewrite H. unfold ends. rewrite <- !rsum_scal_r, <- !rsum_plus. apply rsum_ext. intros k _. rewrite H. ring.
Qed.

Section Finer.
Variables (b : beam) (mass : massarg) (nseg c : nat) (EIs Ls ms : list R).
Hypothesis V : vibrating b mass nseg EIs Ls ms.
Hypothesis Hc : (1 <= c)%nat.
Let V' : vibrating b mass (c * nseg) EIs Ls ms.
Proof. destruct V as [A B C D E F]. split; try assumption. nia. Qed.
Let h := element_length Ls nseg.
Let T := finer Ls nseg c.
Lemma fine_node u e s p : (s < c)%nat -> (p < 2)%nat -> T u (2 * (e * c + s) + p)%nat = if Nat.eqb p 0 then herm (h e) (ends u e) (INR s * (h e / INR c)) else slope (h e) (ends u e) (INR s * (h e / INR c)).
Proof.
  intros Hs Hp. unfold T, finer. rewrite even_2. replace ((2 * (e * c + s) + p) / 2)%nat with (e * c + s)%nat by (apply (Nat.div_unique _ 2 _ p); lia). replace ((e * c + s) / c)%nat with e by (apply (Nat.div_unique _ c e s); lia). replace ((e * c + s) mod c)%nat with s by (apply (Nat.mod_unique _ c e s); lia).
  destruct p as [|[|p]]; [reflexivity|reflexivity|lia].
Qed.
Lemma coarse_node u e p : (p < 2)%nat -> T u (2 * (e * c) + p)%nat = u (2 * e + p)%nat.
Proof.
  intros Hp. assert (Q := fine_node u e 0 p ltac:(lia) Hp). rewrite Nat.add_0_r in Q. rewrite Q. cbn [INR]. unfold herm, cub, slope, ends. destruct p as [|[|p]]; [| |lia]; cbn [Nat.eqb]; [rewrite Nat.add_0_r|]; ring.
Qed.
Lemma fine_end u e s p : (e < elements b nseg)%nat -> (s <= c)%nat -> (p < 2)%nat -> T u (2 * (e * c + s) + p)%nat = if Nat.eqb p 0 then herm (h e) (ends u e) (INR s * (h e / INR c)) else slope (h e) (ends u e) (INR s * (h e / INR c)).
Proof.
  intros He Hs Hp. destruct (Nat.eq_dec s c) as [->|N]; [|apply fine_node; lia]. replace (e * c + c)%nat with ((e + 1) * c)%nat by lia. rewrite coarse_node by exact Hp. assert (P := h_positive _ _ _ _ _ _ V e He). fold h in P.
  replace (INR c * (h e / INR c)) with (h e) by (field; apply not_0_INR; lia). destruct p as [|[|p]]; [| |lia]; cbn [Nat.eqb].
  - unfold herm, cub, coef2, coef3, ends. replace (2 * (e + 1) + 0)%nat with (2 * e + 2)%nat by lia. rewrite Nat.add_0_r. field. lra.
  - unfold slope, coef2, coef3, ends. replace (2 * (e + 1) + 1)%nat with (2 * e + 3)%nat by lia. field. lra.
Qed.
Lemma fine_span e s : (s < c)%nat -> ((e * c + s) / (c * nseg) = e / nseg)%nat.
Proof. intros Hs. assert (S1 := seg1 _ _ _ _ _ _ V). rewrite <- Nat.div_div by lia. replace ((e * c + s) / c)%nat with e by (apply (Nat.div_unique _ c e s); lia). reflexivity. Qed.
Lemma fine_length e s : (s < c)%nat -> element_length Ls (c * nseg) (e * c + s) = h e / INR c.
Proof. intros Hs. assert (S1 := seg1 _ _ _ _ _ _ V). unfold element_length, h, element_length. rewrite fine_span by exact Hs. rewrite mult_INR. field. split; apply not_0_INR; lia. Qed.

(** The primitive of the integrands of bending and inertia. *)
Definition bendG (a2 a3 x : R) : R := 4 * a2 ^ 2 * x + 12 * a2 * a3 * x ^ 2 + 12 * a3 ^ 2 * x ^ 3.
Definition massG (a0 a1 a2 a3 L : R) : R := a0 ^ 2 * L + a0 * a1 * L ^ 2 + (2 * a0 * a2 + a1 ^ 2) * L ^ 3 / 3 + (a0 * a3 + a1 * a2) * L ^ 4 / 2 + (2 * a1 * a3 + a2 ^ 2) * L ^ 5 / 5 + a2 * a3 * L ^ 6 / 3 + a3 ^ 2 * L ^ 7 / 7.
Section Element.
Variables (u : vec) (e : nat).
Hypothesis He : (e < elements b nseg)%nat.
Let d := ends u e.
Let a2 := coef2 (h e) d.
Let a3 := coef3 (h e) d.
Let hc := h e / INR c.
Let Pc : 0 < INR c. Proof. apply lt_0_INR. lia. Qed.
Let Ph : 0 < h e. Proof. apply (h_positive _ _ _ _ _ _ V e He). Qed.
Let Phc : 0 < hc. Proof. unfold hc. apply Rdiv_lt_0_compat; assumption. Qed.
Lemma fine_ends s : (s < c)%nat -> let x := INR s * hc in let f := ends (T u) (e * c + s) in
  f 0%nat = cub (d 0%nat) (d 1%nat) a2 a3 x /\ f 1%nat = d 1%nat + 2 * a2 * x + 3 * a3 * x ^ 2 /\
  f 2%nat = cub (f 0%nat) (f 1%nat) (a2 + 3 * a3 * x) a3 hc /\ f 3%nat = f 1%nat + 2 * (a2 + 3 * a3 * x) * hc + 3 * a3 * hc ^ 2.
Proof.
  intros Hs x f. assert (A := fine_end u e s 0 He ltac:(lia) ltac:(lia)). assert (B := fine_end u e s 1 He ltac:(lia) ltac:(lia)). assert (C := fine_end u e (S s) 0 He ltac:(lia) ltac:(lia)). assert (D := fine_end u e (S s) 1 He ltac:(lia) ltac:(lia)). cbn [Nat.eqb] in A, B, C, D.
  change (INR s * (h e / INR c)) with x in A, B. rewrite S_INR in C, D. replace ((INR s + 1) * (h e / INR c)) with (x + hc) in C, D by (unfold x, hc; ring).
  unfold f, ends. replace (2 * (e * c + s) + 2)%nat with (2 * (e * c + S s) + 0)%nat by lia. replace (2 * (e * c + s) + 3)%nat with (2 * (e * c + S s) + 1)%nat by lia. rewrite A, B, C, D. clear. unfold herm, slope. fold d a2 a3. unfold cub. repeat split; ring.
Qed.
Lemma bend_fine : rsum c (fun s => form (k_modal (of_span EIs (c * nseg) (e * c + s)) (element_length Ls (c * nseg) (e * c + s))) (ends (T u) (e * c + s)) (ends (T u) (e * c + s))) = form (k_modal (of_span EIs nseg e) (h e)) (ends u e) (ends u e).
Proof.
  set (EI := of_span EIs nseg e). rewrite (rsum_ext c _ (fun s => EI * bendG a2 a3 (INR (S s) * hc) - EI * bendG a2 a3 (INR s * hc))).
  - rewrite (rsum_tele c (fun s => EI * bendG a2 a3 (INR s * hc))). cbn [INR]. rewrite (bend_cubic EI (h e) (d 0%nat) (d 1%nat) a2 a3 (ends u e)); [|lra|reflexivity|reflexivity| |].
    + replace (INR c * hc) with (h e) by (unfold hc; field; lra). unfold bendG. ring.
    + unfold a2, a3, coef2, coef3, cub. fold d. field. lra.
    + unfold a2, a3, coef2, coef3. fold d. field. lra.
  - intros s Hs. unfold of_span at 1. rewrite fine_span, fine_length by exact Hs. fold EI hc. change (nth (e / nseg) EIs 0) with EI. destruct (fine_ends s Hs) as (E0 & E1 & E2 & E3). cbv zeta in *. fold hc in E0, E1, E2, E3.
    rewrite (bend_cubic EI hc _ _ _ _ _ (Rgt_not_eq _ _ Phc) eq_refl eq_refl E2 E3). rewrite S_INR. unfold bendG. ring.
Qed.
Lemma mass_fine : rsum c (fun s => form (m_consistent (of_span ms (c * nseg) (e * c + s)) (element_length Ls (c * nseg) (e * c + s))) (ends (T u) (e * c + s)) (ends (T u) (e * c + s))) = form (m_consistent (of_span ms nseg e) (h e)) (ends u e) (ends u e).
Proof.
  set (mm := of_span ms nseg e). rewrite (rsum_ext c _ (fun s => mm * massG (d 0%nat) (d 1%nat) a2 a3 (INR (S s) * hc) - mm * massG (d 0%nat) (d 1%nat) a2 a3 (INR s * hc))).
  - rewrite (rsum_tele c (fun s => mm * massG (d 0%nat) (d 1%nat) a2 a3 (INR s * hc))). cbn [INR]. rewrite (mass_cubic mm (h e) (d 0%nat) (d 1%nat) a2 a3 (ends u e)); [|reflexivity|reflexivity| |].
    + replace (INR c * hc) with (h e) by (unfold hc; field; lra). unfold massG. field.
    + unfold a2, a3, coef2, coef3, cub. fold d. field. lra.
    + unfold a2, a3, coef2, coef3. fold d. field. lra.
  - intros s Hs. unfold of_span at 1. rewrite fine_span, fine_length by exact Hs. fold mm hc. change (nth (e / nseg) ms 0) with mm. destruct (fine_ends s Hs) as (E0 & E1 & E2 & E3). cbv zeta in *. fold hc in E0, E1, E2, E3.
    rewrite (mass_cubic mm hc _ _ _ _ _ eq_refl eq_refl E2 E3). rewrite E0, E1. rewrite S_INR. unfold massG, cub. field.
Qed.
End Element.

Section Calls.
Variables eigh eigh' : nat -> mat -> mat -> result (list R * list vec).
Hypothesis Sd : eigh_sound eigh.
Hypothesis Sd' : eigh_sound eigh'.
Variables (n_modes n_modes' : nat) (r r' : modal_results).
Hypothesis Hr : solve_modal eigh b mass n_modes nseg = Ok r.
Hypothesis Hr' : solve_modal eigh' b mass n_modes' (c * nseg) = Ok r'.
Lemma finer_le j : (j < length (mo_omega r'))%nat -> (j < length (mo_omega r))%nat -> nth j (mo_omega r') 0 <= nth j (mo_omega r) 0.
Proof.
  intros Hj Hj'. assert (C := compare b mass (c * nseg) EIs Ls ms V' b mass nseg EIs Ls ms V eigh' eigh Sd' Sd n_modes' n_modes r' r Hr' Hr T [] 1 1).
  cbn [length] in C. rewrite <- (Nat.add_0_r j) at 2. apply square_le; [apply (omega_nonneg _ _ _ _ _ _ V' eigh' Sd' n_modes' r' Hr'); exact Hj|apply (omega_nonneg _ _ _ _ _ _ V eigh Sd n_modes r Hr); lia|]. rewrite <- (Rmult_1_l (_ ^ 2)), <- (Rmult_1_l (nth (j + 0) _ _ ^ 2)).
  assert (Sup : forall u q, T u (support_dof (c * nseg) q) = u (support_dof nseg q)).
  { intros u q. unfold support_dof. replace (q / 2 * (c * nseg))%nat with ((q / 2 * nseg) * c)%nat by lia. apply coarse_node. apply Nat.mod_upper_bound. lia. }
  assert (Ee : elements b (c * nseg) = (elements b nseg * c)%nat) by (unfold elements; lia).
  apply C; try lra; try lia; clear C.
  - intros m cc x g. unfold T, finer. destruct (Nat.even g); [apply (shape_linear (fun d => herm _ d _)), herm_shape|apply (shape_linear (fun d => slope _ d _)), slope_shape].
  - intros u A _ q Hq Er. rewrite Sup. apply A; assumption.
  - intros u A _. rewrite (dot_K _ _ _ _ _ _ V), (dot_K _ _ _ _ _ _ V'). rewrite Rmult_1_l. right. f_equal.
    + unfold strain. rewrite Ee, rsum_groups. apply rsum_ext. intros e He. apply bend_fine. exact He.
    + apply rsum_ext. intros q _. rewrite Sup. reflexivity.
  - intros u. rewrite !dot_M. rewrite Rmult_1_l. right. unfold kinetic. rewrite Ee, rsum_groups. apply rsum_ext. intros e He. symmetry. apply mass_fine. exact He.
Qed.
End Calls.
End Finer.
