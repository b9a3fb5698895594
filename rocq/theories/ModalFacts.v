(** The mesh matrices of the modal analysis as virtual work. *)
From Coquelicot Require Import Coquelicot.
From Verif Require Import Base BaseFacts Linalg LinalgFacts SectionModel FoundationModel BeamModel ElementSpec AnalysisSpec FoundSpec FoundFacts FoundFacts2 FoundFacts3 ModalModel ModalSpec EigFacts.
Open Scope R_scope.

Lemma rint_det (f : R -> R) a c x y : is_RInt f a c x -> is_RInt f a c y -> x = y.
Proof. intros H H'. apply (is_RInt_unique (V := R_CompleteNormedModule)) in H. apply (is_RInt_unique (V := R_CompleteNormedModule)) in H'. congruence. Qed.
Lemma sd_div nseg q : (support_dof nseg q / 2 = (q / 2) * nseg)%nat /\ (support_dof nseg q mod 2 = q mod 2)%nat.
Proof. unfold support_dof. apply div2. apply Nat.mod_upper_bound. lia. Qed.
Lemma sd_restraint Rs nseg q : (1 <= nseg)%nat -> node_restraint Rs nseg (support_dof nseg q) = nth_error Rs q.
Proof.
  intros Hn. unfold node_restraint. destruct (sd_div nseg q) as [-> ->]. rewrite Nat.mod_mul by lia. cbn [Nat.eqb]. rewrite Nat.div_mul by lia. rewrite <- Nat.div_mod by lia. reflexivity.
Qed.
Lemma sd_inj nseg q q' : (1 <= nseg)%nat -> support_dof nseg q = support_dof nseg q' -> q = q'.
Proof.
  intros Hn E. destruct (sd_div nseg q) as [A B]. destruct (sd_div nseg q') as [A' B']. rewrite E in A, B. assert (X : (q / 2 * nseg = q' / 2 * nseg)%nat) by congruence. apply Nat.mul_cancel_r in X; [|lia].
  rewrite (Nat.div_mod q 2), (Nat.div_mod q' 2) by lia. congruence.
Qed.
Lemma sd_onto nseg g : (1 <= nseg)%nat -> ((g / 2) mod nseg = 0)%nat -> g = support_dof nseg (2 * ((g / 2) / nseg) + g mod 2).
Proof.
  intros Hn E. unfold support_dof. destruct (div2 ((g / 2) / nseg) (g mod 2) ltac:(apply Nat.mod_upper_bound; lia)) as [-> ->]. assert (D := Nat.div_mod g 2 ltac:(lia)). assert (D2 := Nat.div_mod (g / 2) nseg ltac:(lia)). lia.
Qed.
Lemma sd_lt nseg n q : (1 <= nseg)%nat -> (q < 2 * (n + 1))%nat -> (support_dof nseg q < 2 * (n * nseg + 1))%nat.
Proof.
  intros Hn Hq. unfold support_dof. assert (M := Nat.mod_upper_bound q 2 ltac:(lia)). assert (D := Nat.div_mod q 2 ltac:(lia)). assert (q / 2 <= n)%nat by lia. nia.
Qed.
Lemma sd_back nseg n g : (1 <= nseg)%nat -> (g < 2 * (n * nseg + 1))%nat -> (2 * ((g / 2) / nseg) + g mod 2 < 2 * (n + 1))%nat.
Proof.
  intros Hn Hg. assert (M := Nat.mod_upper_bound g 2 ltac:(lia)). assert (D := Nat.div_mod g 2 ltac:(lia)). assert (X : (g / 2 / nseg <= n)%nat); [|lia]. apply (Nat.le_trans _ (n * nseg / nseg)); [|rewrite Nat.div_mul by lia; lia]. apply Nat.div_le_mono; lia.
Qed.

Section Modal.
Variables (b : beam) (mass : massarg) (nseg : nat) (EIs Ls ms : list R).
Hypothesis V : vibrating b mass nseg EIs Ls ms.
Let n := b_nspans b.
Let ne := elements b nseg.
Let N := dofs b nseg.
Let K := modal_K EIs Ls (b_R b) nseg n.
Let M := modal_M ms Ls nseg n.
Lemma seg1 : (1 <= nseg)%nat. Proof. apply V. Qed.
Lemma len_restr : (2 * (n + 1) <= length (b_R b))%nat. Proof. apply V. Qed.
Lemma span_of e : (e < ne)%nat -> (e / nseg < n)%nat.
Proof. intros He. unfold ne, elements in He. fold n in He. apply Nat.div_lt_upper_bound; [assert (H := seg1); lia|]. lia. Qed.
Lemma h_positive e : (e < ne)%nat -> 0 < element_length Ls nseg e.
Proof. intros He. unfold element_length. apply Rdiv_lt_0_compat; [apply (vb_span _ _ _ _ _ _ V), span_of, He|]. apply lt_0_INR. assert (H := seg1). lia. Qed.
Lemma EI_positive e : (e < ne)%nat -> 0 < of_span EIs nseg e.
Proof. intros He. apply (vb_span _ _ _ _ _ _ V), span_of, He. Qed.
Lemma m_positive e : (e < ne)%nat -> 0 < of_span ms nseg e.
Proof. intros He. apply (vb_span _ _ _ _ _ _ V), span_of, He. Qed.
Lemma restraint_at q : (q < 2 * (n + 1))%nat -> node_restraint (b_R b) nseg (support_dof nseg q) = Some (restraint b q).
Proof. intros Hq. rewrite sd_restraint by exact seg1. unfold restraint. apply nth_error_nth'. assert (H := len_restr). lia. Qed.
Lemma spring_at q : (q < 2 * (n + 1))%nat -> modal_spring (b_R b) nseg (support_dof nseg q) = spring (restraint b q).
Proof.
  intros Hq. unfold modal_spring. rewrite (restraint_at q Hq). unfold spring. destruct (Reqb_spec (restraint b q) (-1)) as [E|E].
  - destruct (Rlt_dec 0 (restraint b q)); [lra|reflexivity].
  - destruct (Rltb_spec 0 (restraint b q)), (Rlt_dec 0 (restraint b q)); try reflexivity; contradiction.
Qed.
Lemma spring_sum g : (g < N)%nat -> modal_spring (b_R b) nseg g = rsum (2 * (n + 1)) (fun q => if Nat.eqb g (support_dof nseg q) then spring (restraint b q) else 0).
Proof.
  intros Hg. destruct (Nat.eq_dec ((g / 2) mod nseg) 0) as [E|E].
  - assert (B := sd_back nseg n g seg1 Hg). set (q := (2 * ((g / 2) / nseg) + g mod 2)%nat) in *. assert (Q : g = support_dof nseg q) by (apply sd_onto; [exact seg1|exact E]).
    rewrite (rsum_single _ q); [rewrite <- Q, Nat.eqb_refl; rewrite Q; apply spring_at; exact B|exact B|]. intros q' Hq' Ne. destruct (Nat.eqb_spec g (support_dof nseg q')) as [X|X]; [|reflexivity]. exfalso. apply Ne. apply (sd_inj nseg); [exact seg1|congruence].
  - rewrite rsum_0.
    + unfold modal_spring, node_restraint. destruct (Nat.eqb_spec ((g / 2) mod nseg) 0); [contradiction|reflexivity].
    + intros q Hq. destruct (Nat.eqb_spec g (support_dof nseg q)) as [X|X]; [|reflexivity]. exfalso. apply E. rewrite X. destruct (sd_div nseg q) as [-> _]. apply Nat.mod_mul. assert (H := seg1). lia.
Qed.
Lemma spring_work u w : rsum N (fun g => modal_spring (b_R b) nseg g * u g * w g) = rsum (2 * (n + 1)) (fun q => spring (restraint b q) * u (support_dof nseg q) * w (support_dof nseg q)).
Proof.
  rewrite (rsum_ext N _ (fun g => rsum (2 * (n + 1)) (fun q => if Nat.eqb g (support_dof nseg q) then spring (restraint b q) * u g * w g else 0))).
  2:{ intros g Hg. rewrite (spring_sum g Hg). rewrite <- !rsum_scal_r. apply rsum_ext. intros q _. destruct (Nat.eqb _ _); ring. }
  rewrite rsum_swap. apply rsum_ext. intros q Hq. rewrite (rsum_single N (support_dof nseg q)); [rewrite Nat.eqb_refl; reflexivity|apply sd_lt; [exact seg1|exact Hq]|].
  intros g Hg Ne. destruct (Nat.eqb_spec g (support_dof nseg q)); [contradiction|reflexivity].
Qed.
Definition strain (u w : vec) : R := rsum ne (fun e => form (k_modal (of_span EIs nseg e) (element_length Ls nseg e)) (ends u e) (ends w e)).
Definition kinetic (u w : vec) : R := rsum ne (fun e => form (m_consistent (of_span ms nseg e) (element_length Ls nseg e)) (ends u e) (ends w e)).
Lemma dot_K u w : dot N K u w = strain u w + rsum (2 * (n + 1)) (fun q => spring (restraint b q) * u (support_dof nseg q) * w (support_dof nseg q)).
Proof.
  unfold dot, K, modal_K. rewrite <- spring_work. unfold strain.
  rewrite (rsum_ext N _ (fun i => mulmv N (assemble_chain (fun e => k_modal (seg_value EIs nseg e) (seg_h Ls nseg e)) ne) u i * w i + modal_spring (b_R b) nseg i * u i * w i)).
  - rewrite rsum_plus. f_equal. unfold N, dofs. fold ne. rewrite chain_work. apply rsum_ext. intros e _. apply form_sym. apply bend_sym.
  - intros i Hi. unfold mulmv. rewrite <- Rmult_plus_distr_r. f_equal. rewrite (rsum_ext N _ (fun j => assemble_chain (fun e => k_modal (seg_value EIs nseg e) (seg_h Ls nseg e)) ne i j * u j + (if Nat.eqb i j then modal_spring (b_R b) nseg i else 0) * u j)) by (intros j _; unfold ne, elements; fold n; ring).
    rewrite rsum_plus. f_equal. rewrite (rsum_single N i); [rewrite Nat.eqb_refl; reflexivity|exact Hi|]. intros j _ Ne. destruct (Nat.eqb_spec i j); [congruence|ring].
Qed.
Lemma dot_M u w : dot N M u w = kinetic u w.
Proof. unfold dot, M, modal_M, kinetic. unfold N, dofs. fold ne. change (n * nseg)%nat with ne. rewrite <- (rsum_ext ne _ _ (fun e _ => form_sym _ _ _ (found_sym (of_span ms nseg e) (element_length Ls nseg e)))). rewrite <- chain_work. reflexivity. Qed.
Lemma elastic_iff u w W : elastic_work b nseg EIs Ls u w W <-> W = dot N K u w.
Proof.
  rewrite dot_K. unfold elastic_work. fold n ne. split.
  - intros (us & ws & Is & H & ->). f_equal. unfold strain. apply rsum_ext. intros e He. destruct (H e He) as (A & B & C). assert (D := bending_integral (of_span EIs nseg e) _ _ _ _ _ (h_positive e He) A B). exact (rint_det _ _ _ _ _ C D).
  - intros ->. exists (fun e => herm (element_length Ls nseg e) (ends u e)), (fun e => herm (element_length Ls nseg e) (ends w e)), (fun e => form (k_modal (of_span EIs nseg e) (element_length Ls nseg e)) (ends u e) (ends w e)).
    split; [|reflexivity]. intros e He. assert (A := herm_cubic _ (ends u e) (h_positive e He)). assert (B := herm_cubic _ (ends w e) (h_positive e He)). split; [exact A|]. split; [exact B|]. exact (bending_integral (of_span EIs nseg e) _ _ _ _ _ (h_positive e He) A B).
Qed.
Lemma inertia_iff u w W : inertia_work b nseg ms Ls u w W <-> W = dot N M u w.
Proof.
  rewrite dot_M. unfold inertia_work. fold ne. split.
  - intros (us & ws & Is & H & ->). unfold kinetic. apply rsum_ext. intros e He. destruct (H e He) as (A & B & C). assert (D := found_integral (of_span ms nseg e) _ _ _ _ _ (h_positive e He) A B). exact (rint_det _ _ _ _ _ C D).
  - intros ->. exists (fun e => herm (element_length Ls nseg e) (ends u e)), (fun e => herm (element_length Ls nseg e) (ends w e)), (fun e => form (m_consistent (of_span ms nseg e) (element_length Ls nseg e)) (ends u e) (ends w e)).
    split; [|reflexivity]. intros e He. assert (A := herm_cubic _ (ends u e) (h_positive e He)). assert (B := herm_cubic _ (ends w e) (h_positive e He)). split; [exact A|]. split; [exact B|]. exact (found_integral (of_span ms nseg e) _ _ _ _ _ (h_positive e He) A B).
Qed.
Lemma K_symm : symmetric N K.
Proof. intros i j _ _. unfold K, modal_K. f_equal; [apply chain_sym; intros m _; apply bend_sym|]. rewrite (Nat.eqb_sym j i). destruct (Nat.eqb_spec i j); [subst j|]; reflexivity. Qed.
Lemma M_symm : symmetric N M.
Proof. intros i j _ _. unfold M, modal_M. apply chain_sym. intros m _. apply found_sym. Qed.
Lemma spring_nonneg r : 0 <= spring r. Proof. unfold spring. destruct (Rlt_dec 0 r); lra. Qed.
Lemma K_nonneg u : 0 <= dot N K u u.
Proof.
  rewrite dot_K. apply Rplus_le_le_0_compat.
  - apply rsum_nonneg. intros e He. rewrite form_energy. apply bend_nonneg; [apply EI_positive|apply h_positive]; exact He.
  - apply rsum_nonneg. intros q _. rewrite Rmult_assoc. apply Rmult_le_pos; [apply spring_nonneg|]. apply Rle_0_sqr.
Qed.
Lemma K_zero u : dot N K u u = 0 <-> mechanism b nseg Ls u.
Proof.
  rewrite dot_K. unfold mechanism. fold n ne. assert (P1 : forall e, (e < ne)%nat -> 0 <= form (k_modal (of_span EIs nseg e) (element_length Ls nseg e)) (ends u e) (ends u e)).
  { intros e He. rewrite form_energy. apply bend_nonneg; [apply EI_positive|apply h_positive]; exact He. }
  assert (P2 : forall q, (q < 2 * (n + 1))%nat -> 0 <= spring (restraint b q) * u (support_dof nseg q) * u (support_dof nseg q)).
  { intros q _. rewrite Rmult_assoc. apply Rmult_le_pos; [apply spring_nonneg|]. apply Rle_0_sqr. }
  split.
  - intros E. assert (Q1 := rsum_nonneg ne _ P1). assert (Q2 := rsum_nonneg _ _ P2). unfold strain in E. split.
    + intros e He. apply (bend_zero (of_span EIs nseg e)); [apply EI_positive; exact He|apply h_positive; exact He|]. rewrite <- form_energy. revert e He. apply (rsum_nonneg_0 ne _ P1). unfold k_modal in *. unfold ne, n in *. lra.
    + intros q Hq Hr. assert (Z : spring (restraint b q) * u (support_dof nseg q) * u (support_dof nseg q) = 0) by (revert q Hq Hr; intros q Hq _; apply (rsum_nonneg_0 _ _ P2); [lra|exact Hq]).
      unfold spring in Z. destruct (Rlt_dec 0 (restraint b q)); [|contradiction]. apply Rmult_integral in Z as [Z|Z]; [|exact Z]. apply Rmult_integral in Z as [Z|Z]; [lra|exact Z].
  - intros [H1 H2]. unfold strain. rewrite rsum_0, rsum_0; [ring| |].
    + intros q Hq. unfold spring. destruct (Rlt_dec 0 (restraint b q)) as [G|G]; [rewrite (H2 q Hq G)|]; ring.
    + intros e He. rewrite form_energy. apply (bend_zero (of_span EIs nseg e)); [apply EI_positive; exact He|apply h_positive; exact He|]. apply H1. exact He.
Qed.
Lemma M_pos : positive_definite N M.
Proof.
  intros u (i & Hi & Nz). rewrite dot_M. unfold kinetic.
  assert (P : forall e, (e < ne)%nat -> 0 <= form (m_consistent (of_span ms nseg e) (element_length Ls nseg e)) (ends u e) (ends u e)).
  { intros e He. rewrite form_energy. apply found_nonneg; [left; apply m_positive|apply h_positive]; exact He. }
  destruct (rsum_nonneg ne _ P) as [L|E]; [exact L|exfalso]. symmetry in E. assert (Z := rsum_nonneg_0 ne _ P E).
  assert (ne1 : (1 <= ne)%nat). { unfold ne, elements. assert (A := vb_spans _ _ _ _ _ _ V). assert (B := seg1). nia. }
  assert (X : exists e p, (e < ne)%nat /\ (p < 4)%nat /\ i = (2 * e + p)%nat).
  { unfold N, dofs in Hi. fold ne in Hi. assert (D := Nat.div_mod i 2 ltac:(lia)). assert (Q := Nat.mod_upper_bound i 2 ltac:(lia)). destruct (Nat.ltb_spec (i / 2) ne); [exists (i / 2)%nat, (i mod 2)%nat|exists (ne - 1)%nat, (2 + i mod 2)%nat]; lia. }
  destruct X as (e & p & He & Hp & ->). specialize (Z e He). cbv beta in Z. rewrite form_energy in Z. assert (C := found_pos (of_span ms nseg e) (element_length Ls nseg e) (ends u e) (m_positive e He) (h_positive e He) (ex_intro _ p (conj Hp Nz))).
  unfold m_consistent in Z. unfold k_found in C. lra.
Qed.
End Modal.
