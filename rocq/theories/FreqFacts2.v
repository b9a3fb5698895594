(** The maps of motions: the same motion, a finer mesh, a similar beam, a beam reversed. *)
From Coquelicot Require Import Coquelicot.
From Verif Require Import Base BaseFacts Linalg LinalgFacts SectionModel FoundationModel BeamModel ElementSpec AnalysisSpec FoundSpec FoundFacts FoundFacts2 FoundFacts3 ModalModel ModalSpec EigFacts ModalFacts ModalFacts2 ModalFacts3 FreqSpec FreqFacts.
Open Scope R_scope.

Ltac open_form := unfold form, end_forces, mulmv, k_modal, m_consistent; cbv zeta; cbn [rsum mat4 vec4].
Lemma bend_scale EI L d : form (k_modal EI L) d d = EI * form (k_modal 1 L) d d.
Proof. open_form. ring. Qed.
Lemma mass_scale m L d : form (m_consistent m L) d d = m * form (m_consistent 1 L) d d.
Proof. open_form. field. Qed.
Lemma bend_unit L d : 0 < L -> 0 <= form (k_modal 1 L) d d.
Proof. intros HL. rewrite form_energy. apply bend_nonneg; lra. Qed.
Lemma mass_unit L d : 0 < L -> 0 <= form (m_consistent 1 L) d d.
Proof. intros HL. rewrite form_energy. apply found_nonneg; lra. Qed.
Lemma bend_cubic EI L a0 a1 a2 a3 d : L <> 0 -> d 0%nat = a0 -> d 1%nat = a1 -> d 2%nat = cub a0 a1 a2 a3 L -> d 3%nat = a1 + 2 * a2 * L + 3 * a3 * L ^ 2 ->
  form (k_modal EI L) d d = EI * (4 * a2 ^ 2 * L + 12 * a2 * a3 * L ^ 2 + 12 * a3 ^ 2 * L ^ 3).
Proof. intros HL E0 E1 E2 E3. open_form. rewrite E0, E1, E2, E3. unfold cub. field. exact HL. Qed.
Lemma mass_cubic m L a0 a1 a2 a3 d : d 0%nat = a0 -> d 1%nat = a1 -> d 2%nat = cub a0 a1 a2 a3 L -> d 3%nat = a1 + 2 * a2 * L + 3 * a3 * L ^ 2 ->
  form (m_consistent m L) d d = m * (a0 ^ 2 * L + a0 * a1 * L ^ 2 + (2 * a0 * a2 + a1 ^ 2) * L ^ 3 / 3 + (a0 * a3 + a1 * a2) * L ^ 4 / 2 + (2 * a1 * a3 + a2 ^ 2) * L ^ 5 / 5 + a2 * a3 * L ^ 6 / 3 + a3 ^ 2 * L ^ 7 / 7).
Proof. intros E0 E1 E2 E3. open_form. rewrite E0, E1, E2, E3. unfold cub. field. Qed.
Lemma rsum_flip n f : rsum n (fun i => f (n - 1 - i)%nat) = rsum n f.
Proof.
  induction n as [|n IH]; [reflexivity|]. rewrite rsum_S_first. cbn [rsum]. replace (S n - 1 - 0)%nat with n by lia. rewrite <- IH. rewrite Rplus_comm. f_equal. apply rsum_ext. intros i Hi. f_equal. lia.
Qed.
Lemma rsum_groups n c f : rsum (n * c) f = rsum n (fun e => rsum c (fun s => f (e * c + s)%nat)).
Proof. induction n as [|n IH]; [reflexivity|]. cbn [rsum]. rewrite <- IH. replace (S n * c)%nat with (n * c + c)%nat by lia. apply rsum_split. Qed.
Lemma rsum_tele c (G : nat -> R) : rsum c (fun s => G (S s) - G s) = G c - G 0%nat.
Proof. induction c as [|c IH]; cbn [rsum]; [ring|]. rewrite IH. ring. Qed.

Definition omega (r : modal_results) (j : nat) : R := nth j (mo_omega r) 0.
Lemma square_le a c : 0 <= a -> 0 <= c -> a ^ 2 <= c ^ 2 -> a <= c.
Proof. intros A C H. destruct (Rle_dec a c) as [L|L]; [exact L|exfalso]. nra. Qed.

Section Two.
Variables (b : beam) (mass : massarg) (nseg : nat) (EIs Ls ms : list R).
Hypothesis V : vibrating b mass nseg EIs Ls ms.
Variables (b' : beam) (mass' : massarg) (nseg' : nat) (EIs' Ls' ms' : list R).
Hypothesis V' : vibrating b' mass' nseg' EIs' Ls' ms'.
Variables eigh eigh' : nat -> mat -> mat -> result (list R * list vec).
Hypothesis Sd : eigh_sound eigh.
Hypothesis Sd' : eigh_sound eigh'.
Variables (n_modes n_modes' : nat) (r r' : modal_results).
Hypothesis Hr : solve_modal eigh b mass n_modes nseg = Ok r.
Hypothesis Hr' : solve_modal eigh' b' mass' n_modes' nseg' = Ok r'.
Lemma omega_nonneg j : (j < length (mo_omega r))%nat -> 0 <= nth j (mo_omega r) 0.
Proof. intros Hj. apply (modes_vibrate _ _ _ _ _ _ V eigh Sd n_modes r Hr j Hj). Qed.
Lemma omega_nonneg' j : (j < length (mo_omega r'))%nat -> 0 <= nth j (mo_omega r') 0.
Proof. intros Hj. apply (modes_vibrate _ _ _ _ _ _ V' eigh' Sd' n_modes' r' Hr' j Hj). Qed.

Lemma stiffer_le : nseg' = nseg -> stiffer b b' EIs EIs' Ls Ls' ms ms' ->
  forall j, (j < length (mo_omega r))%nat -> (j < length (mo_omega r'))%nat -> nth j (mo_omega r) 0 <= nth j (mo_omega r') 0.
Proof.
  intros Eg S j Hj Hj'. assert (C := compare b mass nseg EIs Ls ms V b' mass' nseg' EIs' Ls' ms' V' eigh eigh' Sd Sd' n_modes n_modes' r r' Hr Hr' (fun u => u) [] 1 1).
  cbn [length] in C. rewrite <- (Nat.add_0_r j) at 2. apply square_le; [apply omega_nonneg; exact Hj|apply omega_nonneg'; lia|]. rewrite <- (Rmult_1_l (_ ^ 2)), <- (Rmult_1_l (nth (j + 0) _ _ ^ 2)).
  assert (En := sf_spans _ _ _ _ _ _ _ _ S). assert (Ee : elements b' nseg' = elements b nseg) by (unfold elements; rewrite En, Eg; reflexivity).
  apply C; try lra; try lia; clear C.
  - reflexivity.
  - intros u A _ q Hq Er. destruct (sf_support _ _ _ _ _ _ _ _ S q Hq) as [E|[E _]]; [|contradiction]. rewrite <- Eg. apply A; [rewrite En; exact Hq|exact E].
  - intros u A _. rewrite (dot_K _ _ _ _ _ _ V), (dot_K _ _ _ _ _ _ V'). rewrite Rmult_1_l, En, Eg. apply Rplus_le_compat.
    + unfold strain. unfold elements in Ee |- *. rewrite En. apply rsum_le. intros e He. destruct (sf_span _ _ _ _ _ _ _ _ S (e / nseg)%nat (span_of _ _ _ _ _ _ V e He)) as (EL & EE & _).
      unfold element_length, of_span. rewrite EL. rewrite bend_scale, (bend_scale (nth _ EIs' 0)). apply Rmult_le_compat_r; [|exact EE]. apply bend_unit. apply (h_positive _ _ _ _ _ _ V e He).
    + apply rsum_le. intros q Hq. destruct (sf_support _ _ _ _ _ _ _ _ S q Hq) as [E|[_ E]].
      * assert (Z : u (support_dof nseg q) = 0) by (rewrite <- Eg; apply A; [rewrite En; exact Hq|exact E]). rewrite Z. lra.
      * rewrite !Rmult_assoc. apply Rmult_le_compat_r; [apply Rle_0_sqr|exact E].
  - intros u. rewrite (dot_M b nseg Ls ms), (dot_M b' nseg' Ls' ms'). rewrite Rmult_1_l. unfold kinetic. unfold elements in *. rewrite En, Eg. apply rsum_le. intros e He.
    destruct (sf_span _ _ _ _ _ _ _ _ S (e / nseg)%nat (span_of _ _ _ _ _ _ V e He)) as (EL & _ & EE). unfold element_length, of_span. rewrite EL. rewrite mass_scale, (mass_scale (nth _ ms 0)). apply Rmult_le_compat_r; [|exact EE]. apply mass_unit. apply (h_positive _ _ _ _ _ _ V e He).
Qed.
End Two.
