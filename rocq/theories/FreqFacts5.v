(** The statements about frequencies, and a pair of beams for each. *)
From Coquelicot Require Import Coquelicot.
From Verif Require Import Base BaseFacts Linalg LinalgFacts SectionModel BeamModel ModalModel ModalSpec EigFacts ModalFacts ModalFacts2 ModalFacts3 FreqSpec FreqFacts FreqFacts2 FreqFacts3 FreqFacts4 EigExist.
Open Scope R_scope.

Lemma modes_exist b mass nseg EIs Ls ms : vibrating b mass nseg EIs Ls ms ->
  exists eigh, eigh_sound eigh /\ forall n_modes, exists r, solve_modal eigh b mass n_modes nseg = Ok r.
Proof.
  intros V. set (fr := modal_free (b_R b) nseg (dofs b nseg)).
  destruct (eigensystem_exists (length fr) (submatrix (modal_K EIs Ls (b_R b) nseg (b_nspans b)) fr) (submatrix (modal_M ms Ls nseg (b_nspans b)) fr) (Kff_sym _ _ _ _) (Mff_sym _ _ _ _) (Mff_pos _ _ _ _ _ _ V)) as (w & vs & E).
  destruct (eigh_for_sound _ _ _ _ _ E) as [Sd Ok1]. eexists. split; [exact Sd|]. intros n_modes. rewrite (call_is _ _ _ _ _ _ V). fold fr. rewrite Ok1. cbn [rbind]. eexists. reflexivity.
Qed.
Lemma stiffer_refl b EIs Ls ms : stiffer b b EIs EIs Ls Ls ms ms.
Proof. split; [reflexivity|intros; repeat split; lra|]. intros q _. destruct (Req_dec (restraint b q) (-1)); [left; assumption|right; split; [assumption|lra]]. Qed.
Lemma same_frequencies b mass nseg EIs Ls ms : vibrating b mass nseg EIs Ls ms ->
  forall eigh eigh', eigh_sound eigh -> eigh_sound eigh' -> forall n_modes n_modes' r r', solve_modal eigh b mass n_modes nseg = Ok r -> solve_modal eigh' b mass n_modes' nseg = Ok r' ->
  forall j, (j < length (mo_omega r))%nat -> (j < length (mo_omega r'))%nat -> nth j (mo_omega r) 0 = nth j (mo_omega r') 0.
Proof.
  intros V eigh eigh' Sd Sd' nm nm' r r' Hr Hr' j Hj Hj'. assert (S := stiffer_refl b EIs Ls ms).
  apply Rle_antisym; [exact (stiffer_le _ _ _ _ _ _ V _ _ _ _ _ _ V _ _ Sd Sd' _ _ _ _ Hr Hr' eq_refl S j Hj Hj')|exact (stiffer_le _ _ _ _ _ _ V _ _ _ _ _ _ V _ _ Sd' Sd _ _ _ _ Hr' Hr eq_refl S j Hj' Hj)].
Qed.
Lemma stiffer_frequencies b b' mass mass' nseg EIs EIs' Ls Ls' ms ms' : vibrating b mass nseg EIs Ls ms -> vibrating b' mass' nseg EIs' Ls' ms' -> stiffer b b' EIs EIs' Ls Ls' ms ms' ->
  forall eigh eigh', eigh_sound eigh -> eigh_sound eigh' -> forall n_modes n_modes' r r', solve_modal eigh b mass n_modes nseg = Ok r -> solve_modal eigh' b' mass' n_modes' nseg = Ok r' ->
  forall j, (j < length (mo_omega r))%nat -> (j < length (mo_omega r'))%nat -> nth j (mo_omega r) 0 <= nth j (mo_omega r') 0.
Proof. intros V V' S eigh eigh' Sd Sd' nm nm' r r' Hr Hr'. exact (stiffer_le _ _ _ _ _ _ V _ _ _ _ _ _ V' _ _ Sd Sd' _ _ _ _ Hr Hr' eq_refl S). Qed.
Lemma held_frequencies extra b b' mass mass' nseg EIs EIs' Ls Ls' ms ms' : vibrating b mass nseg EIs Ls ms -> vibrating b' mass' nseg EIs' Ls' ms' -> held_at extra b b' EIs EIs' Ls Ls' ms ms' ->
  forall eigh eigh', eigh_sound eigh -> eigh_sound eigh' -> forall n_modes n_modes' r r', solve_modal eigh b mass n_modes nseg = Ok r -> solve_modal eigh' b' mass' n_modes' nseg = Ok r' ->
  forall j, (j < length (mo_omega r'))%nat -> (j + length extra < length (mo_omega r))%nat -> nth j (mo_omega r) 0 <= nth j (mo_omega r') 0 <= nth (j + length extra) (mo_omega r) 0.
Proof.
  intros V V' H eigh eigh' Sd Sd' nm nm' r r' Hr Hr' j Hj Hj'. split.
  - assert (St : stiffer b b' EIs EIs' Ls Ls' ms ms') by (eapply held_stiffer; eassumption). exact (stiffer_frequencies _ _ _ _ _ _ _ _ _ _ _ V V' St _ _ Sd Sd' _ _ _ _ Hr Hr' j ltac:(lia) Hj).
  - exact (held_le _ _ _ _ _ _ V _ _ _ _ _ V' _ _ Sd Sd' _ _ _ _ Hr Hr' extra H j Hj Hj').
Qed.
Lemma similar_frequencies a m l b b' mass mass' nseg EIs EIs' Ls Ls' ms ms' : vibrating b mass nseg EIs Ls ms -> vibrating b' mass' nseg EIs' Ls' ms' -> similar a m l b b' EIs EIs' Ls Ls' ms ms' ->
  forall eigh eigh', eigh_sound eigh -> eigh_sound eigh' -> forall n_modes n_modes' r r', solve_modal eigh b mass n_modes nseg = Ok r -> solve_modal eigh' b' mass' n_modes' nseg = Ok r' ->
  forall j, (j < length (mo_omega r))%nat -> (j < length (mo_omega r'))%nat -> nth j (mo_omega r') 0 = sqrt (a / m) / l ^ 2 * nth j (mo_omega r) 0.
Proof.
  intros V V' S eigh eigh' Sd Sd' nm nm' r r' Hr Hr' j Hj Hj'. destruct (si_pos _ _ _ _ _ _ _ _ _ _ _ S) as (Pa & Pm & Pl).
  assert (A := similar_le _ _ _ _ _ _ V _ _ _ _ _ V' _ _ Sd Sd' _ _ _ _ Hr Hr' a m l S j Hj' Hj).
  assert (B := similar_le _ _ _ _ _ _ V' _ _ _ _ _ V _ _ Sd' Sd _ _ _ _ Hr' Hr _ _ _ (similar_back _ _ _ _ _ _ _ _ _ _ _ S) j Hj Hj').
  assert (P := omega_nonneg _ _ _ _ _ _ V _ Sd _ _ Hr j Hj). assert (P' := omega_nonneg _ _ _ _ _ _ V' _ Sd' _ _ Hr' j Hj').
  set (w := nth j (mo_omega r) 0) in *. set (w' := nth j (mo_omega r') 0) in *. clearbody w w'.
  assert (Pam : 0 < a / m) by (apply Rdiv_lt_0_compat; assumption). assert (Q := sqrt_sqrt (a / m) (Rlt_le _ _ Pam)). assert (Qp := sqrt_lt_R0 _ Pam). set (s := sqrt (a / m)) in *. clearbody s.
  assert (Pl2 : 0 < l ^ 2) by (apply pow_lt; exact Pl). assert (E : w' ^ 2 = (s / l ^ 2 * w) ^ 2).
  { replace ((s / l ^ 2 * w) ^ 2) with (s * s * w ^ 2 / l ^ 4) by (field; lra). rewrite Q. apply Rle_antisym.
    - apply (Rmult_le_reg_l (m * l)); [apply Rmult_lt_0_compat; assumption|]. replace (m * l * (a / m * w ^ 2 / l ^ 4)) with (a / l ^ 3 * w ^ 2) by (field; lra). exact A.
    - apply (Rmult_le_reg_l (/ m * / l)); [apply Rmult_lt_0_compat; apply Rinv_0_lt_compat; assumption|]. apply Rnot_lt_le. intros N. assert (N2 : / m * / l * w' ^ 2 * (m * m / a * l ^ 4) < / m * / l * (a / m * w ^ 2 / l ^ 4) * (m * m / a * l ^ 4)).
      { apply Rmult_lt_compat_r; [|exact N]. apply Rmult_lt_0_compat; [apply Rdiv_lt_0_compat; [apply Rmult_lt_0_compat|]; assumption|apply pow_lt; exact Pl]. }
      replace (/ m * / l * w' ^ 2 * (m * m / a * l ^ 4)) with (m * (/ a / (/ l) ^ 3 * w' ^ 2)) in N2 by (field; lra). replace (/ m * / l * (a / m * w ^ 2 / l ^ 4) * (m * m / a * l ^ 4)) with (m * (/ m * / l * w ^ 2)) in N2 by (field; lra). apply Rmult_lt_reg_l in N2; [|exact Pm]. lra. }
  assert (0 <= s / l ^ 2 * w) by (apply Rmult_le_pos; [apply Rlt_le, Rdiv_lt_0_compat; assumption|exact P]). apply Rle_antisym; apply square_le; try assumption; lra.
Qed.
Lemma reversed_frequencies b b' mass mass' nseg EIs EIs' Ls Ls' ms ms' : vibrating b mass nseg EIs Ls ms -> vibrating b' mass' nseg EIs' Ls' ms' -> reversed b b' EIs EIs' Ls Ls' ms ms' ->
  forall eigh eigh', eigh_sound eigh -> eigh_sound eigh' -> forall n_modes n_modes' r r', solve_modal eigh b mass n_modes nseg = Ok r -> solve_modal eigh' b' mass' n_modes' nseg = Ok r' ->
  forall j, (j < length (mo_omega r))%nat -> (j < length (mo_omega r'))%nat -> nth j (mo_omega r') 0 = nth j (mo_omega r) 0.
Proof.
  intros V V' S eigh eigh' Sd Sd' nm nm' r r' Hr Hr' j Hj Hj'. apply Rle_antisym.
  - exact (reversed_le _ _ _ _ _ _ V _ _ _ _ _ V' _ _ Sd Sd' _ _ _ _ Hr Hr' S j Hj' Hj).
  - exact (reversed_le _ _ _ _ _ _ V' _ _ _ _ _ V _ _ Sd' Sd _ _ _ _ Hr' Hr (reversed_back _ _ _ _ _ _ _ _ S) j Hj Hj').
Qed.
Lemma finer_frequencies b mass nseg c EIs Ls ms : vibrating b mass nseg EIs Ls ms -> (1 <= c)%nat ->
  forall eigh eigh', eigh_sound eigh -> eigh_sound eigh' -> forall n_modes n_modes' r r', solve_modal eigh b mass n_modes nseg = Ok r -> solve_modal eigh' b mass n_modes' (c * nseg) = Ok r' ->
  forall j, (j < length (mo_omega r))%nat -> (j < length (mo_omega r'))%nat -> nth j (mo_omega r') 0 <= nth j (mo_omega r) 0.
Proof. intros V Hc eigh eigh' Sd Sd' nm nm' r r' Hr Hr' j Hj Hj'. exact (finer_le _ _ _ _ _ _ _ V Hc _ _ Sd Sd' _ _ _ _ Hr Hr' j Hj' Hj). Qed.

(** Concrete beams: two spans on three supports; with a stiffer, lighter first span; with the
    middle rotation held; twice as long; reversed. *)
Definition plain (Ls EIs Rs : list R) : beam := {| b_lengths := Ls; b_EIs := map RConst EIs; b_GAv := [None; None]; b_kf := [None; None]; b_types := [1%nat; 1%nat];
  b_nspans := 2; b_length := 0; b_terminal := []; b_R := Rs; b_D := []; b_LM := []; b_version := 0 |}.
Definition span2 := plain [2; 3] [10; 20] [-1; 5; -1; 0; -1; 0].
Lemma plain_vibrates L1 L2 E1 E2 m1 m2 Rs nseg : 0 < L1 -> 0 < L2 -> 0 < E1 -> 0 < E2 -> 0 < m1 -> 0 < m2 -> (1 <= nseg)%nat -> length Rs = 6%nat -> vibrating (plain [L1; L2] [E1; E2] Rs) (MList [m1; m2]) nseg [E1; E2] [L1; L2] [m1; m2].
Proof.
  intros. split; cbn [plain b_nspans b_EIs b_lengths b_GAv b_types b_R map length]; try lia; try reflexivity. intros [|[|i]] Hi; [| |lia]; cbn [nth nth_error]; repeat split; assumption.
Qed.
Lemma beams_meet :
  vibrating span2 (MList [4; 5]) 2 [10; 20] [2; 3] [4; 5] /\
  vibrating (plain [2; 3] [11; 20] [-1; 7; -1; 0; -1; -1]) (MList [3; 5]) 2 [11; 20] [2; 3] [3; 5] /\
  stiffer span2 (plain [2; 3] [11; 20] [-1; 7; -1; 0; -1; -1]) [10; 20] [11; 20] [2; 3] [2; 3] [4; 5] [3; 5] /\
  vibrating (plain [2; 3] [10; 20] [-1; 5; -1; -1; -1; 0]) (MList [4; 5]) 2 [10; 20] [2; 3] [4; 5] /\
  held_at [3%nat] span2 (plain [2; 3] [10; 20] [-1; 5; -1; -1; -1; 0]) [10; 20] [10; 20] [2; 3] [2; 3] [4; 5] [4; 5] /\
  vibrating (plain [4; 6] [30; 60] [-1; 15 / 2; -1; 0; -1; 0]) (MList [20; 25]) 2 [30; 60] [4; 6] [20; 25] /\
  similar 3 5 2 span2 (plain [4; 6] [30; 60] [-1; 15 / 2; -1; 0; -1; 0]) [10; 20] [30; 60] [2; 3] [4; 6] [4; 5] [20; 25] /\
  vibrating (plain [3; 2] [20; 10] [-1; 0; -1; 0; -1; 5]) (MList [5; 4]) 2 [20; 10] [3; 2] [5; 4] /\
  reversed span2 (plain [3; 2] [20; 10] [-1; 0; -1; 0; -1; 5]) [10; 20] [20; 10] [2; 3] [3; 2] [4; 5] [5; 4] /\
  motions span2 2 = 7%nat.
Proof.
  assert (Sp : forall x, spring x = if Rlt_dec 0 x then x else 0) by reflexivity.
  split; [apply plain_vibrates; (lia || lra || reflexivity)|]. split; [apply plain_vibrates; (lia || lra || reflexivity)|]. split.
  { split; [reflexivity| |].
    - cbn [span2 plain b_nspans]. intros [|[|i]] Hi; [| |lia]; cbn [nth]; lra.
    - cbn [span2 plain b_nspans]. intros q Hq. do 6 (destruct q as [|q]; [unfold restraint; cbn [span2 plain b_R nth]; rewrite !Sp; repeat (destruct (Rlt_dec 0 _)); lra|]). lia. }
  split; [apply plain_vibrates; (lia || lra || reflexivity)|]. split.
  { split; [reflexivity|auto| |].
    - intros q [<-|[]]. split; [cbn; lia|reflexivity].
    - cbn [span2 plain b_nspans]. intros q Hq Nq. do 6 (destruct q as [|q]; [try reflexivity; exfalso; apply Nq; left; reflexivity|]). lia. }
  split; [apply plain_vibrates; (lia || lra || reflexivity)|]. split.
  { split; [lra|reflexivity| | |].
    - cbn [span2 plain b_nspans]. intros [|[|i]] Hi; [| |lia]; cbn [nth]; lra.
    - cbn [span2 plain b_nspans]. intros q Hq. do 6 (destruct q as [|q]; [unfold restraint; cbn [span2 plain b_R nth]; split; intros; lra|]). lia.
    - cbn [span2 plain b_nspans]. intros q Hq. do 6 (destruct q as [|q]; [unfold restraint; cbn [span2 plain b_R nth Nat.even]; rewrite !Sp; repeat (destruct (Rlt_dec 0 _)); lra|]). lia. }
  split; [apply plain_vibrates; (lia || lra || reflexivity)|]. split.
  { split; [reflexivity| |].
    - cbn [span2 plain b_nspans]. intros [|[|i]] Hi; [| |lia]; cbn; auto.
    - cbn [span2 plain b_nspans]. intros [|[|[|k]]] [|[|p]] Hk Hp; try lia; reflexivity. }
  unfold motions, rigid_supports, restraint. cbn [dofs elements span2 plain b_nspans b_R seq filter Nat.mul Nat.add nth].
  destruct (Req_EM_T (-1) (-1)); [|lra]. destruct (Req_EM_T 5 (-1)); [lra|]. destruct (Req_EM_T 0 (-1)); [lra|]. reflexivity.
Qed.
