(** Lemmas about member stiffness matrices (C05, C06, C07, C08). *)
From Coquelicot Require Import Coquelicot.
From Coq Require Import String.
From Verif Require Import Base BaseFacts Linalg LinalgFacts SectionModel FlexModel LoadModel LoadSpec
  FoundationModel ElementModel ElementSpec.
Open Scope R_scope.

Ltac four i := destruct i as [|[|[|[|i]]]]; try lia.

(** ** Condensation *)
Definition cond1 (k : mat) (r : nat) (e v : vec) : Prop :=
  forall i, (i < 4)%nat -> v i = e i - k i r * (e r / k r r).

Lemma condense1_ok k r kr : condense1 k r = Ok kr -> k r r <> 0 /\
  forall i j, kr i j = if Nat.eqb i r || Nat.eqb j r then 0 else k i j - k i r * (1 / k r r) * k r j.
Proof.
  unfold condense1. destruct (Req_EM_T (k r r) 0); [discriminate|]. intros [= <-]. auto.
Qed.

Lemma condense1_let_go k r kr e v t : (t = 2 /\ r = 3 \/ t = 3 /\ r = 1)%nat ->
  condense1 k r = Ok kr -> cond1 k r e v -> let_go t k e kr v.
Proof.
  intros Ht Hk Hv d. apply condense1_ok in Hk as (Hr & Hk).
  set (s := fun i => match i with 0%nat => k r 0%nat * d 0%nat | _ => 0 end).
  set (x := - (e r + rsum 4 (fun j => if Nat.eqb j r then 0 else k r j * d j)) / k r r).
  assert (Hrel : forall i, released t i <-> i = r).
  { intros i. destruct Ht as [[-> ->]|[-> ->]]; cbn; tauto. }
  assert (Hrr : r = 1%nat \/ r = 3%nat) by (destruct Ht as [[_ ->]|[_ ->]]; auto).
  split.
  - exists (vupd d r x). split.
    + intros i _ Hi. apply vupd_other. intros ->. apply Hi, Hrel. auto.
    + intros i _ Hi. apply Hrel in Hi. subst i.
      destruct Hrr as [-> | ->]; cbn; unfold x, vupd; cbn; field; auto.
  - intros d' Hd Hz i Hi.
    assert (Hz' := Hz r ltac:(destruct Hrr as [-> | ->]; lia) ltac:(apply Hrel; auto)).
    assert (Hd' : forall i, (i < 4)%nat -> i <> r -> d' i = d i) by (intros j Hj Hne; apply Hd; [lia|rewrite Hrel; auto]).
    rewrite Hv by auto.
    destruct Hrr as [-> | ->]; unfold end_forces, mulmv in *; cbn [rsum] in *;
      rewrite ?(Hd' 0%nat), ?(Hd' 1%nat), ?(Hd' 2%nat), ?(Hd' 3%nat) in * by lia;
      rewrite !Hk.
    + assert (Ed : d' 1%nat = - (e 1%nat + k 1%nat 0%nat * d 0%nat + k 1%nat 2%nat * d 2%nat + k 1%nat 3%nat * d 3%nat) / k 1%nat 1%nat)
        by (apply (Rmult_eq_reg_l (k 1%nat 1%nat)); [field_simplify; [lra|auto]|auto]).
      rewrite Ed. four i; cbn [Nat.eqb orb]; field; auto.
    + assert (Ed : d' 3%nat = - (e 3%nat + k 3%nat 0%nat * d 0%nat + k 3%nat 2%nat * d 2%nat + k 3%nat 1%nat * d 1%nat) / k 3%nat 3%nat)
        by (apply (Rmult_eq_reg_l (k 3%nat 3%nat)); [field_simplify; [lra|auto]|auto]).
      rewrite Ed. four i; cbn [Nat.eqb orb]; field; auto.
Qed.

Lemma inv22_ok F K : inv22 F = Ok K ->
  m00 F * m11 F - m01 F * m10 F <> 0 /\
  m00 K = m11 F / (m00 F * m11 F - m01 F * m10 F) /\ m01 K = - m01 F / (m00 F * m11 F - m01 F * m10 F) /\
  m10 K = - m10 F / (m00 F * m11 F - m01 F * m10 F) /\ m11 K = m00 F / (m00 F * m11 F - m01 F * m10 F).
Proof. unfold inv22. destruct Req_EM_T; [discriminate|]. intros [= <-]; cbn. auto. Qed.

Lemma condense13_let_go k kr : condense13 k = Ok kr -> let_go 4 k (fun _ => 0) kr (fun _ => 0).
Proof.
  intros Hk d. unfold condense13 in Hk. apply rbind_ok in Hk as (B & HB & [= <-]).
  apply inv22_ok in HB. cbn [m00 m01 m10 m11] in HB. destruct HB as (Hdet & E00 & E01 & E10 & E11).
  set (det := k 1%nat 1%nat * k 3%nat 3%nat - k 1%nat 3%nat * k 3%nat 1%nat) in *.
  set (b1 := - (k 1%nat 0%nat * d 0%nat + k 1%nat 2%nat * d 2%nat)).
  set (b3 := - (k 3%nat 0%nat * d 0%nat + k 3%nat 2%nat * d 2%nat)).
  set (x1 := (k 3%nat 3%nat * b1 - k 1%nat 3%nat * b3) / det).
  set (x3 := (- k 3%nat 1%nat * b1 + k 1%nat 1%nat * b3) / det).
  split.
  - exists (vec4 (d 0%nat) x1 (d 2%nat) x3). split.
    + intros i Hi Hn. four i; cbn; auto; exfalso; apply Hn; cbn; auto.
    + intros i _ [-> | ->]; unfold end_forces, mulmv; cbn [rsum vec4]; unfold x1, x3, b1, b3, det; field; auto.
  - intros d' Hd Hz i Hi.
    assert (Hz1 := Hz 1%nat ltac:(lia) ltac:(cbn; auto)). assert (Hz3 := Hz 3%nat ltac:(lia) ltac:(cbn; auto)).
    assert (E0 := Hd 0%nat ltac:(lia) ltac:(cbn; lia)). assert (E2 := Hd 2%nat ltac:(lia) ltac:(cbn; lia)).
    unfold end_forces, mulmv in *; cbn [rsum] in *. rewrite E0, E2 in *.
    assert (F1 : k 1%nat 1%nat * d' 1%nat + k 1%nat 3%nat * d' 3%nat = b1) by (unfold b1; lra).
    assert (F3 : k 3%nat 1%nat * d' 1%nat + k 3%nat 3%nat * d' 3%nat = b3) by (unfold b3; lra).
    assert (Ex1 : d' 1%nat = x1) by (unfold x1; rewrite <- F1, <- F3; unfold det; field; auto).
    assert (Ex3 : d' 3%nat = x3) by (unfold x3; rewrite <- F1, <- F3; unfold det; field; auto).
    rewrite Ex1, Ex3, E00, E01, E10, E11. unfold x1, x3, b1, b3.
    four i; cbn [Nat.eqb orb]; unfold det; field; auto.
Qed.

(** ** Properties preserved by releases *)
Record good (L : R) (k : mat) : Prop := {
  g_sym : symmetric4 k;
  g_bal : forall d, self_balanced L (end_forces k d);
  g_rig : forall d, rigid_motion L d -> eq4 (end_forces k d) (fun _ => 0);
  g_pos : forall d, 0 <= energy k d }.

Lemma let_go_good L t k kr : (1 <= t <= 4)%nat -> good L k -> let_go t k (fun _ => 0) kr (fun _ => 0) ->
  symmetric4 kr -> good L kr.
Proof.
  intros Ht G LG S. constructor; auto.
  - intros d. destruct (LG d) as [(d' & H1 & H2) H3]. specialize (H3 d' H1 H2).
    destruct (g_bal _ _ G d') as [B1 B2].
    assert (E : forall i, (i < 4)%nat -> end_forces kr d i = end_forces k d' i).
    { intros i Hi. specialize (H3 i Hi). cbn beta in H3. lra. }
    split; rewrite !E by lia; auto.
  - intros d Hd. destruct (LG d) as [_ H3]. specialize (H3 d).
    pose proof (g_rig _ _ G d Hd) as Z. intros i Hi.
    assert (E := H3 ltac:(auto) ltac:(intros j Hj _; rewrite Z by auto; ring) i Hi).
    cbn beta in E. rewrite Z in E by auto. lra.
  - intros d. destruct (LG d) as [(d' & H1 & H2) H3]. specialize (H3 d' H1 H2).
    replace (energy kr d) with (energy k d'); [apply (g_pos _ _ G)|].
    unfold energy. apply rsum_ext. intros i Hi. specialize (H3 i Hi). cbn beta in H3.
    assert (Dec : {released t i} + {~ released t i}).
    { destruct t as [|[|[|[|[|t]]]]]; cbn; try lia; try (right; lia);
        destruct (Nat.eq_dec i 1), (Nat.eq_dec i 3); try (left; lia); right; lia. }
    destruct Dec as [Hr|Hr].
    + specialize (H2 i Hi Hr). replace (end_forces kr d i) with 0 by lra.
      replace (end_forces k d' i) with 0 by lra. ring.
    + rewrite H1 by auto. replace (end_forces kr d i) with (end_forces k d' i) by lra. reflexivity.
Qed.

Lemma condense1_sym k r kr : symmetric4 k -> (r < 4)%nat -> condense1 k r = Ok kr -> symmetric4 kr.
Proof.
  intros S Hr Hk i j Hi Hj. apply condense1_ok in Hk as (H0 & Hk). rewrite !Hk.
  rewrite orb_comm. destruct (_ || _); auto.
  rewrite (S i j), (S i r), (S r j) by auto. ring.
Qed.

Lemma condense13_sym k kr : symmetric4 k -> condense13 k = Ok kr -> symmetric4 kr.
Proof.
  intros S Hk i j Hi Hj. unfold condense13 in Hk. apply rbind_ok in Hk as (B & HB & [= <-]).
  apply inv22_ok in HB. cbn [m00 m01 m10 m11] in HB. destruct HB as (Hdet & E00 & E01 & E10 & E11).
  replace (Nat.eqb i 1 || Nat.eqb i 3 || Nat.eqb j 1 || Nat.eqb j 3)
    with (Nat.eqb j 1 || Nat.eqb j 3 || Nat.eqb i 1 || Nat.eqb i 3)
    by (destruct (Nat.eqb i 1), (Nat.eqb i 3), (Nat.eqb j 1), (Nat.eqb j 3); auto).
  destruct (_ || _); auto.
  rewrite E00, E01, E10, E11, (S i j), (S i 1%nat), (S i 3%nat), (S 1%nat j), (S 3%nat j), (S 3%nat 1%nat) by lia.
  field. rewrite (S 3%nat 1%nat) in Hdet by lia. auto.
Qed.

Lemma condense_let_go k t kr : (1 <= t <= 4)%nat -> condense k t = Ok kr ->
  let_go t k (fun _ => 0) kr (fun _ => 0).
Proof.
  intros Ht Hk. destruct t as [|[|[|[|[|t]]]]]; try lia; cbn in Hk.
  - injection Hk as <-. intros d. split.
    + exists d. split; auto. intros i _ [].
    + intros d' Hd _ i Hi. cbn beta. f_equal. unfold end_forces, mulmv. apply rsum_ext.
      intros j Hj. rewrite Hd; auto.
  - apply (condense1_let_go k 3); auto. intros i _. unfold Rdiv. ring.
  - apply (condense1_let_go k 1); auto. intros i _. unfold Rdiv. ring.
  - apply condense13_let_go; auto.
Qed.

Lemma condense_good L k t kr : (1 <= t <= 4)%nat -> good L k -> condense k t = Ok kr -> good L kr.
Proof.
  intros Ht G Hk. apply (let_go_good L t k); auto.
  - apply condense_let_go; auto.
  - pose proof (g_sym _ _ G). destruct t as [|[|[|[|[|t]]]]]; try lia; cbn in Hk.
    + injection Hk as <-. auto.
    + apply (condense1_sym k 3); auto; lia.
    + apply (condense1_sym k 1); auto; lia.
    + apply (condense13_sym k); auto.
Qed.

(** ** Chord expansion *)
Definition pd22 (K : m22) : Prop := m01 K = m10 K /\ 0 < m00 K /\ 0 < m00 K * m11 K - m01 K * m10 K.

Definition tha (L : R) (d : vec) : R := d 1%nat + (d 0%nat - d 2%nat) / L.
Definition thb (L : R) (d : vec) : R := d 3%nat + (d 0%nat - d 2%nat) / L.

Lemma expand_forces K L d i : L <> 0 -> end_forces (expand K L) d i =
  Tchord L 0 i * (m00 K * tha L d + m01 K * thb L d) + Tchord L 1 i * (m10 K * tha L d + m11 K * thb L d).
Proof.
  intros HL. unfold end_forces, mulmv. cbn [rsum]. unfold expand, tha, thb.
  set (p := Tchord L 0 i). set (q := Tchord L 1 i). cbn. field; auto.
Qed.

Lemma expand_energy K L d : L <> 0 -> energy (expand K L) d =
  tha L d * (m00 K * tha L d + m01 K * thb L d) + thb L d * (m10 K * tha L d + m11 K * thb L d).
Proof.
  intros HL. unfold energy. cbn [rsum]. rewrite !expand_forces by auto. cbn [Tchord vec4].
  unfold tha, thb. field; auto.
Qed.

Lemma rigid_iff L d : L <> 0 -> rigid_motion L d <-> tha L d = 0 /\ thb L d = 0.
Proof.
  intros HL. unfold rigid_motion, tha, thb. split.
  - intros (c & t & E). rewrite (E 0%nat), (E 1%nat), (E 2%nat), (E 3%nat) by lia. cbn. split; field; auto.
  - intros [E1 E2]. exists (d 0%nat), (d 1%nat).
    assert (E : d 0%nat - d 2%nat = - d 1%nat * L).
    { replace (d 0%nat - d 2%nat) with ((d 0%nat - d 2%nat) / L * L) by (field; auto).
      replace ((d 0%nat - d 2%nat) / L) with (- d 1%nat) by lra. ring. }
    intros i Hi. four i; cbn; lra.
Qed.

Lemma pd22_pos K a b : pd22 K -> 0 <= a * (m00 K * a + m01 K * b) + b * (m10 K * a + m11 K * b) /\
  (a * (m00 K * a + m01 K * b) + b * (m10 K * a + m11 K * b) = 0 -> a = 0 /\ b = 0).
Proof.
  intros (Hs & H0 & Hd). rewrite <- Hs in *.
  set (q := a * _ + _).
  assert (E : m00 K * q = (m00 K * a + m01 K * b)^2 + (m00 K * m11 K - m01 K * m01 K) * b^2) by (unfold q; ring).
  assert (P1 := pow2_ge_0 (m00 K * a + m01 K * b)). assert (P2 := pow2_ge_0 b).
  split.
  - nra.
  - intros Hq. rewrite Hq, Rmult_0_r in E.
    assert (b^2 = 0) by nra. assert (b = 0) by nra. subst b.
    assert ((m00 K * a)^2 = 0) by nra. assert (m00 K * a = 0) by nra. split; auto. nra.
Qed.

Lemma expand_good K L : 0 < L -> pd22 K -> good L (expand K L).
Proof.
  intros HL HK. constructor.
  - intros i j Hi Hj. unfold expand. destruct HK as (-> & _). ring.
  - intros d. split; rewrite !expand_forces by lra; cbn [Tchord vec4]; field; lra.
  - intros d Hd i Hi. apply rigid_iff in Hd as [Ea Eb]; [|lra]. rewrite expand_forces, Ea, Eb by lra. ring.
  - intros d. rewrite expand_energy by lra. apply pd22_pos; auto.
Qed.

Lemma expand_zero_energy K L d : 0 < L -> pd22 K -> (energy (expand K L) d = 0 <-> rigid_motion L d).
Proof.
  intros HL HK. rewrite rigid_iff, expand_energy by lra. split.
  - apply pd22_pos; auto.
  - intros [-> ->]. ring.
Qed.

(** Pointwise equal matrices. *)
Definition meq4 (k k' : mat) : Prop := forall i j, (i < 4)%nat -> (j < 4)%nat -> k i j = k' i j.

Lemma meq4_forces k k' d i : meq4 k k' -> (i < 4)%nat -> end_forces k d i = end_forces k' d i.
Proof. intros E Hi. unfold end_forces, mulmv. apply rsum_ext. intros j Hj. now rewrite E. Qed.

Lemma meq4_energy k k' d : meq4 k k' -> energy k d = energy k' d.
Proof. intros E. unfold energy. apply rsum_ext. intros i Hi. now rewrite (meq4_forces k k'). Qed.

Lemma meq4_good L k k' : meq4 k k' -> good L k -> good L k'.
Proof.
  intros E G. constructor.
  - intros i j Hi Hj. rewrite <- !E by auto. apply G; auto.
  - intros d. destruct (g_bal _ _ G d). split; rewrite <- !(meq4_forces k k') by (auto; lia); auto.
  - intros d Hd i Hi. rewrite <- (meq4_forces k k') by auto. apply G; auto.
  - intros d. rewrite <- (meq4_energy k k') by auto. apply G.
Qed.

Lemma meq4_let_go t k k' e e' kr kr' r r' : meq4 k k' -> eq4 e e' -> meq4 kr kr' -> eq4 r r' ->
  let_go t k e kr r -> let_go t k' e' kr' r'.
Proof.
  intros Ek Ee Ekr Er LG d. destruct (LG d) as [(d' & H1 & H2) H3]. split.
  - exists d'. split; auto. intros i Hi Hr. rewrite <- (meq4_forces k k'), <- Ee by auto. auto.
  - intros d2 G1 G2 i Hi. cbn beta.
    rewrite <- (meq4_forces k k'), <- (meq4_forces kr kr'), <- Ee, <- Er by auto.
    apply H3; auto. intros j Hj Hr. rewrite (meq4_forces k k'), Ee by auto. auto.
Qed.

(** Condensation respects pointwise equality. *)
Lemma condense_meq k k' t kr : meq4 k k' -> condense k t = Ok kr ->
  exists kr', condense k' t = Ok kr' /\ meq4 kr kr'.
Proof.
  intros E Hk. destruct t as [|[|[|[|[|t]]]]]; cbn in *; try discriminate.
  - injection Hk as <-. eauto.
  - unfold condense1 in *. rewrite <- E by lia. destruct (Req_EM_T _ _); [discriminate|].
    injection Hk as <-. eexists. split; [reflexivity|]. intros i j Hi Hj. cbn beta.
    rewrite <- !E by lia. reflexivity.
  - unfold condense1 in *. rewrite <- E by lia. destruct (Req_EM_T _ _); [discriminate|].
    injection Hk as <-. eexists. split; [reflexivity|]. intros i j Hi Hj. cbn beta.
    rewrite <- !E by lia. reflexivity.
  - unfold condense13 in *. rewrite <- !E by lia. destruct (inv22 _) as [B|]; [|discriminate].
    cbn [rbind] in *. injection Hk as <-. eexists. split; [reflexivity|]. intros i j Hi Hj. cbn beta.
    rewrite <- !E by lia. reflexivity.
Qed.
