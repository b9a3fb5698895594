(** Last steps for the element properties, and witnesses. *)
From Coquelicot Require Import Coquelicot.
From Coq Require Import String.
From Verif Require Import Base BaseFacts SectionModel FlexModel LoadModel LoadSpec LoadFacts DiagFacts ClampFacts ReleaseFacts
  FoundationModel ElementModel ElementSpec ElementFacts ElementFacts2 TimoFacts ConstSectFacts.
Open Scope R_scope.

Lemma span_k_mechanics gl m k : gauss_rule gl -> sound_member m -> span_k gl m = Ok k ->
  symmetric4 k /\
  (forall d, self_balanced (mb_L m) (end_forces k d)) /\
  (forall d, rigid_motion (mb_L m) d -> eq4 (end_forces k d) (fun _ => 0)) /\
  (forall d, 0 <= energy k d) /\
  (mb_type m = 1%nat -> forall d, energy k d = 0 <-> rigid_motion (mb_L m) d).
Proof.
  intros G S Hk. destruct (span_k_good gl m k G S Hk).
  split; [exact g_sym|]. split; [exact g_bal|]. split; [exact g_rig|]. split; [exact g_pos|].
  intros Ht d. exact (span_k_zero_energy gl m k d G S Ht Hk).
Qed.

Lemma timo_stiffness_flexibility gl e g L t k : 0 < L -> 0 < e -> 0 < g ->
  span_k gl {| mb_L := L; mb_EI := RConst e; mb_GAv := Some (RConst g); mb_kf := None; mb_type := t |} = Ok k ->
  exists k', k_timoshenko gl (RConst e) (RConst g) L t = Ok k' /\
    forall i j, (i < 4)%nat -> (j < 4)%nat -> k i j = k' i j.
Proof.
  intros HL He Hg Hk. cbn [span_k mb_kf mb_GAv mb_EI mb_L mb_type] in Hk.
  destruct (timo_flex_const gl e g L HL He Hg) as (F & K & HF & HK).
  assert (Em := k_FF_timo_flex gl e g L F K HL He Hg HF HK).
  destruct (condense_meq (k_FF_timo e g L) (expand K L) t k) as (k' & H1 & H2); auto.
  { intros i j Hi Hj. symmetry. auto. }
  exists k'. split; [|exact H2]. unfold k_timoshenko. rewrite HF. cbn [rbind]. rewrite HK. exact H1.
Qed.

Lemma timo_flex_rotations gl e g L F Ma Mb : 0 < L -> 0 < e -> 0 < g ->
  timo_flexibility gl (RConst e) (RConst g) L = Ok F ->
  chord_rotation L e g (f_V (mamb_diag Ma Mb L)) (f_M (mamb_diag Ma Mb L))
    (m00 F * Ma + m01 F * Mb) (m10 F * Ma + m11 F * Mb).
Proof.
  intros HL He Hg HF. unfold timo_flexibility, shear_flexibility in HF. cbn [rbind] in HF.
  injection HF as <-. cbn [m00 m01 m10 m11 mamb_diag f_V f_M].
  set (ta := (L / (3 * e) + L / g / (L * L)) * Ma + (- L / (6 * e) + L / g / (L * L)) * Mb).
  exists (fun x => ta + ((Ma + Mb) / L * x^2 / 2 - Ma * x) / e). split; [|split].
  - intros x Hx. apply (is_RInt_ext (fun t => (- Ma / e) + ((Ma + Mb) / L / e) * t + 0*t^2 + 0*t^3 + 0*t^4)).
    + intros t _. inR. field. lra.
    + eapply is_RInt_eqval; [apply is_RInt_quartic|]. unfold P4. inR. field. lra.
  - unfold ta. inR. field. lra.
  - apply (is_RInt_ext (fun t => (ta - (Ma + Mb) / L / g) + (- Ma / e) * t + ((Ma + Mb) / L / 2 / e) * t^2 + 0*t^3 + 0*t^4)).
    + intros t _. inR. field. lra.
    + eapply is_RInt_eqval; [apply is_RInt_quartic|]. unfold P4, ta. inR. field. lra.
Qed.

Definition two_piece : member :=
  {| mb_L := 5; mb_EI := RConst 7; mb_GAv := Some (RConst 3); mb_kf := None; mb_type := 1 |}.

Lemma two_piece_sound : sound_member two_piece.
Proof. constructor; cbn; try lra; try lia; auto. intros g [= <-]. cbn. lra. Qed.

Lemma section_example : exists s k, build_const (fun _ _ _ => []) 7 [0; 2; 5] = Ok s /\
  sound_member {| mb_L := 5; mb_EI := RSect s; mb_GAv := None; mb_kf := None; mb_type := 2 |} /\
  span_k (fun _ => gauss2) {| mb_L := 5; mb_EI := RSect s; mb_GAv := None; mb_kf := None; mb_type := 2 |} = Ok k.
Proof.
  assert (St : stations 5 [0; 2; 5]).
  { unfold stations; cbn -[Rleb]. repeat split.
    rewrite !(proj2 (Rleb_false _ 0)) by lra. reflexivity. }
  destruct (build_const_pieces (fun _ _ _ => []) 7 5 [0;2;5] ltac:(lra) ltac:(lra) St) as (s & Hs & P).
  destruct (const_section_stiffness (fun _ => gauss2) 5 7 (RSect s) None None 2 gauss2_rule gauss2_exact) as (k & k' & H1 & H2 & H3);
    try lra; try lia; try reflexivity.
  { right. exists (fun _ _ _ => []), [0;2;5], s. auto. }
  exists s, k'. split; [exact Hs|]. split; [|exact H2].
  constructor; cbn; try lra; try lia; try discriminate; try reflexivity.
  rewrite P. cbn. split.
  - repeat constructor; cbn; lra.
  - intros p x v Hin Hx Hv.
    assert (sect_eval s x = Ok 7).
    { destruct Hin as [<-|[<-|[]]]; cbn in Hx.
      - apply (const_eval s 7 (pairs [0;2;5]) (0, 2)); auto. left. reflexivity.
      - apply (const_eval s 7 (pairs [0;2;5]) (2, 5)); auto. right. left. reflexivity. }
    assert (v = 7) by congruence. lra.
Qed.
