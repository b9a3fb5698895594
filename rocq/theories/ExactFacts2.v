(** The displacement method solves the beam problem. *)
From Coquelicot Require Import Coquelicot.
From Coq Require Import Lia.
From Verif Require Import Base BaseFacts Linalg SectionModel FlexModel LoadModel LoadSpec LoadFacts DiagFacts ClampFacts ReleaseFacts FoundationModel ElementModel ElementSpec ElementFacts ElementFacts2 TimoFacts
  UtilsModel BeamModel AnalysisModel AnalysisSpec LinearFacts AnalysisFacts AnalysisFacts2 AnalysisFacts3 MechFacts ResultsModel ResultsSpec ResultsFacts ExactSpec ExactFacts.
Open Scope R_scope.

Definition attached (mb : member) (ld : load) : Prop := match ld with LIC _ o => o = Some (mb_EI mb) | _ => True end.

Lemma attached_loads b ls m mb : parsed_loads b = Ok ls -> member_at b m = Ok mb -> Forall (attached mb) (loads_of ls m).
Proof.
  intros E Em. unfold parsed_loads in E. apply rbind_ok in E as (l0 & _ & E).
  assert (Ee : get (b_EIs b) m = Ok (mb_EI mb)).
  { unfold member_at in Em. apply rbind_ok in Em as (e & E1 & Em). apply rbind_ok in Em as (l & _ & Em). apply rbind_ok in Em as (t & _ & Em). injection Em as <-. exact E1. }
  unfold loads_of. apply Forall_forall. intros ld Hld. apply in_map_iff in Hld as ([s ld'] & <- & Hp). apply filter_In in Hp as [Hp Hs]. cbn [fst snd] in *.
  apply Z.eqb_eq in Hs. subst s. destruct (mapM_In _ _ _ E _ Hp) as ([s q] & _ & Eq). unfold attach_EI in Eq.
  destruct q; try (injection Eq as _ <-; exact I).
  apply rbind_ok in Eq as (i & Ei & Eq). apply rbind_ok in Eq as (e & Ee' & Eq). injection Eq as Es <-. subst s. cbn.
  assert (i = m).
  { unfold py_index in Ei. destruct (0 <=? Z.of_nat m)%Z eqn:Q; [|apply Z.leb_gt in Q; lia]. destruct (_ <? _)%Z; [|discriminate]. injection Ei as <-. apply Nat2Z.id. }
  subst i. rewrite Ee in Ee'. congruence.
Qed.

Section Member.
Variable gl : nat -> list (R * R).
Variable mb : member.
Variables (ei : R) (ga : option R).
Hypothesis PR : prismatic mb.
Hypothesis EE : mb_EI mb = RConst ei.
Hypothesis EG : mb_GAv mb = option_map RConst ga.
Local Notation L := (mb_L mb).
Lemma HL : 0 < L. Proof. exact (pr_L _ PR). Qed.
Lemma Hei : 0 < ei. Proof. destruct (pr_EI _ PR) as (e & E & H). rewrite EE in E. injection E as ->. exact H. Qed.
Lemma Hga : match ga with None => True | Some g => 0 < g end.
Proof. destruct (pr_GAv _ PR) as [E|(g & E & H)]; rewrite EG in E; destruct ga; try discriminate; [exact I|injection E as ->; exact H]. Qed.
Lemma Hflex : 0 <= flex ga.
Proof. assert (H := Hga). destruct ga; cbn; [left; apply Rinv_0_lt_compat, H|lra]. Qed.
Lemma pr_sound : sound_member mb.
Proof.
  constructor.
  - exact HL.
  - rewrite EE. exact Hei.
  - intros g E. assert (H := Hga). rewrite EG in E. destruct ga; [|discriminate]. injection E as <-. exact H.
  - exact (pr_kf _ PR).
  - pose proof (pr_type _ PR). lia.
Qed.

Definition k1 : mat := match ga with None => k_FF ei L | Some g => k_FF_timo ei g L end.
Lemma k1_ok : span_k gl (set_type mb 1) = Ok k1.
Proof.
  unfold span_k, k1. cbn [set_type mb_kf mb_GAv mb_EI mb_L mb_type]. rewrite (pr_kf _ PR), EE, EG. destruct ga; reflexivity.
Qed.

(** Unloaded member between displaced nodes. *)
Lemma unloaded d : exists V M th y, bent_member L ei ga (fun _ => 0) no_action (end_forces k1 d) V M th y /\
  th 0 = d 1%nat /\ th L = d 3%nat /\ y 0 = d 0%nat /\ y L = d 2%nat.
Proof.
  assert (HL := HL). assert (He := Hei). assert (Hg := Hga). assert (L2 : 0 < L^2) by (apply pow_lt, HL).
  set (f := end_forces k1 d).
  assert (F : f 0%nat + f 2%nat = 0 /\ f 3%nat = - f 1%nat + f 0%nat * L /\
    d 1%nat + (f 0%nat * L^2 / 2 - f 1%nat * L) / ei = d 3%nat /\
    d 0%nat + d 1%nat * L + (f 0%nat * L^3 / 6 - f 1%nat * L^2 / 2) / ei - f 0%nat * flex ga * L = d 2%nat).
  { unfold f, end_forces, mulmv, k1. destruct ga as [g|]; cbn -[pow].
    - assert (0 < g * L^2 + 12 * ei) by (assert (0 < g * L^2) by (apply Rmult_lt_0_compat; assumption); lra).
      repeat apply conj; field; repeat split; try lra.
    - repeat apply conj; field; lra. }
  destruct F as (F1 & F2 & F3 & F4).
  assert (P := poly_bent L ei ga f 0 0 0 (d 1%nat) (d 0%nat) F1 F2 ltac:(lra)).
  do 4 eexists. split; [eapply bent_ext; [exact P|intros x; cbv beta; ring|intros i _; reflexivity]|]. cbv beta.
  split; [unfold Rdiv; ring|]. split; [rewrite <- F3; unfold Rdiv; ring|]. split; [unfold Rdiv; ring|]. rewrite <- F4. unfold Rdiv. ring.
Qed.

(** Loads of the member with fixed ends. *)
Lemma one_clamps ld v : exact_load mb ld -> attached mb ld -> ref_one gl (set_type mb 1) ld = Ok v ->
  clamps L ei ga (imposed [ld]) (action_of L ld) v.
Proof.
  intros [Hw Hx] Ha Hv. unfold ref_one in Hv. cbn [set_type mb_GAv mb_EI mb_L mb_type] in Hv. rewrite EE, EG in Hv.
  assert (Hg := Hga). rewrite EG in Hx.
  assert (Z : forall k A f, clamps L ei ga k A f -> (forall x, k x = imposed [ld] x) -> eq4 f v -> clamps L ei ga (imposed [ld]) A v).
  { intros k A f (V & M & th & y & B & E) Ek Ef. exists V, M, th, y. split; [|exact E]. eapply bent_ext; [exact B|exact Ek|exact Ef]. }
  assert (R1 : forall c, eq4 (cnl_vec c) (cnl_vec (release c L 1))).
  { intros c i Hi. destruct i as [|[|[|[|i]]]]; cbn; try lra. }
  destruct (match ld with LIC _ _ => true | _ => false end) eqn:Q.
  - destruct ld; try discriminate. cbn in Ha. rewrite EE in Ha. subst EI. cbn [action_of].
    assert (EI : forall x, kappa_imp kappa x = imposed [LIC kappa (Some (RConst ei))] x) by (intros x; unfold imposed; cbn; ring).
    destruct ga as [g|]; cbn [option_map] in Hv.
    + apply (Z (kappa_imp kappa) no_action v); [|exact EI|intros i _; reflexivity]. exact (clamps_ic gl kappa L ei (Some g) v HL Hei Hg Hx Hv).
    + apply rbind_ok in Hv as (c & Hc & Hv). unfold load_get_ref in Hc. apply rbind_ok in Hc as (c0 & Hc & Ec).
      injection Hv as <-. injection Ec as <-. apply (Z (kappa_imp kappa) no_action (cnl_vec c0)); [|exact EI|exact (R1 c0)].
      apply (clamps_ic gl kappa L ei None _ HL Hei I Hx). exists c0. split; [exact Hc|reflexivity].
  - assert (K0 : forall x, 0 = imposed [ld] x) by (intros x; unfold imposed; destruct ld; try discriminate; cbn; ring).
    destruct ga as [g|]; cbn [option_map] in Hv, Hx.
    + apply (Z (fun _ => 0) _ v); [|exact K0|intros i _; reflexivity].
      apply (clamps_timo gl ld L ei g v HL Hei Hg Hw); [destruct ld; try discriminate; try contradiction; exact I|exact Hv].
    + apply rbind_ok in Hv as (c & Hc & Hv). unfold load_get_ref in Hc. apply rbind_ok in Hc as (c0 & Hc & Ec).
      injection Hv as <-. injection Ec as <-. apply (Z (fun _ => 0) _ (cnl_vec c0)); [|exact K0|exact (R1 c0)].
      apply (clamps_eb gl ld L ei c0 HL Hei Hw); [destruct ld; try discriminate; try contradiction; exact I|exact Hc].
Qed.
Lemma none_clamps : clamps L ei ga (fun _ => 0) no_action (fun _ => 0).
Proof.
  assert (P := poly_bent L ei ga (fun _ => 0) 0 0 0 0 0 ltac:(cbv beta; ring) ltac:(cbv beta; ring) ltac:(pose proof Hei; lra)). cbv beta in P.
  do 4 eexists. split; [eapply bent_ext; [exact P|intros x; cbv beta; ring|intros i _; reflexivity]|]. cbv beta. repeat split; unfold Rdiv; ring.
Qed.
Lemma clamps_plus k A f k' B g : clamps L ei ga k A f -> clamps L ei ga k' B g ->
  clamps L ei ga (fun x => k x + k' x) (action_plus A B) (fun i => f i + g i).
Proof.
  intros (V & M & t & y & H & a & b & c & d) (V' & M' & t' & y' & H' & a' & b' & c' & d').
  do 4 eexists. split; [exact (bent_plus _ _ _ _ _ _ _ _ _ _ _ _ _ _ _ _ _ H H')|]. cbv beta. rewrite a, b, c, d, a', b', c', d'. repeat split; ring.
Qed.
Lemma clamps_ext k k' A f g : clamps L ei ga k A f -> (forall x, k x = k' x) -> eq4 f g -> clamps L ei ga k' A g.
Proof. intros (V & M & t & y & H & E) Ek Ef. exists V, M, t, y. split; [eapply bent_ext; eassumption|exact E]. Qed.
Lemma loads_clamp lds : forall v, Forall (exact_load mb) lds -> Forall (attached mb) lds -> span_ref gl (set_type mb 1) lds = Ok v ->
  clamps L ei ga (imposed lds) (actions L lds) v.
Proof.
  induction lds as [|ld lds IH]; intros v X A Hv.
  - unfold span_ref in Hv. cbn [set_type mb_kf] in Hv. rewrite (pr_kf _ PR) in Hv. injection Hv as <-. exact none_clamps.
  - inversion_clear X as [|? ? X1 X2]. inversion_clear A as [|? ? A1 A2].
    destruct (span_ref_app_ok gl (set_type mb 1) [ld] lds v Hv) as (v1 & v2 & H1 & H2 & E).
    unfold span_ref in H1. cbn [set_type mb_kf] in H1. rewrite (pr_kf _ PR) in H1. cbn [foldM] in H1.
    apply rbind_ok in H1 as (w & H1 & H3). apply rbind_ok in H1 as (v0 & H1 & H4). injection H3 as <-. injection H4 as <-.
    eapply clamps_ext; [exact (clamps_plus _ _ _ _ _ _ (one_clamps ld v0 X1 A1 H1) (IH v2 X2 A2 H2))|..].
    + intros x. unfold imposed. cbn [map]. rewrite !lsum_cons. unfold lsum. cbn [fold_right]. ring.
    + intros i _. rewrite E. cbv beta. ring.
Qed.
Lemma fixed_bent lds e d : Forall (exact_load mb) lds -> Forall (attached mb) lds -> span_ref gl (set_type mb 1) lds = Ok e ->
  exists V M th y, bent_member L ei ga (imposed lds) (actions L lds) (fun p => end_forces k1 d p + e p) V M th y /\
    th 0 = d 1%nat /\ th L = d 3%nat /\ y 0 = d 0%nat /\ y L = d 2%nat.
Proof.
  intros X A He. destruct (loads_clamp lds e X A He) as (V & M & t & y & H & a & b & c & q).
  destruct (unloaded d) as (V' & M' & t' & y' & H' & a' & b' & c' & q').
  assert (S := bent_plus _ _ _ _ _ _ _ _ _ _ _ _ _ _ _ _ _ H' H).
  exists (fun x => V' x + V x), (fun x => M' x + M x), (fun x => t' x + t x), (fun x => y' x + y x). split.
  - destruct S as [S1 S2 S3 S4]. constructor; [apply cut_drop_none; exact S1| | |exact S4].
    + destruct S2 as (I & i1 & e1). exists I. split; [|exact e1]. refine (RInt_ext_all _ _ _ _ _ _ i1). intros x. cbn. ring.
    + intros x Hx. refine (RInt_ext_all _ _ _ _ _ _ (S3 x Hx)). intros x'. cbn. ring.
  - cbv beta. rewrite a, b, c, q, a', b', c', q'. repeat split; ring.
Qed.

(** Loads that the member takes with its own end conditions it takes with fixed ends. *)
Lemma fixed_ref t lds v : span_ref gl (set_type mb t) lds = Ok v -> exists e, span_ref gl (set_type mb 1) lds = Ok e.
Proof.
  unfold span_ref. cbn [set_type mb_kf]. rewrite (pr_kf _ PR).
  assert (X : forall lds acc acc' w, foldM (fun acc ld => do v <- ref_one gl (set_type mb t) ld; Ok (fun i => acc i + v i)) lds acc = Ok w ->
    exists e, foldM (fun acc ld => do v <- ref_one gl (set_type mb 1) ld; Ok (fun i => acc i + v i)) lds acc' = Ok e).
  { clear lds v. induction lds as [|ld lds IH]; intros acc acc' w H; cbn [foldM] in *; [eauto|].
    apply rbind_ok in H as (a & H1 & H). apply rbind_ok in H1 as (v & H1 & _).
    assert (Q : exists v', ref_one gl (set_type mb 1) ld = Ok v').
    { unfold ref_one in *. cbn [set_type mb_GAv mb_EI mb_L mb_type] in *. rewrite EE, EG in *. destruct ga as [g|]; cbn [option_map] in *.
      - unfold ref_timoshenko in *. apply rbind_ok in H1 as (c & -> & H1). cbn [rbind]. eexists. reflexivity.
      - unfold load_get_ref in *. apply rbind_ok in H1 as (c & H1 & _). apply rbind_ok in H1 as (c0 & -> & _). eexists. reflexivity. }
    destruct Q as (v' & ->). cbn [rbind]. eapply IH. exact H. }
  apply X.
Qed.
Lemma set_own : set_type mb (mb_type mb) = mb. Proof. destruct mb; reflexivity. Qed.

Hypothesis G : gauss_rule gl.
(** With the member's own end conditions. *)
Lemma own_bent lds k r d : Forall (exact_load mb) lds -> Forall (attached mb) lds -> span_k gl mb = Ok k -> span_ref gl mb lds = Ok r ->
  exists V M th y, bent_member L ei ga (imposed lds) (actions L lds) (fun p => end_forces k d p + r p) V M th y /\
    joined (mb_type mb) d (fun p => end_forces k d p + r p) L th y.
Proof.
  intros X A Hk Hr. rewrite <- set_own in Hk, Hr. destruct (fixed_ref _ _ _ Hr) as (e & He).
  assert (T := pr_type _ PR). destruct (Nat.eq_dec (mb_type mb) 1) as [E1|E1].
  - rewrite E1 in *. rewrite k1_ok in Hk. injection Hk as <-. rewrite He in Hr. injection Hr as <-.
    destruct (fixed_bent lds e d X A He) as (V & M & th & y & B & a & b & c & q). exists V, M, th, y. split; [exact B|].
    constructor; auto. intros p [].
  - assert (Ht : (mb_type mb = 2 \/ mb_type mb = 3)%nat) by lia.
    destruct (span_let_go gl mb (mb_type mb) lds k1 k e r G pr_sound Ht k1_ok Hk He Hr d) as [(d' & D1 & D2) U].
    assert (E := U d' D1 D2). destruct (fixed_bent lds e d' X A He) as (V & M & th & y & B & a & b & c & q).
    exists V, M, th, y. split; [eapply bent_ext; [exact B|reflexivity|exact E]|].
    constructor.
    + rewrite c. apply D1; [lia|]. destruct Ht as [-> | ->]; cbn; lia.
    + rewrite q. apply D1; [lia|]. destruct Ht as [-> | ->]; cbn; lia.
    + intros N. rewrite a. apply D1; [lia|exact N].
    + intros N. rewrite b. apply D1; [lia|exact N].
    + intros p Hp. assert (p < 4)%nat by (destruct Ht as [E' | E']; rewrite E' in Hp; cbn in Hp; lia). rewrite <- (E p) by assumption. apply D2; assumption.
Qed.
(** Bent members have the end forces of the displacement method. *)
Lemma bent_own lds k r d f V M th y : Forall (exact_load mb) lds -> Forall (attached mb) lds -> span_k gl mb = Ok k -> span_ref gl mb lds = Ok r ->
  bent_member L ei ga (imposed lds) (actions L lds) f V M th y -> joined (mb_type mb) d f L th y ->
  eq4 f (fun p => end_forces k d p + r p).
Proof.
  intros X A Hk Hr B J. rewrite <- set_own in Hk, Hr. destruct (fixed_ref _ _ _ Hr) as (e & He).
  set (d' := vec4 (y 0) (th 0) (y L) (th L)).
  destruct (fixed_bent lds e d' X A He) as (V' & M' & th' & y' & B' & a & b & c & q).
  assert (E : eq4 f (fun p => end_forces k1 d' p + e p)).
  { apply (bent_unique _ _ _ _ _ _ _ _ _ _ _ _ _ _ _ HL Hei Hflex B B'); cbn in *; congruence. }
  assert (T := pr_type _ PR). destruct J as [J1 J2 J3 J4 J5].
  destruct (Nat.eq_dec (mb_type mb) 1) as [E1|E1].
  - rewrite E1 in *. rewrite k1_ok in Hk. injection Hk as <-. rewrite He in Hr. injection Hr as <-.
    intros p Hp. rewrite (E p Hp). f_equal. unfold end_forces, mulmv. apply rsum_ext. intros j Hj. f_equal. unfold d'.
    destruct j as [|[|[|[|j]]]]; cbn; [exact J1|apply J3; intros []|exact J2|apply J4; intros []|lia].
  - assert (Ht : (mb_type mb = 2 \/ mb_type mb = 3)%nat) by lia.
    destruct (span_let_go gl mb (mb_type mb) lds k1 k e r G pr_sound Ht k1_ok Hk He Hr d) as [_ U].
    intros p Hp. rewrite (E p Hp). apply U; [| |exact Hp].
    + intros i Hi N. unfold d'. destruct i as [|[|[|[|i]]]]; cbn; [exact J1|apply J3, N|exact J2|apply J4, N|lia].
    + intros i Hi N. rewrite <- (E i Hi). apply J5, N.
Qed.
End Member.
